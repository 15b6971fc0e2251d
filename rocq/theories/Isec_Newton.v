(** Newton's method for a curve and a patch, and the threads of one surface against the patches of the other. *)
From Coq Require Import List ZArith Arith Lia Bool Reals Lra Psatz.
From Verif Require Import Spline_Model Spline_Spec Spline_Piece Spline_Proofs Spline_Curve Fit_Basis Isec_Model Isec_Spec Isec_Basis Isec_Run.
Import ListNotations.
Local Open Scope R_scope.

Definition in_box (s : surface) (c : curve) (iu iv it : nat) (x : param) : Prop :=
  in_cell (u_basis s) iu (fst (fst x)) /\ in_cell (v_basis s) iv (snd (fst x)) /\ in_cell (c_basis c) it (snd x).
(** x1, x2 are the points of surface and curve at parameters p of the box. *)
Definition both (s : surface) (c : curve) (iu iv it : nat) (p : param) (x1 x2 : list R) : Prop :=
  in_box s c iu iv it p /\ surface_eval s (fst (fst p)) (snd (fst p)) = Some x1 /\ curve_eval c (snd p) = Some x2 /\ length x1 = 3%nat /\ length x2 = 3%nat.

Lemma three (x : list R) : length x = 3%nat -> exists a b c, x = [a; b; c].
Proof. destruct x as [|a [|b [|c [|]]]]; try discriminate. now exists a, b, c. Qed.
Lemma norm_distance x y : length x = 3%nat -> length y = 3%nat -> norm (vsub x y) = distance x y.
Proof.
  intros X Y. destruct (three x X) as (a & b & c & ->). destruct (three y Y) as (a' & b' & c' & ->). unfold norm, distance, vsub. cbn. f_equal. ring.
Qed.
Lemma vmid_middle x y : length x = 3%nat -> length y = 3%nat -> middle_of x y (vmid x y).
Proof.
  intros X Y. destruct (three x X) as (a & b & c & ->). destruct (three y Y) as (a' & b' & c' & ->). split; [reflexivity|]. intros [|[|[|j]]]; cbn; try destruct j; lra.
Qed.
Lemma clip_cell b i x : cells_basis b -> (i < n_intervals b)%nat -> in_cell b i (clip (kn (knots b) (i + 2)) (kn (knots b) (i + 3)) x).
Proof.
  intros E L. assert (S := strict b E i L). split; [exact L|]. unfold clip, Rmin, Rmax. repeat destruct (Rle_dec _ _); lra.
Qed.
Lemma middle_cell b i : cells_basis b -> (i < n_intervals b)%nat -> in_cell b i (middle b i).
Proof. intros E L. assert (S := strict b E i L). split; [exact L|]. unfold middle. lra. Qed.

Section Newt.
Variables (s : surface) (c : curve).
Hypothesis P : plain s 3.
Hypothesis Q : plain_curve c 3.
Notation ub := (u_basis s).
Notation vb := (v_basis s).
Notation cb := (c_basis c).
Let EU := proj1 P.
Let EV := proj1 (proj2 P).
Let EC := proj1 Q.
Lemma jacobian_l iu iv it u v t : in_box s c iu iv it (u, v, t) -> jacobian s c iu iv it (u, v, t) =
  Some ([map (SS s (fun i => dev ub i u) (fun k => ev vb k v)) (seq 0 3); map (SS s (fun i => ev ub i u) (fun k => dev vb k v)) (seq 0 3); map Ropp (map (CC c (fun i => dev cb i t)) (seq 0 3))],
    map (SS s (fun i => ev ub i u) (fun k => ev vb k v)) (seq 0 3), map (CC c (fun i => ev cb i t)) (seq 0 3)).
Proof.
  intros (A & B & C). cbn [fst snd] in A, B, C. unfold jacobian. rewrite (cvec ub EU iu u (proj1 A)), (cvec vb EV iv v (proj1 B)), (cvec cb EC it t (proj1 C)), (cdvec ub EU iu u A), (cdvec vb EV iv v B), (cdvec cb EC it t C).
  rewrite (cols_d s 3 P), (ccols_d c 3 Q). cbv zeta.
  assert (SSE : forall f g, (forall i, (i < size ub)%nat -> (i < iu \/ iu + 3 <= i)%nat -> f i = 0) -> (forall i, (i < size vb)%nat -> (i < iv \/ iv + 3 <= i)%nat -> g i = 0) ->
    map (fun j => inner2 (map (fun r => f (iu + r)%nat) (seq 0 3)) (map (fun r => g (iv + r)%nat) (seq 0 3)) (sub_array iu 3 iv 3 (fun p => nth j p 0) (s_poles s))) (seq 0 3) = map (SS s f g) (seq 0 3)).
  { intros f g F G. apply map_ext. intros j. apply (inner2_f s 3 P); try assumption; [apply (proj1 A)|apply (proj1 B)]. }
  assert (CCE : forall f, (forall i, (i < size cb)%nat -> (i < it \/ it + 3 <= i)%nat -> f i = 0) ->
    map (fun j => inner (map (fun r => f (it + r)%nat) (seq 0 3)) (column j (slice it 3 (c_poles c)))) (seq 0 3) = map (CC c f) (seq 0 3)).
  { intros f F. apply map_ext. intros j. apply (inner_f c 3 Q); [apply (proj1 C)|exact F]. }
  assert (U1 := fun i H O => proj1 (coutside ub EU iu u i A H O)). assert (U2 := fun i H O => proj2 (coutside ub EU iu u i A H O)).
  assert (V1 := fun i H O => proj1 (coutside vb EV iv v i B H O)). assert (V2 := fun i H O => proj2 (coutside vb EV iv v i B H O)).
  assert (C1 := fun i H O => proj1 (coutside cb EC it t i C H O)). assert (C2 := fun i H O => proj2 (coutside cb EC it t i C H O)).
  rewrite (SSE (fun i => dev ub i u) (fun i => ev vb i v) U2 V1), (SSE (fun i => ev ub i u) (fun i => dev vb i v) U1 V2), (SSE (fun i => ev ub i u) (fun i => ev vb i v) U1 V1).
  rewrite (CCE (fun i => dev cb i t) C2), (CCE (fun i => ev cb i t) C1). reflexivity.
Qed.
Lemma jacobian_both iu iv it x : in_box s c iu iv it x -> exists J x1 x2, jacobian s c iu iv it x = Some (J, x1, x2) /\ both s c iu iv it x x1 x2.
Proof.
  destruct x as [[u v] t]. intros B. assert (B' := B). destruct B' as (A1 & A2 & A3). cbn [fst snd] in A1, A2, A3. do 3 eexists. split; [apply (jacobian_l iu iv it u v t B)|]. split; [exact B|]. cbn [fst snd].
  split; [|split; [|split; now rewrite map_length, seq_length]].
  - apply (eval_SS s 3 P); eapply cell_dom; eassumption.
  - apply (eval_CC c 3 Q). eapply cell_dom; eassumption.
Qed.

Variable solve : list (list R) -> list R -> option param.
Variable tol : R.
Definition outcome (iu iv it : nat) (y : param) (cv : bool) (xyz : list R) : Prop :=
  in_box s c iu iv it y /\ exists p x1 x2, both s c iu iv it p x1 x2 /\ middle_of x1 x2 xyz /\ (cv = true <-> distance x1 x2 <= tol) /\ (distance x1 x2 < tol -> p = y).
Lemma newton_l iu iv it n : forall x last, in_box s c iu iv it x ->
  (forall b x1 x2, last = Some (b, x1, x2) -> exists p, both s c iu iv it p x1 x2 /\ (b = true <-> distance x1 x2 <= tol) /\ ~ distance x1 x2 < tol) ->
  forall y cv xyz, newton solve s c iu iv it tol n x last = Some (y, cv, xyz) -> outcome iu iv it y cv xyz.
Proof.
  induction n as [|n IH]; intros x last B LA y cv xyz; cbn [newton].
  - destruct last as [[[b x1] x2]|]; [|discriminate]. intros [= <- <- <-]. destruct (LA b x1 x2 eq_refl) as (p & BO & CV & N). split; [exact B|]. exists p, x1, x2. split; [exact BO|].
    destruct BO as (_ & _ & _ & L1 & L2). split; [now apply vmid_middle|]. split; [exact CV|]. tauto.
  - destruct (jacobian_both iu iv it x B) as (J & x1 & x2 & E & BO). rewrite E. assert (BO' := BO). destruct BO' as (_ & _ & _ & L1 & L2). rewrite (norm_distance x1 x2 L1 L2).
    assert (CV : Rleb (distance x1 x2) tol = true <-> distance x1 x2 <= tol). { destruct (Rleb_spec (distance x1 x2) tol); split; auto; discriminate. }
    cbv zeta. destruct (Rltb_spec (distance x1 x2) tol) as [H|H].
    + intros [= <- <- <-]. split; [exact B|]. exists x, x1, x2. split; [exact BO|]. split; [now apply vmid_middle|]. split; [exact CV|]. reflexivity.
    + destruct (solve J (vsub x1 x2)) as [[[du dv] dt]|]; [|discriminate]. destruct x as [[u v] t]. destruct B as (A1 & A2 & A3). intros F. refine (IH _ _ _ _ _ _ _ F).
      * split; [|split]; cbn [fst snd]; apply clip_cell; try assumption; [apply (proj1 A1)|apply (proj1 A2)|apply (proj1 A3)].
      * intros b' x1' x2' [= <- <- <-]. exists (u, v, t). split; [exact BO|]. split; [exact CV|exact H].
Qed.
Lemma newton_total iu iv it n : (forall x J x1 x2, in_box s c iu iv it x -> jacobian s c iu iv it x = Some (J, x1, x2) -> solve J (vsub x1 x2) <> None) ->
  forall x last, in_box s c iu iv it x -> (n <> 0%nat \/ last <> None) -> newton solve s c iu iv it tol n x last <> None.
Proof.
  intros T. induction n as [|n IH]; intros x last B H; cbn [newton].
  - destruct last as [[[b x1] x2]|]; [discriminate|]. destruct H as [H|H]; now apply H in H || (exfalso; now apply H).
  - destruct (jacobian_both iu iv it x B) as (J & x1 & x2 & E & BO). rewrite E. cbv zeta. destruct (Rltb _ _); [discriminate|].
    specialize (T x J x1 x2 B E). destruct (solve J (vsub x1 x2)) as [[[du dv] dt]|]; [|congruence]. destruct x as [[u v] t]. destruct B as (A1 & A2 & A3). apply IH.
    + split; [|split]; cbn [fst snd]; apply clip_cell; try assumption; [apply (proj1 A1)|apply (proj1 A2)|apply (proj1 A3)].
    + right. discriminate.
Qed.
Lemma get_l iu iv it max_it y cv xyz : (iu < n_intervals ub)%nat -> (iv < n_intervals vb)%nat -> (it < n_intervals cb)%nat ->
  get_intersection solve s c iu iv it max_it tol = Some (y, cv, xyz) -> outcome iu iv it y cv xyz.
Proof.
  intros A B C. apply newton_l; [|discriminate]. split; [|split]; cbn [fst snd]; now apply middle_cell.
Qed.
Lemma get_total iu iv it max_it : (iu < n_intervals ub)%nat -> (iv < n_intervals vb)%nat -> (it < n_intervals cb)%nat ->
  (forall x J x1 x2, in_box s c iu iv it x -> jacobian s c iu iv it x = Some (J, x1, x2) -> solve J (vsub x1 x2) <> None) -> max_it <> 0%nat ->
  get_intersection solve s c iu iv it max_it tol <> None.
Proof.
  intros A B C T N. apply newton_total; [exact T| |now left]. split; [|split]; cbn [fst snd]; now apply middle_cell.
Qed.

(** Flat patches and straight pieces of curves. *)
Lemma affine_deriv (D : R -> Prop) f b i x m d0 : cells_basis b -> (i < n_intervals b)%nat -> (forall y, in_cell b i y -> D y) -> kn (knots b) (i + 2) < x < kn (knots b) (i + 3) ->
  (forall y, in_cell b i y -> f y = f x + m * (y - x)) -> deriv_within D f x d0 -> d0 = m.
Proof.
  intros E L DD X F H. destruct (Req_dec d0 m) as [|N]; [assumption|exfalso]. destruct (H (Rabs (m - d0)) ltac:(apply Rabs_pos_lt; lra)) as (del & DP & G).
  set (y := x + Rmin del (kn (knots b) (i + 3) - x) / 2). assert (Y : x < y /\ y - x < del /\ y <= kn (knots b) (i + 3)). { unfold y, Rmin. destruct (Rle_dec del (kn (knots b) (i + 3) - x)); lra. }
  assert (C : in_cell b i y) by (split; [exact L|lra]). specialize (G y (DD y C) ltac:(lra) ltac:(rewrite Rabs_right; lra)). rewrite (F y C) in G. replace ((f x + m * (y - x) - f x) / (y - x)) with m in G by (field; lra). lra.
Qed.
Lemma det_kernel J x y z : det J <> 0 -> (forall j, (j < 3)%nat -> product J x y z j = 0) -> x = 0 /\ y = 0 /\ z = 0.
Proof.
  intros D H. assert (A := H 0%nat ltac:(lia)). assert (B := H 1%nat ltac:(lia)). assert (C := H 2%nat ltac:(lia)). clear H. unfold product, det in *.
  set (a0 := nth 0 (nth 0 J []) 0) in *. set (a1 := nth 1 (nth 0 J []) 0) in *. set (a2 := nth 2 (nth 0 J []) 0) in *.
  set (b0 := nth 0 (nth 1 J []) 0) in *. set (b1 := nth 1 (nth 1 J []) 0) in *. set (b2 := nth 2 (nth 1 J []) 0) in *.
  set (c0 := nth 0 (nth 2 J []) 0) in *. set (c1 := nth 1 (nth 2 J []) 0) in *. set (c2 := nth 2 (nth 2 J []) 0) in *.
  set (dt := a0 * (b1 * c2 - b2 * c1) - b0 * (a1 * c2 - a2 * c1) + c0 * (a1 * b2 - a2 * b1)) in *.
  assert (X : dt * x = (b1 * c2 - b2 * c1) * (a0 * x + b0 * y + c0 * z) - (b0 * c2 - b2 * c0) * (a1 * x + b1 * y + c1 * z) + (b0 * c1 - b1 * c0) * (a2 * x + b2 * y + c2 * z)) by (unfold dt; ring).
  assert (Y : dt * y = - (a1 * c2 - a2 * c1) * (a0 * x + b0 * y + c0 * z) + (a0 * c2 - a2 * c0) * (a1 * x + b1 * y + c1 * z) - (a0 * c1 - a1 * c0) * (a2 * x + b2 * y + c2 * z)) by (unfold dt; ring).
  assert (Z : dt * z = (a1 * b2 - a2 * b1) * (a0 * x + b0 * y + c0 * z) - (a0 * b2 - a2 * b0) * (a1 * x + b1 * y + c1 * z) + (a0 * b1 - a1 * b0) * (a2 * x + b2 * y + c2 * z)) by (unfold dt; ring).
  rewrite A, B, C in X, Y, Z. repeat split; apply (Rmult_eq_reg_l dt); try exact D; lra.
Qed.
Lemma coord_nth o x j : o = Some x -> coord o j = nth j x 0.
Proof. now intros ->. Qed.
Lemma three_seq (f : nat -> R) : map f (seq 0 3) = [f 0%nat; f 1%nat; f 2%nat].
Proof. reflexivity. Qed.
Lemma distance_zero x y : length x = 3%nat -> length y = 3%nat -> (forall j, (j < 3)%nat -> nth j x 0 = nth j y 0) -> distance x y = 0.
Proof.
  intros X Y H. unfold distance. rewrite X. rewrite rsum_0; [apply sqrt_0|]. intros i I. rewrite (H i I). ring.
Qed.
Lemma clip_id lo hi x : lo <= x <= hi -> clip lo hi x = x.
Proof. intros H. unfold clip, Rmin, Rmax. repeat destruct (Rle_dec _ _); lra. Qed.
Lemma flat_l iu iv it max_it a p q e r u0 v0 t0 : exact_solver solve -> 0 < tol -> (2 <= max_it)%nat ->
  flat s iu iv a p q -> straight c it e r -> det [map p (seq 0 3); map q (seq 0 3); map (fun j => - r j) (seq 0 3)] <> 0 ->
  in_box s c iu iv it (u0, v0, t0) -> (forall j, (j < 3)%nat -> coord (surface_eval s u0 v0) j = coord (curve_eval c t0) j) ->
  let um := middle ub iu in let vm := middle vb iv in let tm := middle cb it in
  exists x1 x2 xyz, surface_eval s um vm = Some x1 /\ curve_eval c tm = Some x2 /\
    get_intersection solve s c iu iv it max_it tol = Some (if Rlt_dec (distance x1 x2) tol then (um, vm, tm) else (u0, v0, t0), true, xyz).
Proof.
  intros ES TP MI FL STR DN (B1 & B2 & B3) RT um vm tm. cbn [fst snd] in *.
  assert (MU := middle_cell ub iu EU (proj1 B1)). assert (MV := middle_cell vb iv EV (proj1 B2)). assert (MT := middle_cell cb it EC (proj1 B3)). fold um in MU. fold vm in MV. fold tm in MT.
  assert (DU := cell_dom ub EU iu um MU). assert (DV := cell_dom vb EV iv vm MV). assert (DT := cell_dom cb EC it tm MT).
  assert (SU := strict ub EU iu (proj1 B1)). assert (SV := strict vb EV iv (proj1 B2)). assert (SC := strict cb EC it (proj1 B3)).
  assert (J1 : forall j, (j < 3)%nat -> SS s (fun i => dev ub i um) (fun k => ev vb k vm) j = p j).
  { intros j J. refine (affine_deriv (in_dom ub) _ ub iu um (p j) _ EU (proj1 B1) (fun y => cell_dom ub EU iu y) _ _ (deriv_ss_u s 3 P um vm j J DU DV)); [unfold um, middle; lra|].
    intros y Y. cbv beta. rewrite (FL y vm Y MV j J), (FL um vm MU MV j J). ring. }
  assert (J2 : forall j, (j < 3)%nat -> SS s (fun i => ev ub i um) (fun k => dev vb k vm) j = q j).
  { intros j J. refine (affine_deriv (in_dom vb) _ vb iv vm (q j) _ EV (proj1 B2) (fun y => cell_dom vb EV iv y) _ _ (deriv_ss_v s 3 P um vm j J DU DV)); [unfold vm, middle; lra|].
    intros y Y. cbv beta. rewrite (FL um y MU Y j J), (FL um vm MU MV j J). ring. }
  assert (J3 : forall j, (j < 3)%nat -> CC c (fun i => dev cb i tm) j = r j).
  { intros j J. refine (affine_deriv (in_dom cb) _ cb it tm (r j) _ EC (proj1 B3) (fun y => cell_dom cb EC it y) _ _ (deriv_cc c 3 Q tm j J DT)); [unfold tm, middle; lra|].
    intros y Y. cbv beta. rewrite (STR y Y j J), (STR tm MT j J). ring. }
  assert (BM : in_box s c iu iv it (um, vm, tm)) by (split; [exact MU|split; [exact MV|exact MT]]).
  assert (JM := jacobian_l iu iv it um vm tm BM). destruct (jacobian_both iu iv it _ BM) as (J & x1 & x2 & E & (_ & S1 & C1 & L1 & L2)). cbn [fst snd] in S1, C1.
  rewrite E in JM. assert (JE : J = [map p (seq 0 3); map q (seq 0 3); map (fun j => - r j) (seq 0 3)]).
  { injection JM as -> _ _. rewrite !three_seq. cbn [map]. rewrite !J1, !J2, !J3 by lia. reflexivity. } clear JM.
  unfold get_intersection. fold um vm tm. destruct max_it as [|[|m]]; try lia. cbn [newton]. rewrite E. cbv zeta. rewrite (norm_distance x1 x2 L1 L2). exists x1, x2.
  destruct (Rltb_spec (distance x1 x2) tol) as [H|H].
  - eexists. split; [exact S1|]. split; [exact C1|]. destruct (Rlt_dec (distance x1 x2) tol); [|contradiction]. destruct (Rleb_spec (distance x1 x2) tol); [reflexivity|exfalso; lra].
  - destruct (ES J (vsub x1 x2) ltac:(now rewrite JE)) as (du & dv & dt & SO & PR). rewrite SO.
    destruct (det_kernel J (du - (um - u0)) (dv - (vm - v0)) (dt - (tm - t0)) ltac:(now rewrite JE)) as (K1 & K2 & K3).
    { intros j JL. assert (X := PR j JL). assert (VS : nth j (vsub x1 x2) 0 = nth j x1 0 - nth j x2 0).
      { destruct (three x1 L1) as (? & ? & ? & ->). destruct (three x2 L2) as (? & ? & ? & ->). destruct j as [|[|[|j]]]; cbn; lra || lia. }
      rewrite VS, <- (coord_nth _ _ j S1), <- (coord_nth _ _ j C1), (FL um vm MU MV j JL), (STR tm MT j JL) in X. assert (Y := RT j JL). rewrite (FL u0 v0 B1 B2 j JL), (STR t0 B3 j JL) in Y.
      assert (PJ : forall x y z, product J x y z j = p j * x + q j * y + - r j * z).
      { intros x y z. rewrite JE. unfold product. cbn [nth]. rewrite !nth_map_seq by exact JL. reflexivity. }
      rewrite PJ in X. rewrite PJ. lra. }
    replace (um - du) with u0 by lra. replace (vm - dv) with v0 by lra. replace (tm - dt) with t0 by lra. rewrite (clip_id _ _ u0 (proj2 B1)), (clip_id _ _ v0 (proj2 B2)), (clip_id _ _ t0 (proj2 B3)).
    assert (B0 : in_box s c iu iv it (u0, v0, t0)) by (split; [exact B1|split; [exact B2|exact B3]]).
    destruct (jacobian_both iu iv it _ B0) as (J' & y1 & y2 & E' & (_ & S2 & C2 & M1 & M2)). cbn [fst snd] in S2, C2. rewrite E'. rewrite (norm_distance y1 y2 M1 M2).
    assert (Z : distance y1 y2 = 0). { apply distance_zero; try assumption. intros j JL. rewrite <- (coord_nth _ _ j S2), <- (coord_nth _ _ j C2). now apply RT. } rewrite Z.
    eexists. split; [exact S1|]. split; [exact C1|]. destruct (Rlt_dec (distance x1 x2) tol); [contradiction|]. destruct (Rltb_spec 0 tol); [|contradiction]. destruct (Rleb_spec 0 tol); [reflexivity|exfalso; lra].
Qed.
End Newt.
