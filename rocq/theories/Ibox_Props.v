(** Property C113 (boxes of pieces and patches). *)
From Coq Require Import List ZArith Arith Lia Bool Reals Lra.
From Verif Require Import Spline_Model Spline_Spec Spline_Piece Spline_Proofs Spline_Curve Isec_Model Isec_Spec Isec_Basis Isec_Run Isec_Surf Isec_Props Ibox_Model Ibox_Spec Ibox_Run.
Import ListNotations.
Local Open Scope R_scope.

Lemma around_smallest d ps (Q : list R -> Prop) lo hi : (forall p, In p ps <-> Q p) -> around d ps lo hi -> smallest d Q lo hi.
Proof.
  intros E A. split.
  - intros p P j J. apply (A j J). now apply E.
  - intros j J. destruct (A j J) as (_ & (p & P1 & P2) & (q & Q1 & Q2)). split; [exists p|exists q]; (split; [now apply E|assumption]).
Qed.
Lemma piece_iff c d it : plain_curve c d -> (it < n_intervals (c_basis c))%nat -> forall p, In p (slice it 3 (c_poles c)) <-> piece_pole c it p.
Proof. intros (E & _ & S & _) L p. destruct (csizes _ E) as (A & _ & _). apply in_slice. rewrite S. lia. Qed.

(** * C113: the boxes hold the pieces; patches that meet a piece are candidates *)
Theorem C113_piece : forall c d, plain_curve c d -> exists bs, curve_boxes c = Some bs /\ length bs = n_intervals (c_basis c) /\
  forall it lo hi, nth_error bs it = Some (lo, hi) -> smallest d (piece_pole c it) lo hi /\ forall t x, in_cell (c_basis c) it t -> curve_eval c t = Some x -> inside d lo hi x.
Proof.
  intros c d P. destruct (curve_boxes_l c d P) as (bs & E & L & X). exists bs. split; [exact E|]. split; [exact L|]. intros it lo hi N. destruct (X it lo hi N) as (I & A). split.
  - refine (around_smallest _ _ _ _ _ _ A). now apply (piece_iff c d).
  - intros t x C EX j J. exact (curve_inside c d P it t lo hi x j C A EX J).
Qed.
Print Assumptions C113_piece.
Theorem C113_patch : forall s, plain s 3 -> exists bs, surface_boxes s = Some bs /\ length bs = (n_intervals (u_basis s) * n_intervals (v_basis s))%nat /\
  forall iu iv, (iu < n_intervals (u_basis s))%nat -> (iv < n_intervals (v_basis s))%nat -> exists lo hi, nth_error bs (iu * n_intervals (v_basis s) + iv) = Some (lo, hi) /\
    smallest 3 (patch_pole s iu iv) lo hi /\ forall u v x, in_cell (u_basis s) iu u -> in_cell (v_basis s) iv v -> surface_eval s u v = Some x -> inside 3 lo hi x.
Proof.
  intros s P. destruct (surface_boxes_l s P) as (bs & E & L & X). exists bs. split; [exact E|]. split; [exact L|]. intros iu iv U W. destruct (X iu iv U W) as (lo & hi & N & A). exists lo, hi. split; [exact N|]. split.
  - refine (around_smallest _ _ _ _ _ _ A). intros p. now apply in_patch.
  - intros u v x CU CV EX j J. exact (patch_inside s P iu iv u v lo hi x j CU CV A EX J).
Qed.
Print Assumptions C113_patch.
Lemma Rleb_true a b : Rleb a b = true <-> a <= b.
Proof. destruct (Rleb_spec a b); split; (easy || congruence). Qed.
Lemma meet_iff Q Q' lo hi lo' hi' : smallest 3 Q lo hi -> smallest 3 Q' lo' hi' -> meet (lo, hi) (lo', hi') = true <-> overlap 3 Q Q'.
Proof.
  intros [I A] [I' A']. unfold meet. rewrite forallb_forall. cbn [fst snd]. split.
  - intros H j J. specialize (H j ltac:(apply in_seq; lia)). apply andb_true_iff in H as [H1 H2]. apply Rleb_true in H1, H2. destruct (A j J) as ((p & P & EP) & (q & K & EQ)). destruct (A' j J) as ((p' & P' & EP') & (q' & K' & EQ')). split.
    + exists p, q'. split; [exact P|]. split; [exact K'|]. lra.
    + exists q, p'. split; [exact K|]. split; [exact P'|]. lra.
  - intros H j J. apply in_seq in J. destruct (H j ltac:(lia)) as ((p & p' & P & P' & L1) & (q & q' & K & K' & L2)).
    assert (X1 := I p P j ltac:(lia)). assert (X2 := I' p' P' j ltac:(lia)). assert (X3 := I q K j ltac:(lia)). assert (X4 := I' q' K' j ltac:(lia)). apply andb_true_iff. split; apply Rleb_true; lra.
Qed.
Theorem C113_candidates : forall s c it, plain s 3 -> plain_curve c 3 -> (it < n_intervals (c_basis c))%nat -> exists l, candidates s c it = Some l /\ NoDup l /\
  (forall id, In id l <-> exists iu iv, (iu < n_intervals (u_basis s))%nat /\ (iv < n_intervals (v_basis s))%nat /\ id = (iu * n_intervals (v_basis s) + iv)%nat /\ overlap 3 (piece_pole c it) (patch_pole s iu iv)) /\
  (forall iu iv u v t x, in_cell (u_basis s) iu u -> in_cell (v_basis s) iv v -> in_cell (c_basis c) it t -> surface_eval s u v = Some x -> curve_eval c t = Some x -> In (iu * n_intervals (v_basis s) + iv)%nat l).
Proof.
  intros s c it PS PC L. destruct (C113_piece c 3 PC) as (cb & EC & LC & XC). destruct (C113_patch s PS) as (sb & ES & LS & XS). unfold candidates. rewrite EC, ES.
  destruct (nth_error cb it) as [[lo hi]|] eqn:N; [|apply nth_error_None in N; lia]. destruct (XC it lo hi N) as (SC & IC). destruct (csizes _ (proj1 (proj2 PS))) as (_ & _ & NV).
  set (ok := fun id => match nth_error sb id with Some b' => meet (lo, hi) b' | None => false end).
  assert (MI : forall iu iv, (iu < n_intervals (u_basis s))%nat -> (iv < n_intervals (v_basis s))%nat -> In (iu * n_intervals (v_basis s) + iv)%nat (filter ok (seq 0 (length sb))) <-> overlap 3 (piece_pole c it) (patch_pole s iu iv)).
  { intros iu iv U W. destruct (XS iu iv U W) as (lo' & hi' & N' & S' & _). rewrite filter_In, in_seq. unfold ok. rewrite N'. rewrite <- (meet_iff _ _ _ _ _ _ SC S'). split; [now intros [_ H]|]. intros H. split; [|exact H]. assert (Z : nth_error sb (iu * n_intervals (v_basis s) + iv) <> None) by congruence. apply nth_error_Some in Z. lia. }
  eexists. split; [reflexivity|]. split; [apply NoDup_filter, seq_NoDup|]. split.
  - intros id. split.
    + intros H. assert (B := H). apply filter_In in B as [B _]. apply in_seq in B. rewrite LS in B. assert (NZ : n_intervals (v_basis s) <> 0%nat) by lia.
      assert (DM := Nat.div_mod id _ NZ). assert (ML := Nat.mod_upper_bound id _ NZ). assert (DL : (id / n_intervals (v_basis s) < n_intervals (u_basis s))%nat) by (apply Nat.div_lt_upper_bound; nia).
      assert (ID : id = (id / n_intervals (v_basis s) * n_intervals (v_basis s) + id mod n_intervals (v_basis s))%nat) by lia. exists (id / n_intervals (v_basis s))%nat, (id mod n_intervals (v_basis s))%nat. split; [exact DL|]. split; [exact ML|]. split; [exact ID|]. apply MI; [exact DL|exact ML|]. now rewrite <- ID.
    + intros (iu & iv & U & W & -> & O). now apply MI.
  - intros iu iv u v t x CU CV CT EU EC'. apply MI; [apply CU|apply CV|]. destruct (XS iu iv (proj1 CU) (proj1 CV)) as (lo' & hi' & _ & S' & I'). apply (meet_iff _ _ _ _ _ _ SC S'). unfold meet. apply forallb_forall. intros j J. apply in_seq in J. cbn [fst snd].
    assert (X1 := IC t x CT EC' j ltac:(lia)). assert (X2 := I' u v x CU CV EU j ltac:(lia)). apply andb_true_iff. split; apply Rleb_true; lra.
Qed.
Print Assumptions C113_candidates.
(** With the candidates of the boxes no straight piece of a thread that crosses a flat patch is lost. *)
Definition tree_of (s : surface) (c : curve) (it : nat) : list nat := match candidates s c it with Some l => l | None => [] end.
Theorem C113_crossing : forall solve s1 s2 max_it tol l ax cs iw c w it iu iv a p q e r u0 v0 t0 x, plain s1 3 -> plain s2 3 -> exact_solver solve -> 0 < tol -> (2 <= max_it)%nat ->
  get_intersections solve (tree_of s2) s1 s2 max_it tol = Some l ->
  main_curves s1 ax = Some cs -> nth_error cs iw = Some (c, w) ->
  flat s2 iu iv a p q -> straight c it e r -> det [map p (seq 0 3); map q (seq 0 3); map (fun j => - r j) (seq 0 3)] <> 0 ->
  in_cell (u_basis s2) iu u0 -> in_cell (v_basis s2) iv v0 -> in_cell (run_basis s1 ax) it t0 -> surface_eval s2 u0 v0 = Some x -> curve_eval c t0 = Some x ->
  let at_thread y := match ax with AxU => (w, y) | AxV => (y, w) end in
  let mid b i := (kn (knots b) (i + 2) + kn (knots b) (i + 3)) / 2 in
  exists z, In z l /\
    (sp_uv (own z) = at_thread t0 /\ sp_uv (other z) = (u0, v0) \/
     sp_uv (own z) = at_thread (mid (run_basis s1 ax) it) /\ sp_uv (other z) = (mid (u_basis s2) iu, mid (v_basis s2) iv) /\
       (exists x1 x2, surface_eval s2 (mid (u_basis s2) iu) (mid (v_basis s2) iv) = Some x1 /\ curve_eval c (mid (run_basis s1 ax) it) = Some x2 /\ distance x1 x2 < tol) \/
     sp_uv (own z) = at_thread (kn (knots (run_basis s1 ax)) (it + 2)) \/ sp_uv (own z) = at_thread (kn (knots (run_basis s1 ax)) (it + 3))).
Proof.
  intros solve s1 s2 max_it tol l ax cs iw c w it iu iv a p q e r u0 v0 t0 x P1 P2 ES TP MI G MC N FL ST D CU CV CT SX CX at_thread mid.
  destruct (all_threads s1 3 P1 ax) as (cs' & MC' & _ & X). rewrite MC in MC'. injection MC' as <-. destruct (X iw c w N) as (_ & _ & PC & CB & _).
  destruct (csizes _ (proj1 (proj2 P2))) as (_ & _ & NV).
  assert (FB : forall c it id, In id (tree_of s2 c it) -> (id < n_intervals (u_basis s2) * n_intervals (v_basis s2))%nat).
  { intros c' it' id H. unfold tree_of, candidates in H. destruct (surface_boxes_l s2 P2) as (sb & ESB & LS & _). rewrite ESB in H. destruct (curve_boxes c') as [cb|]; [|destruct H]. destruct (nth_error cb it'); [|destruct H]. apply filter_In in H as [H _]. apply in_seq in H. lia. }
  assert (CT' : in_cell (c_basis c) it t0) by now rewrite CB.
  destruct (C113_candidates s2 c it P2 PC (proj1 CT')) as (ids & EI & _ & _ & IN). specialize (IN iu iv u0 v0 t0 x CU CV CT' SX CX).
  assert (IT : In (iu * n_intervals (v_basis s2) + iv)%nat (tree_of s2 c it)) by (unfold tree_of; now rewrite EI).
  destruct (C111_flat solve s2 c iu iv it max_it tol a p q e r u0 v0 t0 P2 PC ES TP MI FL ST D CU CV CT') as (x1 & x2 & xyz & S & C & GI); [intros j J; now rewrite SX, CX|]. fold mid in S, C, GI. rewrite CB in C, GI.
  assert (PP : patch_id2pos s2 (iu * n_intervals (v_basis s2) + iv)%nat = (iu, iv)). { apply (patch_l s2 iu iv 0 ltac:(lia)). apply CV. }
  destruct (Rlt_dec (distance x1 x2) tol) as [LT|_].
  - destruct (C112_complete solve (tree_of s2) s1 s2 max_it tol l ax cs iw c w it _ (mid (u_basis s2) iu) (mid (v_basis s2) iv) (mid (run_basis s1 ax) it) xyz P1 P2 FB G MC N (proj1 CT) IT) as (z & Z & H); [rewrite PP; exact GI|].
    exists z. split; [exact Z|]. destruct H as [(_ & A & B)|H]; [|right; right; exact H]. right. left. split; [exact A|]. split; [exact B|]. now exists x1, x2.
  - destruct (C112_complete solve (tree_of s2) s1 s2 max_it tol l ax cs iw c w it _ u0 v0 t0 xyz P1 P2 FB G MC N (proj1 CT) IT) as (z & Z & H); [rewrite PP; exact GI|].
    exists z. split; [exact Z|]. destruct H as [(_ & A & B)|H]; [|right; right; exact H]. left. now split.
Qed.
Print Assumptions C113_crossing.
(** Two pieces of a curve over a square: only the first one comes near. *)
Definition climb : curve := Curve b2 [[1/4; 1/2; -1/4]; [1/4; 1/2; 1/4]; [1/4; 1/2; 1]; [1/4; 1/2; 2]] false.
Lemma climb_plain : plain_curve climb 3.
Proof. split; [exact b2_cells|]. split; [reflexivity|]. split; [reflexivity|]. intros p H. repeat (destruct H as [<- |H]; [reflexivity|]). destruct H. Qed.
Example C113_case : plain square 3 /\ plain_curve climb 3 /\ candidates square climb 0 = Some [0%nat] /\ candidates square climb 1 = Some [] /\
  overlap 3 (piece_pole climb 0) (patch_pole square 0 0) /\ ~ overlap 3 (piece_pole climb 1) (patch_pole square 0 0).
Proof.
  assert (Y : overlap 3 (piece_pole climb 0) (patch_pole square 0 0)).
  { assert (A : patch_pole square 0 0 [0; 0; 0]) by (exists 0%nat, 0%nat; repeat split; lia). assert (B : patch_pole square 0 0 [1; 1; 0]) by (exists 2%nat, 2%nat; repeat split; lia).
    assert (C : piece_pole climb 0 [1/4; 1/2; -1/4]) by (exists 0%nat; split; [lia|reflexivity]). assert (D : piece_pole climb 0 [1/4; 1/2; 1]) by (exists 2%nat; split; [lia|reflexivity]).
    intros j J. split; [exists [1/4; 1/2; -1/4], [1; 1; 0]|exists [1/4; 1/2; 1], [0; 0; 0]]; (split; [assumption|split; [assumption|]]); destruct j as [|[|[|j]]]; cbn; lra || lia. }
  assert (Z : ~ overlap 3 (piece_pole climb 1) (patch_pole square 0 0)).
  { intros H. destruct (H 2%nat ltac:(lia)) as ((p & p' & (r & R & ->) & (i & k & I & K & ->) & L) & _). destruct r as [|[|[|r]]]; [| | |lia]; (destruct i as [|[|[|i]]]; [| | |lia]); (destruct k as [|[|[|k]]]; [| | |lia]); cbn in L; lra. }
  assert (ONE : forall l : list nat, NoDup l -> (forall id, In id l -> id = 0%nat) -> In 0%nat l -> l = [0%nat]).
  { intros [|x [|y l]] ND AL IN; [destruct IN| |].
    - f_equal. apply AL. now left.
    - exfalso. inversion ND as [|? ? NI]. subst. apply NI. rewrite (AL x) by now left. rewrite (AL y) by (right; now left). now left. }
  split; [exact square_plain|]. split; [exact climb_plain|].
  destruct (C113_candidates square climb 0 square_plain climb_plain ltac:(cbn; lia)) as (l0 & -> & ND0 & X0 & _). destruct (C113_candidates square climb 1 square_plain climb_plain ltac:(cbn; lia)) as (l1 & -> & ND1 & X1 & _).
  split; [|split; [|split; assumption]].
  - f_equal. apply ONE; [exact ND0| |].
    + intros id H. apply X0 in H as (iu & iv & U & W & -> & _). cbn in U, W |- *. lia.
    + apply X0. exists 0%nat, 0%nat. cbn. repeat split; try lia; apply Y; assumption.
  - f_equal. destruct l1 as [|id l1]; [reflexivity|]. exfalso. destruct (proj1 (X1 id) (or_introl eq_refl)) as (iu & iv & U & W & _ & O). cbn in U, W. replace iu with 0%nat in O by lia. replace iv with 0%nat in O by lia. exact (Z O).
Qed.
(** The wall crosses the square. *)
Example C113_crossing_case : exists l z, get_intersections brave (tree_of square) wall square 10 (1/100) = Some l /\ In z l.
Proof.
  assert (FB : forall (c : curve) (it id : nat), In id (tree_of square c it) -> (id < n_intervals (u_basis square) * n_intervals (v_basis square))%nat).
  { intros c' it' id H. unfold tree_of, candidates in H. destruct (surface_boxes_l square square_plain) as (sb & ESB & LS & _). rewrite ESB in H. destruct (curve_boxes c') as [cb|]; [|destruct H]. destruct (nth_error cb it'); [|destruct H]. apply filter_In in H as [H _]. apply in_seq in H. lia. }
  destruct (get_intersections brave (tree_of square) wall square 10 (1/100)) as [l|] eqn:G.
  2:{ exfalso. revert G. apply (surf_total wall square wall_plain square_plain brave (tree_of square) FB); [|lia]. intros J d. unfold brave. destruct (cramer J d); discriminate. }
  exists l. destruct (all_threads wall 3 wall_plain AxU) as (cs & MC & LL & X). destruct (nth_error cs 0) as [[c w]|] eqn:N; [|apply nth_error_None in N; rewrite LL in N; cbn in N; lia].
  destruct (X 0%nat c w N) as (_ & W & PC & CB & ON). cbn in W. subst w. cbn [run_basis wall v_basis on_surface] in CB, ON. change (Surface b1 b1 _ false) with wall in ON.
  assert (I : forall t, in_cell b1 0 t -> 0 <= t <= 1) by (intros t [_ H]; cbn in H; lra). assert (B : forall t, 0 <= t <= 1 -> in_cell b1 0 t) by (intros; now apply b1_in).
  assert (CE : forall t, 0 <= t <= 1 -> curve_eval c t = Some [1/4; 1/2; t - 1/4]). { intros t T. rewrite ON by (now apply b1_dom). rewrite wall_eval by lra. f_equal. f_equal. lra. }
  assert (FL : flat square 0 0 (e3 0 0 0) (e3 1 0 0) (e3 0 1 0)) by apply C111_flat_case.
  assert (ST : straight c 0 (e3 (1/4) (1/2) (-1/4)) (e3 0 0 1)). { intros t T j J. rewrite CB in T. rewrite CE by auto. cbn [coord]. unfold e3. destruct j as [|[|[|j]]]; cbn; lra || lia. }
  destruct (C113_crossing brave wall square 10 (1/100) l AxU cs 0 c 0 0 0 0 _ _ _ _ _ (1/4) (1/2) (1/4) [1/4; 1/2; 0] wall_plain square_plain brave_exact ltac:(lra) ltac:(lia) G MC N FL ST) as (z & Z & _).
  - unfold det, e3. cbn. lra.
  - apply B. lra.
  - apply B. lra.
  - apply B. lra.
  - apply square_eval; lra.
  - rewrite CE by lra. f_equal. f_equal. f_equal. f_equal. lra.
  - exists z. split; [reflexivity|exact Z].
Qed.
