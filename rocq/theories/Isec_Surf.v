(** The threads of one surface against the patches of the other. *)
From Coq Require Import List ZArith Arith Lia Bool Reals Lra Psatz.
From Verif Require Import Spline_Model Spline_Spec Spline_Piece Spline_Proofs Spline_Curve Fit_Basis Isec_Model Isec_Spec Isec_Basis Isec_Run Isec_Newton.
Import ListNotations.
Local Open Scope R_scope.

Lemma fold_none {S A} (f : option S -> A -> option S) xs : (forall a, f None a = None) -> fold_left f xs None = None.
Proof. intros N. induction xs as [|a xs IH]; [reflexivity|]. cbn. now rewrite N. Qed.
Lemma fold_inv {S A} (f : option S -> A -> option S) (I : S -> Prop) (le : S -> S -> Prop) (Done : A -> S -> Prop) :
  (forall a, f None a = None) -> (forall x, le x x) -> (forall x y z, le x y -> le y z -> le x z) -> (forall a x y, le x y -> Done a x -> Done a y) ->
  forall xs st st', (forall a x y, In a xs -> I x -> f (Some x) a = Some y -> I y /\ le x y /\ Done a y) ->
  I st -> fold_left f xs (Some st) = Some st' -> I st' /\ le st st' /\ forall a, In a xs -> Done a st'.
Proof.
  intros N R T M. induction xs as [|a xs IH]; intros st st' F H; cbn [fold_left].
  - intros [= <-]. split; [exact H|]. split; [apply R|]. intros a [].
  - destruct (f (Some st) a) as [y|] eqn:E; [|now rewrite (fold_none f xs N)]. destruct (F a st y (or_introl eq_refl) H E) as (H1 & L1 & D1). intros G.
    destruct (IH y st' (fun b x z B => F b x z (or_intror B)) H1 G) as (H2 & L2 & D2). split; [exact H2|]. split; [eapply T; eassumption|]. intros b [<- |B]; [eapply M; eassumption|now apply D2].
Qed.

Section Surfs.
Variables (s1 s2 : surface).
Hypothesis P1 : plain s1 3.
Hypothesis P2 : plain s2 3.
Variable solve : list (list R) -> list R -> option param.
Variable find_box : curve -> nat -> list nat.
Hypothesis FB : forall c it id, In id (find_box c it) -> (id < n_intervals (u_basis s2) * n_intervals (v_basis s2))%nat.
Variables (max_it : nat) (tol : R).
Notation kf ax i := (kn (knots (fix_basis s1 ax)) (i + 2)%nat).
Definition pair_at (ax : axis) (w t : R) : R * R := match ax with AxU => (w, t) | AxV => (t, w) end.

Definition okpoint (q : ipoint) : Prop := exists ax iw it iu iv u v t,
  (iw <= n_intervals (fix_basis s1 ax))%nat /\ own q = point_a s1 ax iw it (kf ax iw) t /\ in_cell (run_basis s1 ax) it t /\
  other q = surface_point s2 iu iv u v /\ in_cell (u_basis s2) iu u /\ in_cell (v_basis s2) iv v /\
  exists u' v' t' x1 x2, in_cell (run_basis s1 ax) it t' /\ in_cell (u_basis s2) iu u' /\ in_cell (v_basis s2) iv v' /\
    on_surface s1 ax (kf ax iw) t' = Some x1 /\ surface_eval s2 u' v' = Some x2 /\ distance x2 x1 <= tol /\ middle_of x2 x1 (place q) /\
    (distance x2 x1 < tol -> (u', v', t') = (u, v, t)).
Definition state : Type := (list ipoint * marks)%type.
Definition inv (st : state) : Prop := (forall q, In q (fst st) -> okpoint q) /\
  forall a c, In (a, c) (snd st) -> exists q, In q (fst st) /\ sp_uv (own q) = (kn (knots (u_basis s1)) (a + 2), kn (knots (v_basis s1)) (c + 2)).
Definition more (x y : state) : Prop := incl (fst x) (fst y).
Definition done_patch (ax : axis) (c : curve) (w : R) (it : nat) (id : nat) (st : state) : Prop := forall u v t xyz,
  get_intersection solve s2 c (fst (patch_id2pos s2 id)) (snd (patch_id2pos s2 id)) it max_it tol = Some ((u, v, t), true, xyz) ->
  exists q, In q (fst st) /\ place q = xyz /\ sp_uv (own q) = pair_at ax w t /\ sp_uv (other q) = (u, v).
Definition done_interval (ax : axis) (c : curve) (w : R) (it : nat) (st : state) : Prop :=
  (forall id, In id (find_box c it) -> done_patch ax c w it id st) \/
  exists q, In q (fst st) /\ (sp_uv (own q) = pair_at ax w (kn (knots (run_basis s1 ax)) (it + 2)) \/ sp_uv (own q) = pair_at ax w (kn (knots (run_basis s1 ax)) (it + 3))).
Lemma more_refl x : more x x.
Proof. unfold more. apply incl_refl. Qed.
Lemma more_trans x y z : more x y -> more y z -> more x z.
Proof. unfold more. apply incl_tran. Qed.
Lemma done_patch_more ax c w it id x y : more x y -> done_patch ax c w it id x -> done_patch ax c w it id y.
Proof. intros M D u v t xyz G. destruct (D u v t xyz G) as (q & A & B). exists q. split; [now apply M|exact B]. Qed.
Lemma done_interval_more ax c w it x y : more x y -> done_interval ax c w it x -> done_interval ax c w it y.
Proof. intros M [D|(q & A & B)]; [left; intros id I; eapply done_patch_more; eauto|right; exists q; split; [now apply M|exact B]]. Qed.

Lemma uv_a ax iw it w t : sp_uv (point_a s1 ax iw it w t) = pair_at ax w t.
Proof. destruct ax; reflexivity. Qed.
Lemma dir_a ax iw it w t : direction ax (point_a s1 ax iw it w t) = face_flag (knots (run_basis s1 ax)) it t.
Proof. destruct ax; reflexivity. Qed.
Lemma mark_uv ax iw q w t : w = kf ax iw -> t = kn (knots (run_basis s1 ax)) (q + 2) ->
  forall a c, mark_of ax iw q = (a, c) -> pair_at ax w t = (kn (knots (u_basis s1)) (a + 2), kn (knots (v_basis s1)) (c + 2)).
Proof. intros -> -> a c. destruct ax; cbn [mark_of pair_at fix_basis run_basis]; intros [= <- <-]; reflexivity. Qed.

Lemma patch_step ax iw c it id : (iw <= n_intervals (fix_basis s1 ax))%nat -> plain_curve c 3 -> c_basis c = run_basis s1 ax ->
  (forall y, in_dom (run_basis s1 ax) y -> curve_eval c y = on_surface s1 ax (kf ax iw) y) -> (it < n_intervals (run_basis s1 ax))%nat -> In id (find_box c it) ->
  forall x y, inv x -> try_patch solve s1 s2 max_it tol ax iw c (kf ax iw) it (Some x) id = Some y -> inv y /\ more x y /\ done_patch ax c (kf ax iw) it id y.
Proof.
  intros LW PC CB ON LI IN [l m] y [I1 I2]. cbn [fst snd] in *. unfold try_patch.
  destruct (csizes _ (proj1 (proj2 P2))) as (_ & _ & NV). destruct (patch_l s2 0 0 id ltac:(lia)) as (_ & _ & LV & LU). apply FB in IN. apply LU in IN. unfold done_patch.
  destruct (patch_id2pos s2 id) as [iu iv]. cbn [fst snd] in *. destruct (get_intersection solve s2 c iu iv it max_it tol) as [[[[[u v] t] cv] xyz]|] eqn:G; [|discriminate].
  destruct cv.
  - intros [= <-]. cbn [fst snd]. rewrite dir_a.
    destruct (get_l s2 c P2 PC solve tol iu iv it max_it (u, v, t) true xyz IN LV ltac:(rewrite CB; exact LI) G) as ((B1 & B2 & B3) & [[u' v'] t'] & x2 & x1 & ((C1 & C2 & C3) & S2 & C & _ & _) & MI & CV & EX).
    cbn [fst snd] in *. rewrite CB in B3, C3. split; [|split].
    + split; cbn [fst snd].
      * intros q Q. apply in_app_iff in Q as [Q|[<- |[]]]; [now apply I1|]. exists ax, iw, it, iu, iv, u, v, t. cbn [own other place]. split; [exact LW|]. split; [reflexivity|]. split; [exact B3|]. split; [reflexivity|].
        split; [exact B1|]. split; [exact B2|]. exists u', v', t', x1, x2. split; [exact C3|]. split; [exact C1|]. split; [exact C2|]. split; [|split; [exact S2|split; [now apply CV|split; [exact MI|exact EX]]]].
        rewrite <- ON; [exact C|]. eapply cell_dom; [apply (run_cells s1 3 P1)|exact C3].
      * intros a c' H. assert (OLD : In (a, c') m -> exists q, In q (l ++ [Ipoint (point_a s1 ax iw it (kf ax iw) t) (surface_point s2 iu iv u v) xyz]) /\ sp_uv (own q) = (kn (knots (u_basis s1)) (a + 2), kn (knots (v_basis s1)) (c' + 2))).
        { intros Q. destruct (I2 a c' Q) as (q & A & B). exists q. split; [apply in_app_iff; now left|exact B]. }
        unfold face_flag in H. destruct (Reqb_spec (kn (knots (run_basis s1 ax)) (it + 2)) t) as [T|T].
        -- cbn [Z.eqb] in H. apply in_app_iff in H as [H|[H|[]]]; [now apply OLD|]. eexists. split; [apply in_app_iff; right; left; reflexivity|]. cbn [own]. rewrite uv_a. unfold mark_index in H. cbn [Z.eqb] in H.
           refine (mark_uv ax iw it _ _ eq_refl _ a c' H). now symmetry.
        -- destruct (Reqb_spec (kn (knots (run_basis s1 ax)) (it + 3)) t) as [T'|T']; cbn [Z.eqb] in H; [|now apply OLD].
           apply in_app_iff in H as [H|[H|[]]]; [now apply OLD|]. eexists. split; [apply in_app_iff; right; left; reflexivity|]. cbn [own]. rewrite uv_a. unfold mark_index in H. cbn [Z.eqb Pos.eqb] in H.
           refine (mark_uv ax iw (it + 1) _ _ eq_refl _ a c' H). replace (it + 1 + 2)%nat with (it + 3)%nat by lia. now symmetry.
    + unfold more. cbn [fst]. apply incl_appl, incl_refl.
    + intros u0 v0 t0 xyz0 [= <- <- <- <-]. eexists. split; [apply in_app_iff; right; left; reflexivity|]. cbn [own other place]. rewrite uv_a. repeat split.
  - intros [= <-]. split; [now split|]. split; [apply more_refl|]. intros u0 v0 t0 xyz0. discriminate.
Qed.
Lemma interval_step ax iw c it : (iw <= n_intervals (fix_basis s1 ax))%nat -> plain_curve c 3 -> c_basis c = run_basis s1 ax ->
  (forall y, in_dom (run_basis s1 ax) y -> curve_eval c y = on_surface s1 ax (kf ax iw) y) -> (it < n_intervals (run_basis s1 ax))%nat ->
  forall x y, inv x -> try_interval solve find_box s1 s2 max_it tol ax iw c (kf ax iw) (Some x) it = Some y -> inv y /\ more x y /\ done_interval ax c (kf ax iw) it y.
Proof.
  intros LW PC CB ON LI [l m] y I. unfold try_interval. destruct (already_found m it iw ax) eqn:AF.
  - intros [= <-]. split; [exact I|]. split; [apply more_refl|]. right. destruct I as [_ I2]. cbn [fst snd] in *.
    assert (MK : forall q, marked m (mark_of ax iw q) = true -> exists p, In p l /\ sp_uv (own p) = pair_at ax (kf ax iw) (kn (knots (run_basis s1 ax)) (q + 2))).
    { intros q H. unfold marked in H. apply existsb_exists in H as ([a c'] & H & E). apply andb_true_iff in E as [E1 E2]. apply Nat.eqb_eq in E1, E2. destruct (I2 a c' H) as (p & A & B). exists p. split; [exact A|].
      rewrite B. symmetry. apply (mark_uv ax iw q _ _ eq_refl eq_refl a c'). destruct (mark_of ax iw q). cbn [fst snd] in *. congruence. }
    unfold already_found in AF. apply orb_true_iff in AF as [H|H]; destruct (MK _ H) as (p & A & B); exists p; (split; [exact A|]); [now left|right].
    replace (it + 1 + 2)%nat with (it + 3)%nat in B by lia. exact B.
  - intros F. destruct (fold_inv (try_patch solve s1 s2 max_it tol ax iw c (kf ax iw) it) inv more (done_patch ax c (kf ax iw) it)) with (5 := fun a x y (A : In a (find_box c it)) => patch_step ax iw c it a LW PC CB ON LI A x y) (st := (l, m)) (st' := y) as (A & B & C).
    + reflexivity.
    + apply more_refl.
    + apply more_trans.
    + intros a x z. apply done_patch_more.
    + exact I.
    + exact F.
    + split; [exact A|]. split; [exact B|]. left. exact C.
Qed.
Lemma interval_none ax iw c w a : try_interval solve find_box s1 s2 max_it tol ax iw c w None a = None.
Proof. reflexivity. Qed.
Definition done_curve (ax : axis) (q : nat * (curve * R)) (st : state) : Prop := forall it, (it < n_intervals (run_basis s1 ax))%nat -> done_interval ax (fst (snd q)) (snd (snd q)) it st.
Lemma curve_step ax cs q : main_curves s1 ax = Some cs -> In q (combine (seq 0 (length cs)) cs) ->
  forall x y, inv x -> try_curve solve find_box s1 s2 max_it tol ax (Some x) q = Some y -> inv y /\ more x y /\ done_curve ax q y.
Proof.
  intros MC Q x y I. destruct q as [iw [c w]]. destruct (all_threads s1 3 P1 ax) as (l & E & LL & X). rewrite MC in E. injection E as <-.
  assert (N : nth_error cs iw = Some (c, w)).
  { clear -Q. assert (G : forall (cs : list (curve * R)) a, In (iw, (c, w)) (combine (seq a (length cs)) cs) -> (a <= iw)%nat /\ nth_error cs (iw - a) = Some (c, w)).
    { induction cs0 as [|p cs0 IH]; intros a; cbn; [intros []|]. intros [[= <- ->]|H]; [rewrite Nat.sub_diag; auto|]. destruct (IH (S a) H) as [A B]. split; [lia|]. replace (iw - a)%nat with (S (iw - S a)) by lia. exact B. }
    destruct (G cs 0%nat Q) as [_ H]. now rewrite Nat.sub_0_r in H. }
  destruct (X iw c w N) as (LW & -> & PC & CB & ON). unfold try_curve. rewrite CB. intros F.
  destruct (fold_inv (try_interval solve find_box s1 s2 max_it tol ax iw c (kf ax iw)) inv more (done_interval ax c (kf ax iw))) with (xs := seq 0 (n_intervals (run_basis s1 ax))) (st := x) (st' := y) as (A & B & C).
  - reflexivity.
  - apply more_refl.
  - apply more_trans.
  - intros a z z'. apply done_interval_more.
  - intros a z z' A. apply in_seq in A. apply interval_step; try assumption. lia.
  - exact I.
  - exact F.
  - split; [exact A|]. split; [exact B|]. intros it L. cbn [fst snd]. apply C. apply in_seq. lia.
Qed.
Definition done_axis (ax : axis) (st : state) : Prop := forall cs iw c w it, main_curves s1 ax = Some cs -> nth_error cs iw = Some (c, w) -> (it < n_intervals (run_basis s1 ax))%nat -> done_interval ax c w it st.
Lemma axis_step ax : forall x y, inv x -> try_axis solve find_box s1 s2 max_it tol (Some x) ax = Some y -> inv y /\ more x y /\ done_axis ax y.
Proof.
  intros x y I. unfold try_axis. destruct (main_curves s1 ax) as [cs|] eqn:MC; [|discriminate]. intros F.
  destruct (fold_inv (try_curve solve find_box s1 s2 max_it tol ax) inv more (done_curve ax)) with (xs := combine (seq 0 (length cs)) cs) (st := x) (st' := y) as (A & B & C).
  - intros [iw [c w]]. unfold try_curve. apply fold_none. intros a. apply interval_none.
  - apply more_refl.
  - apply more_trans.
  - intros a z z' M D it L. eapply done_interval_more; [exact M|]. now apply D.
  - intros a z z' A. now apply (curve_step ax cs a MC A).
  - exact I.
  - exact F.
  - split; [exact A|]. split; [exact B|]. intros cs' iw c w it E N L. rewrite MC in E. injection E as <-. refine (C (iw, (c, w)) _ it L).
    clear -N. assert (G : forall (cs : list (curve * R)) a i, nth_error cs i = Some (c, w) -> In ((a + i)%nat, (c, w)) (combine (seq a (length cs)) cs)).
    { induction cs0 as [|p cs0 IH]; intros a [|i] H; try discriminate; cbn in *; [left; injection H as ->; f_equal; lia|right]. replace (a + S i)%nat with (S a + i)%nat by lia. now apply IH. }
    exact (G cs 0%nat iw N).
Qed.
Lemma surf_l l : get_intersections solve find_box s1 s2 max_it tol = Some l -> (forall q, In q l -> okpoint q) /\
  forall ax cs iw c w it, main_curves s1 ax = Some cs -> nth_error cs iw = Some (c, w) -> (it < n_intervals (run_basis s1 ax))%nat -> exists m, done_interval ax c w it (l, m).
Proof.
  unfold get_intersections. destruct (fold_left _ _ _) as [[l' m]|] eqn:F; [|discriminate]. intros [= <-].
  destruct (fold_inv (try_axis solve find_box s1 s2 max_it tol) inv more done_axis) with (xs := [AxU; AxV]) (st := ([] : list ipoint, [] : marks)) (st' := (l', m)) as (A & B & C).
  - intros ax. unfold try_axis. destruct (main_curves s1 ax); [|reflexivity]. apply fold_none. intros [iw [c w]]. unfold try_curve. apply fold_none. intros a. apply interval_none.
  - apply more_refl.
  - apply more_trans.
  - intros a z z' M D cs iw c w it E N L. eapply done_interval_more; [exact M|]. eapply D; eassumption.
  - intros a z z' _. apply axis_step.
  - split; intros; contradiction.
  - exact F.
  - split; [exact (proj1 A)|]. intros ax cs iw c w it E N L. exists m. refine (C ax _ cs iw c w it E N L). destruct ax; cbn; auto.
Qed.
Lemma surf_total : (forall J d, solve J d <> None) -> max_it <> 0%nat -> get_intersections solve find_box s1 s2 max_it tol <> None.
Proof.
  intros T N. unfold get_intersections.
  assert (K : forall {S A} (f : option S -> A -> option S) xs, (forall a x, In a xs -> f (Some x) a <> None) -> forall st, st <> None -> fold_left f xs st <> None).
  { intros S A f. induction xs as [|a xs IH]; intros H st NS; [exact NS|]. cbn [fold_left]. apply IH; [intros b x B; apply H; now right|]. destruct st as [x|]; [|congruence]. apply H. now left. }
  assert (Z : fold_left (try_axis solve find_box s1 s2 max_it tol) [AxU; AxV] (Some ([], [])) <> None).
  { apply K; [|discriminate]. intros ax x _. unfold try_axis. destruct (all_threads s1 3 P1 ax) as (cs & E & LL & X). rewrite E. apply K; [|discriminate]. intros [iw [c w]] z IN. unfold try_curve.
    assert (PC : plain_curve c 3). { apply in_combine_r in IN. apply In_nth_error in IN as (i & IN). now apply (X i c w IN). }
    apply K; [|discriminate]. intros it [l m] IT. apply in_seq in IT. unfold try_interval. destruct (already_found _ _ _ _); [discriminate|]. apply K; [|discriminate]. intros id [l' m'] ID. unfold try_patch.
    destruct (csizes _ (proj1 (proj2 P2))) as (_ & _ & NV). destruct (patch_l s2 0 0 id ltac:(lia)) as (_ & _ & LV & LU). apply FB in ID. apply LU in ID. destruct (patch_id2pos s2 id) as [iu iv]. cbn [fst snd] in *.
    assert (G := get_total s2 c P2 PC solve tol iu iv it max_it ID LV ltac:(lia) (fun x J x1 x2 _ _ => T J (vsub x1 x2)) N). destruct (get_intersection solve s2 c iu iv it max_it tol) as [[[[[u v] t] [|]] xyz]|]; [discriminate|discriminate|congruence]. }
  destruct (fold_left _ _ _) as [[l m]|]; [discriminate|congruence].
Qed.
End Surfs.
