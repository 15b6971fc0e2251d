(** Points of surfaces and threads. *)
From Coq Require Import List ZArith Arith Lia Bool Reals Lra Psatz.
From Verif Require Import Spline_Model Spline_Spec Spline_Piece Spline_Proofs Spline_Curve Fit_Matrix Fit_Rough Fit_Basis Isec_Model Isec_Spec Isec_Basis.
Import ListNotations.
Local Open Scope R_scope.

(** * Patches around a point *)
Section Beside.
Variable b : basis.
Hypothesis E : cells_basis b.
Hypothesis D0 : dom0 b = 0.
Hypothesis D1 : dom1 b = 1.
Notation l := (knots b).
Notation n := (n_intervals b).
Lemma beside_cell i t j : in_cell b i t -> in_cell b j t <-> j = i \/ beside l i t = true /\ Z.of_nat j = (Z.of_nat i + face_flag l i t)%Z.
Proof.
  intros C. destruct (csizes b E) as (S1 & S2 & S3). assert (V := cb_valid b E). assert (K0 := cdom0 b E). assert (K1 := cdom1 b E). rewrite D0 in K0. rewrite D1 in K1.
  assert (CI := C). destruct CI as [L [T1 T2]]. assert (ST := strict b E i L). unfold beside, bound_flag, face_flag. split.
  - intros J. destruct (lt_eq_lt_dec j i) as [[H|H]|H]; [|left; exact H|].
    + right. destruct (cell_other b E j i t J C H) as (-> & A & B). rewrite <- B. rewrite Reqb_refl.
      assert (X := strict_lt b E 0 (S j) ltac:(lia)). assert (Y := strict_lt b E (S j) n ltac:(lia)). cbn [Nat.add] in X. rewrite <- B in Y. cbn [Nat.add] in B. rewrite <- B in X.
      destruct (Reqb_spec t 0) as [Q|Q]; [lra|]. destruct (Reqb_spec t 1) as [Q'|Q']; [lra|]. split; [reflexivity|lia].
    + right. destruct (cell_other b E i j t C J H) as (-> & A & B). destruct J as [JL _].
      destruct (Reqb_spec (kn l (i + 2)) t) as [Q|_]; [lra|]. rewrite <- A, Reqb_refl.
      assert (X := strict_lt b E 0 (S i) ltac:(lia)). assert (Y := strict_lt b E (S i) n ltac:(lia)). cbn [Nat.add] in X, B. rewrite <- B in X. cbn [Nat.add] in Y. rewrite <- B in Y.
      destruct (Reqb_spec t 0) as [Q|Q]; [lra|]. destruct (Reqb_spec t 1) as [Q'|Q']; [lra|]. split; [reflexivity|lia].
  - intros [-> |[H Z]]; [exact C|]. apply andb_true_iff in H as [H1 H2]. apply negb_true_iff in H1, H2. apply orb_false_iff in H1 as [H0 H1].
    destruct (Reqb_spec t 0) as [Q0|Q0]; [discriminate|]. destruct (Reqb_spec t 1) as [Q1|Q1]; [discriminate|].
    destruct (Reqb_spec (kn l (i + 2)) t) as [Q|Q].
    + assert (I0 : i <> 0%nat). { intros ->. cbn [Nat.add] in Q. lra. } assert (j = (i - 1)%nat) as -> by lia. assert (X := strict b E (i - 1) ltac:(lia)).
      replace (i - 1 + 3)%nat with (i + 2)%nat in X by lia. unfold in_cell. replace (i - 1 + 3)%nat with (i + 2)%nat by lia. split; [lia|lra].
    + destruct (Reqb_spec (kn l (i + 3)) t) as [Q2|Q2]; [|discriminate]. assert (IN : S i <> n). { intros X. rewrite <- X in K1. cbn [Nat.add] in K1. replace (i + 3)%nat with (S (i + 2)) in Q2 by lia. lra. }
      assert (j = S i) as -> by lia. assert (X := strict b E (S i) ltac:(lia)). unfold in_cell. replace (S i + 2)%nat with (i + 3)%nat in * by lia. split; [lia|lra].
Qed.
Lemma beside_some i t : in_cell b i t -> beside l i t = true -> exists j, Z.of_nat j = (Z.of_nat i + face_flag l i t)%Z /\ face_flag l i t <> 0%Z.
Proof.
  intros C H. assert (K0 := cdom0 b E). rewrite D0 in K0. unfold beside, bound_flag in H. apply andb_true_iff in H as [H1 H2]. apply negb_true_iff in H1, H2. apply Z.eqb_neq in H2. apply orb_false_iff in H1 as [H0 H1].
  exists (Z.to_nat (Z.of_nat i + face_flag l i t)). split; [|exact H2]. rewrite Z2Nat.id; [reflexivity|]. unfold face_flag in *. destruct (Reqb_spec (kn l (i + 2)) t) as [Q|Q].
  - destruct (Reqb_spec t 0) as [Q0|Q0]; [discriminate|]. destruct (Nat.eq_dec i 0) as [-> |N]; [cbn [Nat.add] in Q; lra|lia].
  - destruct (Reqb_spec (kn l (i + 3)) t); lia.
Qed.
End Beside.

Lemma extend_in s iu iv u v a c : In (a, c) (extend s iu iv u v) <->
  (a = Z.of_nat iu \/ beside (knots (u_basis s)) iu u = true /\ a = (Z.of_nat iu + face_flag (knots (u_basis s)) iu u)%Z) /\
  (c = Z.of_nat iv \/ beside (knots (v_basis s)) iv v = true /\ c = (Z.of_nat iv + face_flag (knots (v_basis s)) iv v)%Z).
Proof.
  unfold extend. cbv zeta. cbn [In]. rewrite !in_app_iff. destruct (beside (knots (u_basis s)) iu u), (beside (knots (v_basis s)) iv v); cbn [andb In]; split.
  all: intros H; repeat match goal with H : _ /\ _ |- _ => destruct H | H : _ \/ _ |- _ => destruct H as [H|H] | H : False |- _ => destruct H end; try discriminate;
    try match goal with H : (_, _) = (_, _) |- _ => injection H as <- <- end; subst; tauto.
Qed.
Lemma extend_nodup s iu iv u v : NoDup (extend s iu iv u v).
Proof.
  unfold extend, beside. cbv zeta. generalize (face_flag (knots (u_basis s)) iu u) (face_flag (knots (v_basis s)) iv v) (bound_flag u) (bound_flag v). intros f g x y.
  destruct (Z.eqb_spec f 0) as [F|F], (Z.eqb_spec g 0) as [G|G], x, y; cbn [negb andb app];
  repeat (constructor; [cbn [In]; intros H; repeat match goal with H : _ \/ _ |- _ => destruct H as [H|H] | H : False |- _ => destruct H end; try (injection H; intros; lia)|]); constructor.
Qed.

(** * Sums *)
Lemma window_f N I (c f : nat -> R) : (I + 3 <= N)%nat -> (forall i, (i < N)%nat -> (i < I \/ I + 3 <= i)%nat -> f i = 0) ->
  rsum 3 (fun r => c (I + r)%nat * f (I + r)%nat) = rsum N (fun i => c i * f i).
Proof. intros H Z. symmetry. rewrite (rsum_window _ I 3); [reflexivity|lia|]. intros i Hi O. rewrite (Z i Hi O). ring. Qed.

Section Surf.
Variables (s : surface) (d : nat).
Hypothesis P : plain s d.
Notation ub := (u_basis s).
Notation vb := (v_basis s).
Let EU := proj1 P.
Let EV := proj1 (proj2 P).
Let RA := proj1 (proj2 (proj2 P)).
Let SH := proj2 (proj2 (proj2 P)).
Lemma pole_row i : (i < size ub)%nat -> length (nth i (s_poles s) []) = size vb.
Proof. intros L. apply (proj2 SH). apply nth_In. rewrite (proj1 SH). exact L. Qed.
Lemma pole_len i k : (i < size ub)%nat -> (k < size vb)%nat -> length (nth k (nth i (s_poles s) []) []) = d.
Proof. intros L M. destruct SH as [A B]. refine (proj2 (B (nth i (s_poles s) []) _) _ _); [apply nth_In; rewrite A; exact L|]. apply nth_In. rewrite pole_row by exact L. exact M. Qed.
Lemma cols_d : s_cols s = d.
Proof. destruct (csizes ub EU) as (A & _ & B). destruct (csizes vb EV) as (A' & _ & B'). apply pole_len; lia. Qed.
Lemma dim_d : s_dim s = d.
Proof. unfold s_dim. rewrite RA. cbn [rat_cols]. rewrite Nat.sub_0_r. exact cols_d. Qed.
Definition SS (f g : nat -> R) (j : nat) : R := rsum (size vb) (fun k => rsum (size ub) (fun i => spole s i k j * f i) * g k).
Lemma inner2_f f g iu iv j : (iu < n_intervals ub)%nat -> (iv < n_intervals vb)%nat ->
  (forall i, (i < size ub)%nat -> (i < iu \/ iu + 3 <= i)%nat -> f i = 0) -> (forall i, (i < size vb)%nat -> (i < iv \/ iv + 3 <= i)%nat -> g i = 0) ->
  inner2 (map (fun r => f (iu + r)%nat) (seq 0 3)) (map (fun r => g (iv + r)%nat) (seq 0 3)) (sub_array iu 3 iv 3 (fun p => nth j p 0) (s_poles s)) = SS f g j.
Proof.
  intros Hu Hv F G. destruct (csizes ub EU) as (A & _ & _). destruct (csizes vb EV) as (A' & _ & _). unfold SS.
  rewrite <- (window_f (size vb) iv (fun k => rsum (size ub) (fun i => spole s i k j * f i)) g); [|lia|exact G].
  unfold inner2. rewrite map_length, seq_length. rewrite inner_seq. apply rsum_ext. intros q Hq.
  rewrite (nth_map_lt _ (seq 0 3) q 0 0%nat) by (rewrite seq_length; lia). rewrite seq_nth by lia. cbn [Nat.add]. f_equal.
  rewrite <- (window_f (size ub) iu (fun i => spole s i (iv + q) j) f); [|lia|exact F]. rewrite inner_seq. apply rsum_ext. intros r Hr.
  unfold column, sub_array. rewrite map_map. rewrite (nth_map_lt _ _ r 0 []) by (rewrite slice_length; rewrite ?(proj1 SH); lia). rewrite nth_slice by lia.
  rewrite (nth_map_lt _ _ q 0 []) by (rewrite slice_length; [lia|rewrite pole_row; lia]). rewrite nth_slice by lia. unfold spole. ring.
Qed.
Lemma eval_SS u v : in_dom ub u -> in_dom vb v -> surface_eval s u v = Some (map (SS (fun i => ev ub i u) (fun k => ev vb k v)) (seq 0 d)).
Proof.
  intros U W. rewrite (surface_eval_l s (cb_valid ub EU) (cb_valid vb EV) (proj1 SH) (fun r H => proj1 (proj2 SH r H)) u v U W RA), dim_d. reflexivity.
Qed.
Lemma deriv_ss_u u v j : (j < d)%nat -> in_dom ub u -> in_dom vb v ->
  deriv_within (in_dom ub) (fun y => coord (surface_eval s y v) j) u (SS (fun i => dev ub i u) (fun k => ev vb k v) j).
Proof.
  intros J U W. apply (deriv_ext _ (fun y => rsum (size vb) (fun k => ev vb k v * rsum (size ub) (fun i => spole s i k j * ev ub i y)))); [exact U| |].
  - intros y Y. rewrite eval_SS by assumption. cbn [coord]. rewrite nth_map_seq by exact J. apply rsum_ext. intros. ring.
  - unfold SS. rewrite (rsum_ext _ _ (fun k => ev vb k v * rsum (size ub) (fun i => spole s i k j * dev ub i u))) by (intros; ring).
    apply deriv_sum. intros k K. apply deriv_scal. apply deriv_sum. intros i I. apply deriv_scal. apply cderiv; assumption.
Qed.
Lemma deriv_ss_v u v j : (j < d)%nat -> in_dom ub u -> in_dom vb v ->
  deriv_within (in_dom vb) (fun y => coord (surface_eval s u y) j) v (SS (fun i => ev ub i u) (fun k => dev vb k v) j).
Proof.
  intros J U W. apply (deriv_ext _ (fun y => rsum (size vb) (fun k => rsum (size ub) (fun i => spole s i k j * ev ub i u) * ev vb k y))); [exact W| |].
  - intros y Y. rewrite eval_SS by assumption. cbn [coord]. now rewrite nth_map_seq by exact J.
  - unfold SS. apply deriv_sum. intros k K. apply deriv_scal. apply cderiv; assumption.
Qed.
End Surf.

Section Curv.
Variables (c : curve) (d : nat).
Hypothesis P : plain_curve c d.
Notation b := (c_basis c).
Let E := proj1 P.
Let RA := proj1 (proj2 P).
Let SH := proj2 (proj2 P).
Lemma ccols_d : length (nth 0 (c_poles c) []) = d.
Proof. destruct (csizes b E) as (A & _ & B). apply (proj2 SH). apply nth_In. rewrite (proj1 SH). lia. Qed.
Definition CC (f : nat -> R) (j : nat) : R := rsum (size b) (fun i => pole c i j * f i).
Lemma inner_f f it j : (it < n_intervals b)%nat -> (forall i, (i < size b)%nat -> (i < it \/ it + 3 <= i)%nat -> f i = 0) ->
  inner (map (fun r => f (it + r)%nat) (seq 0 3)) (column j (slice it 3 (c_poles c))) = CC f j.
Proof.
  intros H F. destruct (csizes b E) as (A & _ & _). unfold CC. rewrite <- (window_f (size b) it (fun i => pole c i j) f); [|lia|exact F].
  rewrite inner_seq. apply rsum_ext. intros r Hr. unfold column. rewrite (nth_map_lt _ _ r 0 []) by (rewrite slice_length; rewrite ?(proj1 SH); lia). rewrite nth_slice by lia. unfold pole. ring.
Qed.
Lemma eval_CC t : in_dom b t -> curve_eval c t = Some (map (CC (fun i => ev b i t)) (seq 0 d)).
Proof.
  intros T. rewrite (curve_eval_l c (cb_valid b E) (proj1 SH) t T RA). unfold c_dim. rewrite RA, ccols_d. cbn [rat_cols]. rewrite Nat.sub_0_r. reflexivity.
Qed.
Lemma deriv_cc t j : (j < d)%nat -> in_dom b t -> deriv_within (in_dom b) (fun y => coord (curve_eval c y) j) t (CC (fun i => dev b i t) j).
Proof.
  intros J T. apply (deriv_ext _ (fun y => rsum (size b) (fun i => pole c i j * ev b i y))); [exact T| |].
  - intros y Y. rewrite eval_CC by assumption. cbn [coord]. now rewrite nth_map_seq by exact J.
  - unfold CC. apply deriv_sum. intros i I. apply deriv_scal. apply cderiv; assumption.
Qed.
End Curv.

(** * Threads *)
Section Threads.
Variables (s : surface) (d : nat).
Hypothesis P : plain s d.
Let EU := proj1 P.
Let EV := proj1 (proj2 P).
Let SH := proj2 (proj2 (proj2 P)).
Lemma fix_cells ax : cells_basis (fix_basis s ax).
Proof. destruct ax; [exact EU|exact EV]. Qed.
Lemma run_cells ax : cells_basis (run_basis s ax).
Proof. destruct ax; [exact EV|exact EU]. Qed.
(** The point of the surface at w of the fixed and y of the running parameter. *)
Definition on_surface (ax : axis) (w y : R) : option (list R) := match ax with AxU => surface_eval s w y | AxV => surface_eval s y w end.
Lemma main_cell b iw : cells_basis b -> (iw <= n_intervals b)%nat -> in_cell b (main_patch iw) (kn (knots b) (iw + 2)).
Proof.
  intros E L. destruct (csizes b E) as (A & _ & B). unfold main_patch, in_cell. destruct iw as [|iw].
  - cbn [Nat.sub Nat.add]. assert (X := strict b E 0 ltac:(lia)). cbn [Nat.add] in X. split; [lia|lra].
  - replace (S iw - 1)%nat with iw by lia. replace (S iw + 2)%nat with (iw + 3)%nat by lia. assert (X := strict b E iw ltac:(lia)). split; [lia|lra].
Qed.
Lemma thread ax iw : (iw <= n_intervals (fix_basis s ax))%nat -> exists c, main_curve s ax iw = Some (c, kn (knots (fix_basis s ax)) (iw + 2)) /\
  plain_curve c d /\ c_basis c = run_basis s ax /\ forall y, in_dom (run_basis s ax) y -> curve_eval c y = on_surface ax (kn (knots (fix_basis s ax)) (iw + 2)) y.
Proof.
  intros L. assert (F := fix_cells ax). assert (RC := run_cells ax). assert (C := main_cell _ iw F L). unfold main_curve. set (b := fix_basis s ax) in *. set (t := kn (knots b) (iw + 2)) in *. cbv zeta.
  set (p := main_patch iw) in *. rewrite (cvec b F p t (proj1 C)). destruct (csizes _ F) as (A & _ & _). assert (PL := proj1 C).
  assert (DT := cell_dom b F p t C). destruct (csizes _ RC) as (AR & _ & BR). set (w := map (fun r => ev b (p + r) t) (seq 0 3)).
  assert (LP : length (thread_poles s ax p w) = size (run_basis s ax)). { destruct ax; cbn [thread_poles run_basis]; rewrite map_length; [apply seq_length|apply (proj1 SH)]. }
  assert (PV : forall i j, (i < size (run_basis s ax))%nat -> (j < d)%nat -> nth j (nth i (thread_poles s ax p w) []) 0 = rsum (size b) (fun q => match ax with AxU => spole s q i j | AxV => spole s i q j end * ev b q t)).
  { intros i j I J. destruct ax; cbn [thread_poles run_basis fix_basis] in *; subst b.
    - rewrite (nth_map_lt _ (seq 0 _) i [] 0%nat) by (rewrite seq_length; exact I). rewrite seq_nth by exact I. cbn [Nat.add]. rewrite nth_map_seq by (rewrite (cols_d s d P); exact J).
      unfold w. rewrite inner_seq. rewrite <- (window_f (size (u_basis s)) p (fun q => spole s q i j) (fun q => ev (u_basis s) q t)); [|lia|intros q Q O; apply (coutside _ F p t q C Q O)].
      apply rsum_ext. intros r Hr. rewrite (nth_map_lt _ _ r 0 []) by (rewrite slice_length; rewrite ?(proj1 SH); lia). rewrite nth_slice by lia. unfold spole. ring.
    - rewrite (nth_map_lt _ (s_poles s) i [] []) by (rewrite (proj1 SH); exact I). rewrite nth_map_seq by (rewrite (cols_d s d P); exact J).
      unfold w. rewrite inner_seq. rewrite <- (window_f (size (v_basis s)) p (fun q => spole s i q j) (fun q => ev (v_basis s) q t)); [|lia|intros q Q O; apply (coutside _ F p t q C Q O)].
      apply rsum_ext. intros r Hr. rewrite (nth_map_lt _ _ r 0 []) by (rewrite slice_length; [lia|rewrite (pole_row s d P); lia]). rewrite nth_slice by lia. unfold spole. ring. }
  unfold make_curve. rewrite LP, Nat.eqb_refl. eexists. split; [reflexivity|].
  assert (PC : plain_curve (Curve (run_basis s ax) (thread_poles s ax p w) false) d).
  { split; [exact RC|]. split; [reflexivity|]. split; [exact LP|]. cbn [c_poles]. destruct ax; cbn [thread_poles]; intros q Q; apply in_map_iff in Q as (x & <- & _); rewrite map_length, seq_length; apply (cols_d s d P). }
  split; [exact PC|]. split; [reflexivity|]. intros y Y. rewrite (eval_CC _ d PC y Y). cbn [c_basis]. destruct ax; cbn [on_surface fix_basis run_basis] in *; subst b.
  - rewrite (eval_SS s d P t y DT Y). f_equal. apply map_ext_in. intros j J. apply in_seq in J. unfold CC, SS, pole. cbn [c_basis c_poles]. apply rsum_ext. intros i I. rewrite PV by (assumption || lia). reflexivity.
  - rewrite (eval_SS s d P y t Y DT). f_equal. apply map_ext_in. intros j J. apply in_seq in J. unfold CC, SS, pole. cbn [c_basis c_poles].
    rewrite (rsum_ext _ _ (fun i => rsum (size (v_basis s)) (fun q => spole s i q j * ev (u_basis s) i y * ev (v_basis s) q t))).
    + rewrite rsum_swap. apply rsum_ext. intros q Q. rewrite Rmult_comm, <- rsum_scal. apply rsum_ext. intros. ring.
    + intros i I. rewrite PV by (assumption || lia). rewrite Rmult_comm, <- rsum_scal. apply rsum_ext. intros. ring.
Qed.
Lemma all_threads ax : exists l, main_curves s ax = Some l /\ length l = S (n_intervals (fix_basis s ax)) /\
  forall iw c w, nth_error l iw = Some (c, w) -> (iw <= n_intervals (fix_basis s ax))%nat /\ w = kn (knots (fix_basis s ax)) (iw + 2) /\ plain_curve c d /\ c_basis c = run_basis s ax /\
    forall y, in_dom (run_basis s ax) y -> curve_eval c y = on_surface ax w y.
Proof.
  unfold main_curves. set (n := n_intervals (fix_basis s ax)).
  assert (G : forall k a, (a + k <= S n)%nat -> exists l, all_some (map (main_curve s ax) (seq a k)) = Some l /\ length l = k /\ forall i c w, nth_error l i = Some (c, w) -> (i < k)%nat /\ main_curve s ax (a + i) = Some (c, w)).
  { induction k as [|k IH]; intros a L; cbn [seq map all_some].
    - exists []. repeat split; try reflexivity; destruct i; discriminate.
    - destruct (thread ax a ltac:(unfold n in *; lia)) as (c0 & M & _). rewrite M. destruct (IH (S a) ltac:(lia)) as (l & -> & LL & X). eexists. split; [reflexivity|]. split; [cbn; lia|].
      intros [|i] c w; cbn [nth_error]; [intros [= <- <-]; replace (a + 0)%nat with a by lia; split; [lia|exact M]|]. intros H. destruct (X i c w H) as [B N]. split; [lia|]. replace (a + S i)%nat with (S a + i)%nat by lia. exact N. }
  destruct (G (n + 1)%nat 0%nat ltac:(lia)) as (l & H & LL & X). exists l. split; [exact H|]. split; [lia|]. intros iw c w N. destruct (X iw c w N) as [B M]. cbn [Nat.add] in M.
  destruct (thread ax iw ltac:(unfold n in *; lia)) as (c' & M' & Q). rewrite M in M'. injection M' as -> ->. split; [lia|]. split; [reflexivity|]. exact Q.
Qed.
End Threads.
