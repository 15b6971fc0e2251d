(** Points of SurfaceApprox in the quad. *)
From Coq Require Import List Arith Lia Bool Reals Lra Psatz Sorted.
From Verif Require Import Spline_Model Spline_Proofs ZSurf_Model Rect_Spec Fit_Model Fit_Spec.
Import ListNotations.
Local Open Scope R_scope.

Lemma mask_rows {A} (d : A) idx : forall l, length l = length idx ->
  mask idx l = rows d l (filter (fun j => nth j idx false) (seq 0 (length idx))).
Proof.
  induction idx as [|b idx IH]; intros [|x l] L; try reflexivity; try discriminate L. cbn [mask length seq]. cbn in L. injection L as L.
  assert (G : forall js, rows d (x :: l) (map S js) = rows d l js). { intros js. unfold rows. rewrite map_map. reflexivity. }
  assert (F : forall n s, filter (fun j => nth j (b :: idx) false) (map S (seq s n)) = map S (filter (fun j => nth j idx false) (seq s n))).
  { induction n as [|n IHn]; intros s; [reflexivity|]. cbn [seq map filter]. change (nth (S s) (b :: idx) false) with (nth s idx false). destruct (nth s idx false); cbn [map]; rewrite IHn; reflexivity. }
  rewrite <- seq_shift. cbn [filter nth]. rewrite F, IH by exact L. destruct b; [|now rewrite G].
  unfold rows at 2. cbn [map nth]. f_equal. change (rows d l (filter (fun j => nth j idx false) (seq 0 (length idx))) = rows d (x :: l) (map S (filter (fun j => nth j idx false) (seq 0 (length idx))))). now rewrite G.
Qed.
Lemma filter_sorted f : forall n s, StronglySorted lt (filter f (seq s n)).
Proof.
  induction n as [|n IH]; intros s; cbn; [constructor|]. destruct (f s); [|apply IH]. constructor; [apply IH|].
  apply Forall_forall. intros j J. apply filter_In in J as [J _]. apply in_seq in J. lia.
Qed.

Section Uv.
Variables (q : quad).
Hypothesis AR : area (q0 q) (q1 q) (q2 q) <> 0.
Lemma inv_some : exists m, mat_xy_to_uv q = Some m /\ forall p u v, point_uv q m p = (u, v) <-> p = place (q0 q) (q1 q) (q2 q) u v.
Proof.
  unfold mat_xy_to_uv, inv. destruct (Reqb_spec (det (column_stack (psub (q2 q) (q1 q)) (psub (q0 q) (q1 q)))) 0) as [E|E].
  - exfalso. apply AR. unfold area, crossr, subr. unfold det, column_stack, psub in E. cbn in *. lra.
  - eexists. split; [reflexivity|]. revert E. destruct q as [[ax ay] [bx b_y] [cx cy] c3]. unfold det, column_stack, point_uv, mapply, place, psub. cbn.
    set (D := (cx - bx) * (ay - b_y) - (ax - bx) * (cy - b_y)). intros E [x y] u v. cbn. split; intros H.
    + injection H as <- <-. f_equal; unfold D in *; field; exact E.
    + injection H as -> ->. f_equal; unfold D in *; field; exact E.
Qed.
Lemma cut_near m p : (forall p u v, point_uv q m p = (u, v) <-> p = place (q0 q) (q1 q) (q2 q) u v) ->
  in_cut (point_uv q m p) = true <-> near uv_eps (q0 q) (q1 q) (q2 q) p.
Proof.
  intros H. destruct (point_uv q m p) as [u v] eqn:E. assert (P := proj1 (H p u v) E). unfold in_cut. cbn. rewrite !andb_true_iff. unfold near, about_unit. split.
  - intros [[A B] [C D]]. exists u, v. split; [exact P|]. destruct (Rltb_spec (- uv_eps) u), (Rltb_spec (- uv_eps) v), (Rleb_spec u (1 + uv_eps)), (Rleb_spec v (1 + uv_eps)); try discriminate. lra.
  - intros (u' & v' & P' & U & V). apply H in P'. rewrite P' in E. injection E as <- <-.
    destruct (Rltb_spec (- uv_eps) u'), (Rltb_spec (- uv_eps) v'), (Rleb_spec u' (1 + uv_eps)), (Rleb_spec v' (1 + uv_eps)); try lra; repeat split.
Qed.
Lemma uv_points xy z w : length z = length xy -> (forall l, w = Some l -> length l = length xy) -> exists m js,
  mat_xy_to_uv q = Some m /\ (forall p u v, point_uv q m p = (u, v) <-> p = place (q0 q) (q1 q) (q2 q) u v) /\
  chosen (near uv_eps (q0 q) (q1 q) (q2 q)) xy (0, 0) js /\
  compute_uv_points q xy z w = Some (map (fun j => snap (point_uv q m (nth j xy (0, 0)))) js, rows 0 z js, option_map (fun l => rows 0 l js) w).
Proof.
  intros LZ LW. destruct inv_some as (m & M & H). exists m. set (idx := map in_cut (map (point_uv q m) xy)).
  assert (LI : length idx = length xy) by (unfold idx; now rewrite !map_length).
  assert (NI : forall j, (j < length xy)%nat -> nth j idx false = in_cut (point_uv q m (nth j xy (0, 0)))).
  { intros j J. unfold idx. rewrite map_map. rewrite (nth_indep _ false (in_cut (point_uv q m (0, 0)))) by (rewrite map_length; exact J). exact (map_nth (fun p => in_cut (point_uv q m p)) xy (0, 0) j). }
  exists (filter (fun j => nth j idx false) (seq 0 (length idx))). split; [exact M|]. split; [exact H|]. split.
  - split; [apply filter_sorted|]. intros j. rewrite filter_In, in_seq, LI. split.
    + intros [J B]. split; [lia|]. apply (cut_near m _ H). rewrite <- NI by lia. exact B.
    + intros [J B]. split; [lia|]. rewrite NI by exact J. apply (cut_near m _ H). exact B.
  - unfold compute_uv_points. rewrite M. fold idx. f_equal. f_equal; [f_equal|].
    + rewrite (mask_rows (point_uv q m (0, 0))) by (rewrite map_length; symmetry; exact LI). unfold rows. rewrite map_map. apply map_ext. intros j. f_equal. apply map_nth.
    + apply mask_rows. congruence.
    + destruct w as [l|]; [|reflexivity]. cbn. f_equal. apply mask_rows. rewrite (LW l eq_refl). now symmetry.
Qed.
End Uv.
Lemma snap_unit x : nearest_unit x (Rmin (Rmax x 0) 1).
Proof.
  unfold nearest_unit. destruct (Rle_dec x 0) as [A|A]; [rewrite (Rmax_right x 0) by lra; rewrite Rmin_left by lra|rewrite (Rmax_left x 0) by lra; destruct (Rle_dec x 1) as [B|B]; [rewrite Rmin_left by lra|rewrite Rmin_right by lra]].
  - split; [lra|]. intros t T. rewrite !(Rabs_left1 (x - _)) by lra. lra.
  - split; [lra|]. intros t T. rewrite Rminus_diag_eq by reflexivity. rewrite Rabs_R0. apply Rabs_pos.
  - split; [lra|]. intros t T. rewrite !(Rabs_right (x - _)) by lra. lra.
Qed.
Lemma near_inside e q p c3 : 0 < e -> inside (q0 q) (q1 q) (q2 q) c3 p -> near e (q0 q) (q1 q) (q2 q) p.
Proof. intros E (s & t & S & T & X & Y). exists s, t. split; [|unfold about_unit; lra]. destruct p as [x y]. unfold place. cbn in *. now rewrite X, Y. Qed.
