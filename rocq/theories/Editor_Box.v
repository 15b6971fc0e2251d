(** What the tables of boxes answer. *)
From stdpp Require Import gmap list.
From Coq Require Import Lia QArith Lqa Qminmax.
From Verif Require Import Decomp_Model Decomp_Spec Decomp_Eff Decomp_Inv Decomp_Good Editor_Model Editor_Spec Editor_Proofs.
From Verif Require Import Aabb_Model Aabb_Spec Aabb_Proofs.
Local Open Scope nat_scope.

Lemma marg_nonneg m : (0 <= eff_margin m)%Q.
Proof. unfold eff_margin. apply Q.le_max_l. Qed.
Lemma marg_ge m : (m <= eff_margin m)%Q.
Proof. unfold eff_margin. apply Q.le_max_r. Qed.
Lemma point_box (d : ed) p v : einv d -> xy_of (dec d) !! p = Some v -> exists b, p_cur (dec d) (tolerance d) p = Some b /\ make_aabb [v] (tolerance d) = Some b /\ covers b (eff_margin (tolerance d)) v.
Proof.
  intros I H. destruct (make_one [v] (tolerance d) v) as (b & B & C); [by apply elem_of_list_singleton|]. exists b. split; [|split; [done|apply C; by apply elem_of_list_singleton]].
  unfold p_cur. unfold vect in *. change pt with (Q * Q)%type in *. by rewrite H.
Qed.
Lemma seg_live s g x y : inv s -> ends s g x y -> is_Some (vec s !! g).
Proof. intros I (a & b & A & _). apply (i_vec _ I). eauto. Qed.
Lemma covered_l d : einv d -> covered d.
Proof.
  intros I. split.
  - intros p v H. destruct (point_box d p v I H) as (b & B & _ & C). exists b. split; [|done]. by eapply tab_box; [apply I|].
  - intros g x y H. destruct (e_segs _ I) as (cs & T & L & _ & C). destruct (proj2 (L g) (seg_live _ _ _ _ (g_inv _ (e_good _ I)) H)) as [b B].
    exists b. split; [by eapply tab_box|]. by eapply C.
Qed.
Lemma found_box t i b q z : box_of t i = Some b -> in_box z b -> in_box z q -> In i (intersect_candidates t q).
Proof.
  unfold box_of. destruct (i <? l_n t) eqn:E; [|done]. intros B [[A1 A2] [A3 A4]] [[B1 B2] [B3 B4]]. unfold intersect_candidates. apply where_In. exists b.
  rewrite nth_error_firstn. rewrite E. split; [done|]. unfold not_intersect. apply negb_true_iff. rewrite !orb_false_iff, !negb_false_iff, !Qle_bool_iff. repeat split; lra.
Qed.
Lemma covers_in b m z : (0 <= m)%Q -> covers b m z -> in_box z b.
Proof. intros M [[A1 A2] [A3 A4]]. split; split; lra. Qed.
(** A segment with a point in the box of a query is among the candidates. *)
Lemma seg_found d g x y z q : einv d -> ends (dec d) g x y -> between x y z -> in_box z q -> In g (intersect_candidates (s_boxes d) q).
Proof.
  intros I H B Q. destruct (covered_l _ I) as [_ C]. destruct (C _ _ _ H) as (b & E & Cx & Cy). eapply found_box; [exact E| |exact Q].
  eapply covers_in; [apply marg_nonneg|]. exact (covers_between _ _ _ _ _ Cx Cy B).
Qed.
(** ... even if it only comes near. *)
Lemma seg_found_near d g x y z w q : einv d -> ends (dec d) g x y -> between x y z -> in_box w q ->
  (fst z - tolerance d <= fst w <= fst z + tolerance d)%Q -> (snd z - tolerance d <= snd w <= snd z + tolerance d)%Q -> In g (intersect_candidates (s_boxes d) q).
Proof.
  intros I H B Q N1 N2. destruct (covered_l _ I) as [_ C]. destruct (C _ _ _ H) as (b & E & Cx & Cy). eapply found_box; [exact E| |exact Q].
  destruct (covers_between _ _ _ _ _ Cx Cy B) as [[A1 A2] [A3 A4]]. assert (M := marg_ge (tolerance d)). split; split; lra.
Qed.
Lemma far_query q k : (bx1 q < k)%Q -> not_intersect q (inf_row k) = true.
Proof.
  intros H. unfold not_intersect, inf_row. cbn. assert (E : Qle_bool k (bx1 q) = false). { destruct (Qle_bool k (bx1 q)) eqn:E; [|done]. apply Qle_bool_iff in E. lra. }
  by rewrite E.
Qed.
(** Only segments that exist are candidates. *)
Lemma seg_alive d g q : einv d -> (bx1 q < inject_Z (10 ^ 50))%Q -> In g (intersect_candidates (s_boxes d) q) -> is_Some (vec (dec d) !! g).
Proof.
  intros I Q H. destruct (e_segs _ I) as (cs & T & L & _ & _). apply L. destruct (cs g) as [b|] eqn:E; [eauto|]. exfalso.
  unfold intersect_candidates in H. apply where_In in H as (b & B & F). rewrite nth_error_firstn in B.
  assert (X : b = inf_row (l_inf (s_boxes d))) by (eapply tab_dead; [exact T|exact E|]; unfold box_of; by destruct (g <? l_n (s_boxes d))).
  rewrite X, (e_sinf _ I) in F. by rewrite far_query in F.
Qed.

(** * Points near a place *)
Lemma one_box v tol b : make_aabb [v] tol = Some b -> (0 < tol)%Q -> bx0 b == fst v - tol /\ bx1 b == fst v + tol /\ by0 b == snd v - tol /\ by1 b == snd v + tol.
Proof.
  unfold make_aabb. cbn. intros H P. assert (E : Qle_bool tol 0 = false). { destruct (Qle_bool tol 0) eqn:E; [|done]. apply Qle_bool_iff in E. lra. }
  rewrite E in H. cbn in H. injection H as <-. cbn. repeat split; lra.
Qed.
(** The candidates for the closest object, for a table that follows [cur]. *)
Lemma closest_tab l cur M p j0 b0 : tab_inv l cur -> pt_bounded M p -> (0 < M)%Q -> (4 * M <= l_inf l)%Q ->
  (forall id b, cur id = Some b -> proper b /\ fat b /\ bounded M b) -> cur j0 = Some b0 ->
  exists r, closest_candidates l p = Some r /\ (forall id, In id r -> exists b, cur id = Some b) /\ (forall id b, cur id = Some b -> in_box p b -> In id r) /\
    (forall o : nat -> pt, (forall id b, cur id = Some b -> in_box (o id) b) -> forall j b, cur j = Some b -> exists i, In i r /\ (dist2 p (o i) <= dist2 p (o j))%Q).
Proof.
  intros HI Hp HM Hinf Hb Hj0. destruct (closest_core l cur M p j0 b0 HI HM Hinf Hp Hb Hj0) as (m & r & Er & Hm & HmM & Hr & (c & bc & Hc & Hfc)).
  exists r. split; [done|]. split; [intros id Hid; apply Hr in Hid as (b & Hb' & _); eauto|].
  assert (Hcr : In c r).
  { apply Hr. exists bc. split; [done|]. apply lt_sqrt2_pos; [lra|].
    destruct (Hb _ _ Hc) as (Pc & Fc & _). pose proof (inf_le_far p bc Pc).
    destruct (Qlt_le_dec (inf_dist p bc) 0); [left; lra|]. right. split; [done|]. split; [done|]. nra. }
  split.
  { intros id b Hid Hin. apply Hr. exists b. split; [done|]. apply lt_sqrt2_pos; [lra|].
    assert (inf_dist p b <= 0)%Q.
    { destruct (inf_dist_spec p b) as (_ & _ & _ & _ & A). simpl in A. destruct Hin as [[? ?] [? ?]]. destruct A as [A|[A|[A|A]]]; lra. }
    destruct (Qlt_le_dec (inf_dist p b) 0); [left; lra|]. right. split; [done|]. split; [done|]. nra. }
  intros o Ho j b Hj. destruct (lt_sqrt2 (inf_dist p b) m) eqn:Elt; [exists j; split; [apply Hr; eauto|lra]|].
  exists c. split; [done|].
  assert (Hge : (0 <= inf_dist p b /\ 2 * (m * m) <= inf_dist p b * inf_dist p b)%Q).
  { split.
    - destruct (Qlt_le_dec (inf_dist p b) 0) as [Hlt|]; [|done]. assert (lt_sqrt2 (inf_dist p b) m = true) by (apply lt_sqrt2_pos; [lra|left; auto]). congruence.
    - destruct (Qlt_le_dec (inf_dist p b * inf_dist p b) (2 * (m * m))) as [Hlt|]; [|done].
      assert (lt_sqrt2 (inf_dist p b) m = true); [|congruence]. apply lt_sqrt2_pos; [lra|]. destruct (Qlt_le_dec (inf_dist p b) 0); [left; auto|right; auto]. }
  destruct Hge as [G1 G2]. pose proof (dist2_upper p (o c) bc (Ho _ _ Hc)). pose proof (dist2_lower p (o j) b (Ho _ _ Hj) G1).
  destruct (Hb _ _ Hc) as (Pc & Fc & _). pose proof (far_pos p bc Pc Fc). nra.
Qed.
