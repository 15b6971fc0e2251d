(** Properties C13-C16 (planar geometry). *)
From Coq Require Import List QArith Bool Arith Lia Lqa Permutation.
From Verif Require Import Aabb_Model Aabb_Spec Geom_Model Geom_Spec Geom_Proofs.
Import ListNotations.
Open Scope Q_scope.

(** C13 *)
Theorem C13_projection_is_nearest : forall vec out p t,
  seg_project_point vec out p = Some t ->
  0 <= t <= 1 /\
  forall s, 0 <= s <= 1 ->
    dist2 p (point_at out (fst out + fst vec, snd out + snd vec) t)
    <= dist2 p (point_at out (fst out + fst vec, snd out + snd vec) s).
Proof. exact project_l. Qed.
Print Assumptions C13_projection_is_nearest.
Theorem C13_projection_defined : forall vec out p,
  ~ (fst vec == 0 /\ snd vec == 0) <-> exists t, seg_project_point vec out p = Some t.
Proof. exact project_defined_l. Qed.
Print Assumptions C13_projection_defined.
Example C13_case :
  (exists t, seg_project_point (4, 2) (1, 1) (3, 5) = Some t /\ t == 4 # 5) /\
  (exists t, seg_project_point (4, 2) (1, 1) (30, 5) = Some t /\ t == 1) /\
  seg_project_point (0, 0) (1, 1) (30, 5) = None.
Proof.
  split; [|split]; [eexists; split; [reflexivity|reflexivity]..|reflexivity].
Qed.

(** C14 *)
Theorem C14_intersection_sound : forall v p0 a b t0 t1,
  seg_intersection v p0 a b = Some (t0, t1) ->
  inner t0 /\ inner t1 /\
  pt_eq (point_at p0 (fst p0 + fst v, snd p0 + snd v) t0) (point_at a b t1).
Proof. exact intersection_sound_l. Qed.
Print Assumptions C14_intersection_sound.
Theorem C14_intersection_complete : forall v p0 a b t0 t1,
  ~ parallel v (vsub b a) -> inner t0 -> inner t1 ->
  pt_eq (point_at p0 (fst p0 + fst v, snd p0 + snd v) t0) (point_at a b t1) ->
  exists s0 s1, seg_intersection v p0 a b = Some (s0, s1) /\ s0 == t0 /\ s1 == t1.
Proof. exact intersection_complete_l. Qed.
Print Assumptions C14_intersection_complete.
Theorem C14_parallel_none : forall v p0 a b,
  parallel v (vsub b a) -> seg_intersection v p0 a b = None.
Proof. exact intersection_parallel_l. Qed.
Print Assumptions C14_parallel_none.
Example C14_case :
  (exists t0 t1, seg_intersection (2, 2) (0, 0) (0, 2) (2, 0) = Some (t0, t1) /\ t0 == 1 # 2 /\ t1 == 1 # 2) /\
  ~ parallel (2, 2) (vsub (2, 0) (0, 2)) /\ inner (1 # 2) /\
  seg_intersection (2, 2) (0, 0) (0, 2) (1 # 2, 1) = None /\
  seg_intersection (2, 2) (0, 0) (0, 1) (2, 3) = None.
Proof.
  split; [do 2 eexists; split; [vm_compute; reflexivity|]; split; reflexivity|].
  split; [unfold parallel; simpl; intros H; discriminate H|].
  split; [unfold inner; lra|]. split; vm_compute; reflexivity.
Qed.

(** C15 *)
Theorem C15_ray_crossing : forall a b p, ~ on_seg a b p ->
  (is_on_x_line a b p = true <-> level_between a b (snd p) /\ right_of a b p).
Proof. exact ray_crossing_l. Qed.
Print Assumptions C15_ray_crossing.
Theorem C15_orientation_independent : forall a b p, ~ on_seg a b p ->
  is_on_x_line a b p = is_on_x_line b a p.
Proof. exact orientation_l. Qed.
Print Assumptions C15_orientation_independent.
(** A point of the segment counts as crossing only for a descending segment. *)
Theorem C15_on_segment : forall a b p, on_seg a b p ->
  (is_on_x_line a b p = true <-> snd b <= snd p < snd a).
Proof. exact on_segment_l. Qed.
Print Assumptions C15_on_segment.
Example C15_case :
  ~ on_seg (0, 0) (2, 4) (1, 1) /\ is_on_x_line (0, 0) (2, 4) (1, 1) = false /\
  ~ on_seg (0, 0) (2, 4) (0, 1) /\ is_on_x_line (0, 0) (2, 4) (0, 1) = true /\
  on_seg (0, 0) (2, 4) (1, 2) /\ is_on_x_line (0, 0) (2, 4) (1, 2) = false /\
  is_on_x_line (2, 4) (0, 0) (1, 2) = true.
Proof.
  split; [intros (t & H & E1 & E2); unfold point_at in *; simpl in *; lra|].
  split; [reflexivity|].
  split; [intros (t & H & E1 & E2); unfold point_at in *; simpl in *; lra|].
  split; [reflexivity|].
  split; [exists (1 # 2); split; [lra|split; reflexivity]|].
  split; reflexivity.
Qed.

(** C16. [closed_walk vs] are the edges of the closed walk through the vertices,
    [walks] says the wire lists them in any order and orientation. *)
Theorem C16_outside_bounding_box : forall vs wire p,
  walks (closed_walk vs) wire -> beyond vs p -> contains_point wire p = false.
Proof. exact outside_box_l. Qed.
Print Assumptions C16_outside_bounding_box.
Theorem C16_dendrites_ignored : forall d rest wire p,
  Permutation (d ++ d ++ rest) wire -> contains_point wire p = contains_point rest p.
Proof. exact dendrites_l. Qed.
Print Assumptions C16_dendrites_ignored.
Theorem C16_orientation_ignored : forall edges wire p,
  walks edges wire -> off_wire edges p -> contains_point wire p = contains_point edges p.
Proof. exact walks_l. Qed.
Print Assumptions C16_orientation_ignored.
(** Moving the point along a segment which does not meet the wire. *)
Theorem C16_constant_off_wire : forall vs wire p q,
  walks (closed_walk vs) wire ->
  (forall s, In s (closed_walk vs) -> disjoint p q (fst s) (snd s)) ->
  contains_point wire p = contains_point wire q.
Proof. exact constant_l. Qed.
Print Assumptions C16_constant_off_wire.
Theorem C16_convex_polygon : forall vs wire p,
  convex_ccw vs -> walks (closed_walk vs) wire ->
  (inside vs p -> contains_point wire p = true) /\
  (outside vs p -> contains_point wire p = false).
Proof. exact convex_l. Qed.
Print Assumptions C16_convex_polygon.

Definition quad : list pt := [(0, 0); (3, 1); (4, 4); (1, 3)].
(** The edges of the quadrilateral, some stored reversed, in another order. *)
Definition quad_wire : list gseg :=
  [((3, 1), (0, 0)); ((3, 1), (4, 4)); ((1, 3), (0, 0)); ((1, 3), (4, 4))].
Example C16_case :
  convex_ccw quad /\ walks (closed_walk quad) quad_wire /\ inside quad (2, 2) /\
  outside quad (3, 1 # 2) /\ contains_point quad_wire (2, 2) = true /\
  contains_point quad_wire (3, 1 # 2) = false /\ beyond quad (5, 0) /\
  contains_point quad_wire (5, 0) = false.
Proof.
  split.
  { split; [simpl; lia|]. split.
    - unfold quad. repeat (apply NoDup_cons; [simpl; intros X; decompose [or] X; discriminate || assumption|]). apply NoDup_nil.
    - intros s v Hs Hv. unfold quad, closed_walk in *. simpl in Hs, Hv.
      repeat match goal with H : _ \/ _ |- _ => destruct H as [H|H] | H : False |- _ => destruct H end;
      subst; simpl; tauto || (right; right; reflexivity). }
  split.
  { exists [((3, 1), (0, 0)); ((3, 1), (4, 4)); ((1, 3), (4, 4)); ((1, 3), (0, 0))]. split.
    - unfold closed_walk, quad, same_seg. simpl. repeat (apply Forall2_cons; [simpl; auto|]). apply Forall2_nil.
    - unfold quad_wire. do 2 apply perm_skip. apply perm_swap. }
  split.
  { intros s Hs. unfold quad, closed_walk in Hs. simpl in Hs.
    repeat match goal with H : _ \/ _ |- _ => destruct H as [H|H] | H : False |- _ => destruct H end;
    subst; reflexivity. }
  split; [exists ((0, 0) : pt, (3, 1) : pt); split; [now left|reflexivity]|].
  split; [reflexivity|]. split; [reflexivity|]. split; [|reflexivity].
  left. intros v Hv. unfold quad in Hv. simpl in Hv.
  repeat match goal with H : _ \/ _ |- _ => destruct H as [H|H] | H : False |- _ => destruct H end;
  subst; reflexivity.
Qed.

(** A point on a segment: reversing the stored segment changes the answer. *)
Theorem C16_on_wire_orientation_refuted : exists edges wire p,
  walks edges wire /\ ~ off_wire edges p /\ contains_point wire p <> contains_point edges p.
Proof.
  exists [((0, 0), (2, 4)); ((2, 4), (5, 2)); ((5, 2), (0, 0))],
         [((2, 4), (0, 0)); ((2, 4), (5, 2)); ((5, 2), (0, 0))], (1, 2).
  split; [eexists; split; [|apply Permutation_refl]; repeat (apply Forall2_cons; [unfold same_seg; simpl; auto|]); apply Forall2_nil|].
  split.
  - intros H. apply (H ((0, 0), (2, 4))); [now left|]. exists (1 # 2). split; [lra|split; reflexivity].
  - vm_compute. discriminate.
Qed.
Print Assumptions C16_on_wire_orientation_refuted.
