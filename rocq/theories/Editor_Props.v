(** Properties C25 and C26. *)
From stdpp Require Import gmap list.
From Coq Require Import QArith.
From Verif Require Import Decomp_Model Decomp_Spec Decomp_Plane.
From Verif Require Import Aabb_Model Aabb_Spec Editor_Model Editor_Spec Editor_Proofs Editor_Undo Editor_Box Editor_Plane.
Local Open Scope nat_scope.

Lemma two_vecs s s' g (a b : vect) : vec s !! g = Some a -> vec s' !! g = Some b -> a <> b -> vec s !! g <> vec s' !! g.
Proof. congruence. Qed.

(** * C25: boxes *)
(** After every history of the editor every point and segment lies in its box in the tables. *)
Theorem C25_covered d : edits d -> covered d.
Proof. intros H. by apply covered_l, edits_einv. Qed.
(** A query with a box does not miss a segment that passes through the box ... *)
Theorem C25_found d g (x y z : vect) q : edits d -> ends (dec d) g x y -> between x y z -> in_box z q -> In g (intersect_candidates (s_boxes d) q).
Proof. intros H E B Q. apply edits_einv in H. by eapply seg_found. Qed.
(** ... or within the tolerance of it. *)
Theorem C25_found_near d g (x y z w : vect) q : edits d -> ends (dec d) g x y -> between x y z -> in_box w q ->
  (fst z - tolerance d <= fst w <= fst z + tolerance d)%Q -> (snd z - tolerance d <= snd w <= snd z + tolerance d)%Q -> In g (intersect_candidates (s_boxes d) q).
Proof. intros H E B Q N1 N2. apply edits_einv in H. by eapply seg_found_near. Qed.
(** All its answers are segments of the decomposition. *)
Theorem C25_alive d g q : edits d -> (bx1 q < inject_Z (10 ^ 50))%Q -> In g (intersect_candidates (s_boxes d) q) -> is_Some (vec (dec d) !! g).
Proof. intros H. apply edits_einv in H. by apply seg_alive. Qed.
(** Joining segments leaves the box of the first one as it is: the joined segment sticks out and is missed. *)
Theorem C25_join_refuted : exists d mid e n d' (x y z : vect) q, edits d /\ goes_on (dec d) mid e n /\ join_seg mid e n d = (Ok mid, d') /\ ~ covered d' /\
  ends (dec d') e x y /\ between x y z /\ in_box z q /\ ~ In e (intersect_candidates (s_boxes d') q).
Proof.
  exists (eafter 1 split_frame), 1, 4, 1, (snd (join_seg 1 4 1 (eafter 1 split_frame))), (4, 0)%Q, (10, 10)%Q, (10, 10)%Q, (Box 9 8 11 12).
  split; [apply efine_edits; vm_compute; reflexivity|]. split.
  { split; [vm_compute; reflexivity|]. split; [vm_compute; reflexivity|]. intros a b A B. assert (a = 4) as -> by (vm_compute in A; congruence). assert (b = 2) as -> by (vm_compute in B; congruence). split; vm_compute; reflexivity. }
  split; [apply split_pair; vm_compute; reflexivity|]. split; [apply (bare_segment _ 4 (4, 0)%Q (10, 10)%Q (Box 3 (-1) 11 1)); vm_compute; reflexivity|].
  split; [apply ends_b_iff; vm_compute; reflexivity|]. split; [apply between_b_ok; vm_compute; reflexivity|]. split; [split; split; vm_compute; discriminate|].
  assert (E : intersect_candidates (s_boxes (snd (join_seg 1 4 1 (eafter 1 split_frame)))) (Box 9 8 11 12) = [2]) by (vm_compute; reflexivity).
  rewrite E. intros [X|[]]. discriminate.
Qed.
(** Moving a point leaves the boxes as they are. *)
Theorem C25_move_refuted : exists d p v d', edits d /\ move_points [p] v d = (Ok tt, d') /\ ~ covered d'.
Proof.
  exists (eafter 1 frame), 2, (5, 0)%Q, (snd (move_points [2] (5, 0)%Q (eafter 1 frame))). split; [apply efine_edits; vm_compute; reflexivity|].
  split; [apply split_pair; vm_compute; reflexivity|]. apply (bare_point _ 2 (15, 10)%Q (Box 9 9 11 11)); vm_compute; reflexivity.
Qed.
(** Removing a point with segments raises an exception, but only after its box is gone. *)
Theorem C25_rm_point_refuted : exists d p d', edits d /\ rm_point p d = (Raise, d') /\ ~ covered d'.
Proof.
  exists (eafter 1 frame), 2, (snd (rm_point 2 (eafter 1 frame))). split; [apply efine_edits; vm_compute; reflexivity|].
  split; [apply split_pair; vm_compute; reflexivity|]. apply (bare_point _ 2 (10, 10)%Q (inf_row (inject_Z (10 ^ 50)))); vm_compute; reflexivity.
Qed.
Example C25_case : edits (eafter 1 long_run) /\ ends_b (dec (eafter 1 long_run)) 4 = Some ((4, 0)%Q, (10, 0)%Q) /\
  intersect_candidates (s_boxes (eafter 1 long_run)) (Box 8 (-3) 9 (-1)) = [0; 1; 4].
Proof. split; [apply efine_edits; vm_compute; reflexivity|]. split; vm_compute; reflexivity. Qed.
Print Assumptions C25_covered.
Print Assumptions C25_found.
Print Assumptions C25_found_near.
Print Assumptions C25_alive.
Print Assumptions C25_join_refuted.
Print Assumptions C25_move_refuted.
Print Assumptions C25_rm_point_refuted.

(** * C26: undo *)
(** Undo of an added point gives back all of the decomposition; the id of the point stays the next one to be used. *)
Theorem C26_add_point K d v g p d1 : edits d -> add_point v g d = (Ok p, d1) -> exists d2, undo K d1 = (Ok tt, d2) /\ edits d2 /\ stack d2 = stack d /\
  exists c, dec d2 = set_ip c (dec d) /\ fst (new_id c) = fst (new_id (ip (dec d))).
Proof.
  intros H E. destruct (undo_add_point K _ _ _ _ _ (edits_einv _ H) E) as (d2 & c & U & S & D & C1 & C2 & r & d' & R & ->). exists (set_stack (stack d) d').
  split; [done|]. split; [|split; [done|exists c; split; [done|congruence]]].
  assert (S1 : stack d1 = UnAddPoint p :: stack d) by (by apply add_point_inv in E as (s & x & b & t & _ & _ & _ & _ & ->)).
  eapply (edits_undo K); [eapply (edits_call K (EAddPoint v g)); [exact H|exact E|exact I]|exact S1|reflexivity|exact R|exact I].
Qed.
(** Undo of a removed point gives back exactly the decomposition before. *)
Theorem C26_rm_point K d p d1 : edits d -> rm_point p d = (Ok tt, d1) -> exists d2, undo K d1 = (Ok tt, d2) /\ edits d2 /\ stack d2 = stack d /\ dec d2 = dec d.
Proof.
  intros H E. destruct (undo_rm_point K _ _ _ _ (edits_einv _ H) E) as (d2 & U & S & D & o & r & d' & O & R & ->). exists (set_stack (stack d) d').
  split; [done|]. split; [|done]. apply rm_point_inv in E as E'. destruct E' as (x & g & t & s & _ & _ & _ & _ & ED).
  assert (S1 : stack d1 = UnRmPoint (xy x) g :: stack d) by (by rewrite ED). rewrite S1 in O. cbn in O. injection O as <-.
  eapply (edits_undo K); [eapply (edits_call K (ERmPoint p) _ 0); [exact H|cbn; unfold ebind; by rewrite E|exact I]|exact S1|reflexivity|exact R|exact I].
Qed.
(** Undo of a new segment between points not joined before gives the drawing back. *)
Theorem C26_add_segment K K' d a b i d1 d2 : edits d -> p2s (dec d) !! (a, b) = None -> p2s (dec d) !! (b, a) = None -> add_segment K a b d = (Ok i, d1) -> sane K (dec d1) i ->
  undo K' d1 = (Ok tt, d2) -> stack d2 = stack d /\ same_drawing (dec d) (dec d2).
Proof. intros H. apply edits_einv in H. by apply undo_add_segment. Qed.
(** Undo of a removed segment gives back its id, its end points and its vector, and free points. *)
Theorem C26_rm_segment K K' d g c d1 d2 : edits d -> vec_ok (dec d) -> Editor_Model.rm_segment K g d = (Ok c, d1) -> (exposed (dec d) g -> whole (dec d1)) ->
  undo K' d1 = (Ok tt, d2) -> sane K' (dec d2) g -> stack d2 = stack d /\ same_plan (dec d) (dec d2).
Proof. intros H. apply edits_einv in H. by apply undo_rm_segment. Qed.
(** Undo of a split gives the drawing back but for the vector of the segment. *)
Theorem C26_split K d e mid n d1 d2 : edits d -> loose (dec d) mid -> split_seg e mid d = (Ok n, d1) -> undo K d1 = (Ok tt, d2) ->
  stack d2 = stack d /\ (exists v, vec (dec d2) = <[e := v]> (vec (dec d))) /\ same_drawing (set_vec (vec (dec d2)) (dec d)) (dec d2).
Proof. intros H. apply edits_einv in H. by apply undo_split. Qed.
(** Undo of a join gives the drawing back, if vectors were up to date. *)
Theorem C26_join K d mid e n r d1 d2 : edits d -> vec_ok (dec d) -> goes_on (dec d) mid e n -> join_seg mid e n d = (Ok r, d1) -> undo K d1 = (Ok tt, d2) ->
  stack d2 = stack d /\ same_drawing (dec d) (dec d2).
Proof. intros H. apply edits_einv in H. by apply undo_join. Qed.
(** Undo of a segment that existed before deletes it. *)
Theorem C26_existing_refuted : exists d a b i d1 d2, edits d /\ add_segment plane a b d = (Ok i, d1) /\ undo plane d1 = (Ok tt, d2) /\
  is_Some (vec (dec d) !! i) /\ vec (dec d2) !! i = None.
Proof.
  exists (eafter 1 frame), 1, 0, 0, (snd (add_segment plane 1 0 (eafter 1 frame))), (snd (undo plane (snd (add_segment plane 1 0 (eafter 1 frame))))).
  split; [apply efine_edits; vm_compute; reflexivity|]. split; [apply split_pair; vm_compute; reflexivity|]. split; [apply split_pair; vm_compute; reflexivity|].
  split; [|vm_compute; reflexivity]. apply (ex_intro (fun y => _ = Some y) ((10, 0)%Q : vect)). vm_compute. reflexivity.
Qed.
(** The vector of the segment is not given back by undo of a split. *)
Theorem C26_split_refuted : exists d e mid n d1 d2, edits d /\ split_seg e mid d = (Ok n, d1) /\ undo plane d1 = (Ok tt, d2) /\ vec (dec d2) !! e <> vec (dec d) !! e.
Proof.
  exists (eafter 1 frame), 0, 4, 4, (snd (split_seg 0 4 (eafter 1 frame))), (snd (undo plane (snd (split_seg 0 4 (eafter 1 frame))))).
  split; [apply efine_edits; vm_compute; reflexivity|]. split; [apply split_pair; vm_compute; reflexivity|]. split; [apply split_pair; vm_compute; reflexivity|].
  apply (two_vecs _ _ 0 (4, 0)%Q (10, 0)%Q); [vm_compute; reflexivity|vm_compute; reflexivity|discriminate].
Qed.
Lemma merge_case d g a b : edits d -> let d1 := snd (merge_points plane (fun _ _ _ => true) 0 1 d) in let d2 := snd (undo plane d1) in let d3 := snd (undo plane d2) in let d4 := snd (undo plane d3) in
  fst (merge_points plane (fun _ _ _ => true) 0 1 d) = Ok 0 -> fst (undo plane d1) = Ok tt -> fst (undo plane d2) = Ok tt -> fst (undo plane d3) = Ok tt -> stack d4 = stack d ->
  vtx (dec d) !! (g, false) = Some a /\ vtx (dec d4) !! (g, false) = Some b -> a <> b ->
  exists d d1 d2 d3 d4, edits d /\ merge_points plane (fun _ _ _ => true) 0 1 d = (Ok 0, d1) /\ undo plane d1 = (Ok tt, d2) /\ undo plane d2 = (Ok tt, d3) /\
  undo plane d3 = (Ok tt, d4) /\ stack d4 = stack d /\ ~ same_plan (dec d) (dec d4).
Proof.
  intros H d1 d2 d3 d4 E1 E2 E3 E4 S [A B] D. exists d, d1, d2, d3, d4. split; [exact H|]. split; [exact (split_pair _ _ E1)|]. split; [exact (split_pair _ _ E2)|].
  split; [exact (split_pair _ _ E3)|]. split; [exact (split_pair _ _ E4)|]. split; [exact S|]. exact (other_vtx _ _ _ _ _ A B D).
Qed.
(** merge_points writes to the end points that undo needs: the segment comes back between other points. *)
Theorem C26_merge_refuted : exists d d1 d2 d3 d4, edits d /\ merge_points plane (fun _ _ _ => true) 0 1 d = (Ok 0, d1) /\ undo plane d1 = (Ok tt, d2) /\ undo plane d2 = (Ok tt, d3) /\
  undo plane d3 = (Ok tt, d4) /\ stack d4 = stack d /\ ~ same_plan (dec d) (dec d4).
Proof.
  apply (merge_case (eafter 1 line2) 0 1 0); [apply efine_edits; vm_compute; reflexivity|vm_compute; reflexivity|vm_compute; reflexivity|vm_compute; reflexivity|vm_compute; reflexivity|vm_compute; reflexivity| |done];
    vm_compute; split; reflexivity.
Qed.
Example C26_case : edits (eafter 1 long_run) /\ fst (undo plane (snd (rm_point 5 (eafter 1 long_run)))) = Ok tt /\
  fst (undo plane (snd (add_segment plane 5 2 (eafter 1 long_run)))) = Ok tt /\ fst (undo plane (snd (Editor_Model.rm_segment plane 1 (eafter 1 long_run)))) = Ok tt /\
  fst (undo plane (snd (join_seg 4 0 4 (eafter 1 long_run)))) = Ok tt.
Proof. split; [apply efine_edits; vm_compute; reflexivity|]. repeat split; vm_compute; reflexivity. Qed.
Print Assumptions C26_add_point.
Print Assumptions C26_rm_point.
Print Assumptions C26_add_segment.
Print Assumptions C26_rm_segment.
Print Assumptions C26_split.
Print Assumptions C26_join.
Print Assumptions C26_existing_refuted.
Print Assumptions C26_split_refuted.
Print Assumptions C26_merge_refuted.
