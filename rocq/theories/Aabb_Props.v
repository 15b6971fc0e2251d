(** Properties C09-C12 (lookup of axis aligned boxes). *)
From Coq Require Import List QArith Reals Qreals Bool Arith Lia Lqa Sorting.Sorted.
From Verif Require Import Aabb_Model Aabb_Spec Aabb_Proofs Aabb_Sqrt.
Import ListNotations.
Open Scope Q_scope.

(** History used in the examples: growth of a table of 2 rows, replacement of a
    box, removal, re-use of an id. *)
Definition sample_ops : list lop :=
  [LAdd 0 (Box 0 0 1 1); LAdd 5 (Box 2 2 3 4); LAdd 1 (Box (-3) 0 (-1) 1); LRm 0; LRm 7;
   LAdd 5 (Box 2 2 3 3); LAdd 2 (Box 0 5 1 6); LRm 2; LAdd 2 (Box 1 1 2 2)].
Definition sentinel : Q := inject_Z (10 ^ 50).

Lemma sample_boxes : forall id b, live_box sample_ops id = Some b ->
  proper b /\ fat b /\ bounded 6 b.
Proof.
  intros id b H. unfold live_box, sample_ops in H. cbn [live] in H.
  repeat match type of H with context [Nat.eqb id ?k] =>
    destruct (Nat.eqb id k); simpl in H; [try discriminate H|] end; try discriminate H;
  inversion H; subst; unfold proper, fat, bounded; simpl; repeat split; try lra; left; lra.
Qed.

(** C09 *)
Theorem C09_histories_never_diverge : forall inf n ops, (0 < n)%nat ->
  exists l, l_run (lookup_init inf n) ops = Some l.
Proof. exact never_diverges_l. Qed.
Print Assumptions C09_histories_never_diverge.

Theorem C09_intersect_candidates_exact : forall inf n ops q l,
  (0 < n)%nat -> l_run (lookup_init inf n) ops = Some l ->
  proper q -> bx1 q < inf -> (forall id b, live_box ops id = Some b -> proper b) ->
  StronglySorted lt (intersect_candidates l q) /\
  forall id, In id (intersect_candidates l q) <->
     exists b, live_box ops id = Some b /\ boxes_meet b q.
Proof. exact intersect_exact_l. Qed.
Print Assumptions C09_intersect_candidates_exact.

Example C09_case :
  exists l, l_run (lookup_init sentinel 2) sample_ops = Some l /\
    length (l_rows l) = 8%nat /\
    intersect_candidates l (Box (-1) 1 1 1) = [1; 2]%nat /\
    intersect_candidates l (Box (-100) (-100) 100 100) = [1; 2; 5]%nat /\
    proper (Box (-1) 1 1 1) /\ (1 < sentinel) /\
    (forall id b, live_box sample_ops id = Some b -> proper b).
Proof.
  eexists. split; [vm_compute; reflexivity|]. split; [reflexivity|].
  split; [vm_compute; reflexivity|]. split; [vm_compute; reflexivity|].
  split; [unfold proper; simpl; lra|]. split; [reflexivity|].
  intros id b H. now destruct (sample_boxes id b H).
Qed.

(** An empty table never grows (init_size = 0 makes add_object loop forever). *)
Theorem C09_zero_size_refuted : forall inf id fuel, grow fuel inf [] id = None.
Proof. intros inf id fuel. induction fuel; simpl; [reflexivity|assumption]. Qed.
Print Assumptions C09_zero_size_refuted.

(** C10. The query is total, contains every box around the point, and contains
    an object at least as near as any other. *)
Theorem C10_closest_never_missed : forall inf n ops l M p j0 b0,
  (0 < n)%nat -> l_run (lookup_init inf n) ops = Some l ->
  0 < M -> 4 * M <= inf -> pt_bounded M p ->
  (forall id b, live_box ops id = Some b -> proper b /\ fat b /\ bounded M b) ->
  live_box ops j0 = Some b0 ->
  exists r, closest_candidates l p = Some r /\
    (forall id, In id r -> exists b, live_box ops id = Some b) /\
    (forall id b, live_box ops id = Some b -> in_box p b -> In id r) /\
    (forall o : nat -> pt, (forall id b, live_box ops id = Some b -> in_box (o id) b) ->
       forall j b, live_box ops j = Some b ->
         exists i, In i r /\ dist2 p (o i) <= dist2 p (o j)).
Proof. exact closest_l. Qed.
Print Assumptions C10_closest_never_missed.

Theorem C10_sqrt_test_faithful : forall a b : Q,
  lt_sqrt2 a b = true <-> (Q2R a < sqrt 2 * Q2R b)%R.
Proof. exact lt_sqrt2_real_l. Qed.
Print Assumptions C10_sqrt_test_faithful.

Example C10_case :
  exists l, l_run (lookup_init sentinel 2) sample_ops = Some l /\
    closest_candidates l (0, 0) = Some [1; 2; 5]%nat /\
    closest_candidates l (5 # 2, 5 # 2) = Some [2; 5]%nat /\
    closest_candidates l (-2, 1 # 2) = Some [1]%nat /\
    (4 * 6 <= sentinel) /\ pt_bounded 6 (0, 0) /\
    live_box sample_ops 5 = Some (Box 2 2 3 3) /\
    (forall id b, live_box sample_ops id = Some b -> proper b /\ fat b /\ bounded 6 b).
Proof.
  eexists. split; [vm_compute; reflexivity|]. split; [vm_compute; reflexivity|].
  do 2 (split; [vm_compute; reflexivity|]). split; [discriminate|].
  split; [unfold pt_bounded; simpl; lra|]. split; [reflexivity|]. exact sample_boxes.
Qed.

(** A point object stored with a zero-size box is missed when the query point is
    the object itself. *)
Theorem C10_degenerate_box_refuted : exists ops l p b,
  l_run (lookup_init sentinel 128) ops = Some l /\
  live_box ops 0 = Some b /\ proper b /\ in_box p b /\ closest_candidates l p = Some [].
Proof.
  exists [LAdd 0 (Box 1 1 1 1)]. eexists. exists (1, 1), (Box 1 1 1 1).
  split; [vm_compute; reflexivity|]. split; [reflexivity|].
  split; [unfold proper; simpl; lra|]. split; [unfold in_box; simpl; lra|].
  vm_compute. reflexivity.
Qed.
Print Assumptions C10_degenerate_box_refuted.

(** C11. Full statement: closest_candidates returns live ids only; it is false
    when all objects have been removed. *)
Theorem C11_only_live_ids_refuted : exists ops l p r,
  l_run (lookup_init sentinel 4) ops = Some l /\
  closest_candidates l p = Some r /\
  (exists id, In id r /\ live_box ops id = None /\ In (LRm id) ops) /\
  (exists id, In id r /\ live_box ops id = None /\ (forall b, ~ In (LAdd id b) ops)).
Proof.
  exists [LAdd 0 (Box 0 0 1 1); LRm 0]. eexists. exists (0, 0). eexists.
  split; [vm_compute; reflexivity|]. split; [vm_compute; reflexivity|].
  split.
  - exists 0%nat. split; [now left|]. split; [reflexivity|]. right; now left.
  - exists 1%nat. split; [right; now left|]. split; [reflexivity|].
    intros b [H|[H|[]]]; discriminate.
Qed.
Print Assumptions C11_only_live_ids_refuted.

(** The part that holds: some object is live, boxes are not degenerate and stay
    below the sentinel. *)
Theorem C11_only_live_ids_partial : forall inf n ops l M p j0 b0 r,
  (0 < n)%nat -> l_run (lookup_init inf n) ops = Some l ->
  0 < M -> 4 * M <= inf -> pt_bounded M p ->
  (forall id b, live_box ops id = Some b -> proper b /\ fat b /\ bounded M b) ->
  live_box ops j0 = Some b0 -> closest_candidates l p = Some r ->
  forall id, In id r -> exists b, live_box ops id = Some b.
Proof.
  intros inf n ops l M p j0 b0 r Hn E HM Hi Hp Hb Hj Er.
  destruct (closest_l inf n ops l M p j0 b0 Hn E HM Hi Hp Hb Hj) as (r' & Er' & H & _).
  rewrite Er in Er'. inversion Er'; subst. exact H.
Qed.
Print Assumptions C11_only_live_ids_partial.
Example C11_case :
  exists l, l_run (lookup_init sentinel 2) sample_ops = Some l /\
    closest_candidates l (0, 0) = Some [1; 2; 5]%nat /\ live_box sample_ops 0 = None.
Proof. eexists. repeat split; vm_compute; reflexivity. Qed.

(** C12 *)
Theorem C12_make_aabb_smallest : forall points margin,
  points <> [] ->
  exists b, make_aabb points margin = Some b /\
    (forall p, In p points -> covers b (eff_margin margin) p) /\
    (forall b', (forall p, In p points -> covers b' (eff_margin margin) p) ->
       bx0 b' <= bx0 b /\ by0 b' <= by0 b /\ bx1 b <= bx1 b' /\ by1 b <= by1 b').
Proof. exact make_aabb_l. Qed.
Print Assumptions C12_make_aabb_smallest.
Example C12_case :
  make_aabb [(1, 2); (-1, 3); (0, 0)] (1 # 2) = Some (Box (-3 # 2) (-1 # 2) (3 # 2) (7 # 2)).
Proof. vm_compute. reflexivity. Qed.
