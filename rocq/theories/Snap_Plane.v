(** Tests of the hypotheses about snapping, for examples. *)
From stdpp Require Import gmap list.
From Coq Require Import QArith Lqa.
From Verif Require Import Decomp_Model Decomp_Spec Decomp_Inv Decomp_Good Decomp_Plane.
From Verif Require Import Aabb_Model Aabb_Spec Editor_Model Editor_Spec Editor_Proofs Editor_Plane Editor_Box Snap_Model Snap_Spec Snap_Proofs Snap_Cand.
Local Open Scope nat_scope.

(** Test of [pt_bounded] (aabb_lookup.py line 29). *)
Definition pt_bounded_b (M : Q) (v : vect) : bool := Qle_bool (- M) (fst v) && Qle_bool (fst v) M && Qle_bool (- M) (snd v) && Qle_bool (snd v) M.
Lemma pt_bounded_ok M v : pt_bounded_b M v = true -> pt_bounded M v.
Proof. unfold pt_bounded_b, pt_bounded. rewrite !andb_true_iff, !Qle_bool_iff. tauto. Qed.
(** Test of [bounded] (aabb_lookup.py line 29). *)
Definition bounded_b (M : Q) (b : box) : bool := Qle_bool (- M) (bx0 b) && Qle_bool (bx1 b) M && Qle_bool (- M) (by0 b) && Qle_bool (by1 b) M.
Lemma bounded_ok M b : bounded_b M b = true -> bounded M b.
Proof. unfold bounded_b, bounded. rewrite !andb_true_iff, !Qle_bool_iff. tauto. Qed.
(** Test of [room] (aabb_lookup.py line 29). *)
Definition room_b (d : ed) (M : Q) : bool := negb (Qle_bool M 0) && Qle_bool (4 * M) (inject_Z (10 ^ 50)) &&
  forallb (fun i => pt_bounded_b (M - tolerance d) (snd i)) (map_to_list (xy <$> points (dec d))) &&
  forallb (fun i => match box_of (s_boxes d) (fst i) with Some b => bounded_b M b | None => true end) (map_to_list (vec (dec d))).
Lemma room_ok d M : room_b d M = true -> room d M.
Proof.
  unfold room_b. rewrite !andb_true_iff, not_le, Qle_bool_iff. intros [[[A B] C] D]. split; [split; [done|split; [done|]]|].
  - intros p v H. rewrite forallb_forall in C. apply pt_bounded_ok. exact (C (p, v) (proj1 (elem_of_list_In _ _) (proj2 (elem_of_map_to_list _ _ _) H))).
  - intros g b [v H] E. rewrite forallb_forall in D. specialize (D (g, v) (proj1 (elem_of_list_In _ _) (proj2 (elem_of_map_to_list _ _ _) H))). cbn in D. rewrite E in D. by apply bounded_ok.
Qed.
(** Equal numerators and denominators. *)
Definition same_q (a b : Q) : bool := Z.eqb (Qnum a) (Qnum b) && Pos.eqb (Qden a) (Qden b).
Lemma same_q_ok a b : same_q a b = true -> a = b.
Proof. unfold same_q. rewrite andb_true_iff, Z.eqb_eq, Pos.eqb_eq. destruct a, b. cbn. by intros [-> ->]. Qed.
(** Test of [vec_ok] and [no_zero] (segment.py lines 23-24, polygons.py line 717). *)
Definition sound_b (s : st) : bool := forallb (fun i => match ends_b s (fst i) with
  | Some (x, y) => same_q (fst (snd i)) (fst (vminus y x)) && same_q (snd (snd i)) (snd (vminus y x)) && negb (Qeq_bool (fst x) (fst y) && Qeq_bool (snd x) (snd y))
  | None => false end) (map_to_list (vec s)).
Lemma sound_ok s : inv s -> sound_b s = true -> vec_ok s /\ no_zero s.
Proof.
  intros I H. unfold sound_b in H. rewrite forallb_forall in H.
  assert (A : forall g x y, ends s g x y -> vec s !! g = Some (vminus y x) /\ ~ (fst x == fst y /\ snd x == snd y)%Q).
  { intros g x y E. destruct (seg_live _ _ _ _ I E) as [v L]. specialize (H (g, v) (proj1 (elem_of_list_In _ _) (proj2 (elem_of_map_to_list _ _ _) L))). cbn [fst snd] in H.
    rewrite (ends_b_ok _ _ _ _ E) in H. rewrite !andb_true_iff in H. destruct H as [[A1 A2] A3]. apply same_q_ok in A1, A2. split.
    - rewrite L. f_equal. destruct v. cbn in *. unfold vminus. congruence.
    - intros [Z1 Z2]. apply Qeq_bool_iff in Z1, Z2. by rewrite Z1, Z2 in A3. }
  split.
  - intros g a b x y Va Vb X Y. refine (proj1 (A g x y _)). exists a, b. done.
  - intros g x y E. exact (proj2 (A g x y E)).
Qed.
(** The segments that pass by, and the test that only [g] does (polygons.py lines 381-389). *)
Definition lonely_b (d : ed) (z : vect) (g : nat) : bool := forallb (fun i => match close_to z (fst i) (dec d) with
  | Some c => (fst i =? g) || Qle_bool (tolerance d * tolerance d) (c_d2 c) | None => false end) (map_to_list (vec (dec d))).
Lemma lonely_ok d z g : inv (dec d) -> vec_ok (dec d) -> no_zero (dec d) -> lonely_b d z g = true -> forall g', passes (dec d) z (tolerance d) g' -> g' = g.
Proof.
  intros I V Z H g' (x & y & w & E & W & N). unfold lonely_b in H. rewrite forallb_forall in H. destruct (seg_live _ _ _ _ I E) as [v L].
  specialize (H (g', v) (proj1 (elem_of_list_In _ _) (proj2 (elem_of_map_to_list _ _ _) L))). cbn [fst] in H. destruct (entry_of d z V Z g' x y E) as (c & C & SG & EN).
  rewrite C in H. apply orb_true_iff in H as [H|H]; [by apply Nat.eqb_eq in H|]. apply Qle_bool_iff in H. exfalso.
  destruct EN as (x' & y' & E' & [_ NE] & D & _). rewrite SG in E'. destruct (ends_fun _ _ _ _ _ _ E E') as [-> ->]. specialize (NE _ W). unfold near in N. lra.
Qed.
(** Two segments with a small angle (polygons.py lines 625-642). *)
Definition wedge : list act := Call <$> [EAddPoint (0, 0)%Q 0; EAddPoint (100, 0)%Q 0; EAddPoint (100, 1)%Q 0; EAddSegment 0 1; EAddSegment 0 2].
(** Test that points are the tolerance apart (polygons.py lines 371-374). *)
Definition apart_b (d : ed) : bool := let l := map_to_list (xy <$> points (dec d)) in
  forallb (fun i => forallb (fun j => (fst i =? fst j) || Qle_bool (tolerance d * tolerance d) (dist2 (snd i) (snd j))) l) l.
Lemma apart_ok d : apart_b d = true -> forall q q' w w', is_at (dec d) q w -> is_at (dec d) q' w' -> q <> q' -> ~ near w w' (tolerance d).
Proof.
  intros H q q' w w' Q Q' D N. unfold apart_b in H. rewrite forallb_forall in H. specialize (H (q, w) (proj1 (elem_of_list_In _ _) (proj2 (elem_of_map_to_list _ _ _) Q))).
  rewrite forallb_forall in H. specialize (H (q', w') (proj1 (elem_of_list_In _ _) (proj2 (elem_of_map_to_list _ _ _) Q'))). cbn [fst snd] in H.
  apply orb_true_iff in H as [H|H]; [by apply Nat.eqb_eq in H|]. apply Qle_bool_iff in H. unfold near in N. lra.
Qed.
(** Test that only the end points of segments are near to them (polygons.py lines 381-389). *)
Definition clear_b (d : ed) : bool := forallb (fun j => forallb (fun i => match close_to (snd j) (fst i) (dec d) with
  | Some c => bool_decide (vtx (dec d) !! (fst i, false) = Some (fst j)) || bool_decide (vtx (dec d) !! (fst i, true) = Some (fst j)) || Qle_bool (tolerance d * tolerance d) (c_d2 c) | None => false end)
  (map_to_list (vec (dec d)))) (map_to_list (xy <$> points (dec d))).
Lemma clear_ok d : inv (dec d) -> vec_ok (dec d) -> no_zero (dec d) -> clear_b d = true -> forall q w g, is_at (dec d) q w -> passes (dec d) w (tolerance d) g -> exists c, vtx (dec d) !! (g, c) = Some q.
Proof.
  intros I V Z H q z g Q (x & y & w & E & W & N). unfold clear_b in H. rewrite forallb_forall in H. specialize (H (q, z) (proj1 (elem_of_list_In _ _) (proj2 (elem_of_map_to_list _ _ _) Q))).
  rewrite forallb_forall in H. destruct (seg_live _ _ _ _ I E) as [v L]. specialize (H (g, v) (proj1 (elem_of_list_In _ _) (proj2 (elem_of_map_to_list _ _ _) L))). cbn [fst snd] in H.
  destruct (entry_of d z V Z g x y E) as (c & C & SG & EN). rewrite C in H. rewrite !orb_true_iff, !bool_decide_eq_true in H. destruct H as [[H|H]|H]; [by exists false|by exists true|]. exfalso. apply Qle_bool_iff in H.
  destruct EN as (x' & y' & E' & [_ NE] & D & _). rewrite SG in E'. destruct (ends_fun _ _ _ _ _ _ E E') as [-> ->]. specialize (NE _ W). unfold near in N. lra.
Qed.
Lemma near_sym a b r : near a b r -> near b a r.
Proof. unfold near, dist2. lra. Qed.
(** A square (polygons.py lines 625-642). *)
Definition four : list act := Call <$> [EAddPoint (0, 0)%Q 0; EAddPoint (10, 0)%Q 0; EAddPoint (10, 10)%Q 0; EAddPoint (0, 10)%Q 0; EAddSegment 0 1; EAddSegment 1 2; EAddSegment 2 3; EAddSegment 3 0].
