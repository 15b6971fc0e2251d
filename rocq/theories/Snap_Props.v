(** Properties C76-C80. *)
From stdpp Require Import gmap list.
From Coq Require Import QArith Lqa.
From Verif Require Import Decomp_Model Decomp_Spec Decomp_Inv Decomp_Good Decomp_Plane.
From Verif Require Import Aabb_Model Aabb_Spec Editor_Model Editor_Spec Editor_Proofs Editor_Plane.
From Verif Require Import Snap_Model Snap_Spec Snap_Proofs Snap_Cand Snap_Main Snap_Add Snap_Split Snap_Plane.
Local Open Scope nat_scope.

Lemma no_keys {A} (m : gmap nat A) : map_to_list m = [] -> forall k, m !! k = None.
Proof. intros H k. apply map_to_list_empty_iff in H as ->. apply lookup_empty. Qed.

(** * C76: points *)
(** With a positive tolerance and some point, snapping answers a point exactly if one is within the tolerance, and then one that is; nothing changes. *)
Theorem C76_point K inside root d z M p0 v0 : edits d -> (0 < tolerance d)%Q -> room_points d M -> pt_bounded M z -> is_at (dec d) p0 v0 ->
  ((exists p v, is_at (dec d) p v /\ near z v (tolerance d)) <-> exists p d', snap_point K inside root z d = (Ok (SPoint p), d')) /\
  (forall p d', snap_point K inside root z d = (Ok (SPoint p), d') -> d' = d /\ exists v, is_at (dec d) p v /\ near z v (tolerance d)).
Proof.
  intros ED P R B A0. destruct (snap_first K inside root d z M (edits_einv _ ED) P R B p0 v0 A0) as [(p & v & S & A & N)|(S & NP)].
  - split; [split; intros; [eauto|eauto]|]. intros p' d' S'. rewrite S in S'. injection S' as <- <-. eauto.
  - assert (X : forall p d', snap_point K inside root z d <> (Ok (SPoint p), d')).
    { intros p d'. rewrite S. apply snap_segment_no_point. }
    split; [split|]; [intros (p & v & A & N); exfalso; by eapply NP|intros (p & d' & Y); exfalso; by eapply X|intros p d' Y; exfalso; by eapply X].
Qed.
(** It is not always the nearest point. *)
Theorem C76_nearest_refuted : exists d z p q v w d', edits d /\ snap_point plane (fun _ _ _ => true) (fun q => q) z d = (Ok (SPoint p), d') /\
  is_at (dec d) p v /\ is_at (dec d) q w /\ (dist2 z w < dist2 z v)%Q.
Proof.
  exists (eafter 1 (Call <$> [EAddPoint (0, 0)%Q 0; EAddPoint ((3 # 2), 0)%Q 0])), ((4 # 5), 0)%Q, 0, 1, (0, 0)%Q, ((3 # 2), 0)%Q.
  eexists. split; [apply efine_edits; vm_compute; reflexivity|]. split; [apply split_pair; vm_compute; reflexivity|]. split; [vm_compute; reflexivity|]. split; [vm_compute; reflexivity|]. vm_compute. reflexivity.
Qed.
(** When the only point or the only segment is gone, snapping fails at other places. *)
Theorem C76_dead_refuted : exists d z d', edits d /\ (forall p, points (dec d) !! p = None) /\ snap_point plane (fun _ _ _ => true) (fun q => q) z d = (Raise, d').
Proof.
  exists (eafter 1 (Call <$> [EAddPoint (0, 0)%Q 0; ERmPoint 0])), (5, 5)%Q. eexists. split; [apply efine_edits; vm_compute; reflexivity|]. split; [|apply split_pair; vm_compute; reflexivity].
  apply no_keys. vm_compute. reflexivity.
Qed.
Theorem C76_segment_gone_refuted : exists d z d', edits d /\ is_Some (points (dec d) !! 0) /\ (forall g, vec (dec d) !! g = None) /\ snap_point plane (fun _ _ _ => true) (fun q => q) z d = (Raise, d').
Proof.
  exists (eafter 1 (Call <$> [EAddPoint (0, 0)%Q 0; EAddPoint (10, 0)%Q 0; EAddSegment 0 1; ERmSegment 0])), (5, 5)%Q. eexists.
  split; [apply efine_edits; vm_compute; reflexivity|]. split; [eexists; vm_compute; reflexivity|]. split; [apply no_keys; vm_compute; reflexivity|]. apply split_pair; vm_compute; reflexivity.
Qed.
Example C76_case : edits (eafter 1 frame) /\ room (eafter 1 frame) 20 /\ fst (snap_point plane (fun _ _ _ => true) (fun q => q) (4, (1 # 2))%Q (eafter 1 frame)) = Ok (SPoint 4).
Proof. split; [apply efine_edits; vm_compute; reflexivity|]. split; [apply room_ok; vm_compute; reflexivity|]. vm_compute. reflexivity. Qed.

(** * C77: segments and polygons *)
(** Away from points, if exactly one segment is within the tolerance, snapping answers it with the parameter of its nearest place. *)
Theorem C77_one K inside root d z M g p0 v0 : edits d -> (0 < tolerance d)%Q -> room d M -> pt_bounded M z -> vec_ok (dec d) -> no_zero (dec d) -> is_at (dec d) p0 v0 ->
  (forall p v, is_at (dec d) p v -> ~ near z v (tolerance d)) -> passes (dec d) z (tolerance d) g -> (forall g', passes (dec d) z (tolerance d) g' -> g' = g) ->
  exists t x y, snap_point K inside root z d = (Ok (SSegment g t), d) /\ ends (dec d) g x y /\ nearest_on x y z t /\ near z (along x y t) (tolerance d).
Proof.
  intros ED P R B V Z A0 NP G U. assert (I := edits_einv _ ED). destruct (snap_first K inside root d z M I P (proj1 R) B p0 v0 A0) as [(p & v & _ & A & N)|(S & _)]; [exfalso; by eapply NP|].
  destruct (snap_one K inside root d z M I P B R V Z g G U) as (t & x & y & S1 & E & N & NA & _). exists t, x, y. rewrite S. done.
Qed.
(** If there are several, the answer, if there is one, is a segment with none nearer. *)
Theorem C77_several K inside root d z M g g' r d' p0 v0 : edits d -> (0 < tolerance d)%Q -> room d M -> pt_bounded M z -> vec_ok (dec d) -> no_zero (dec d) -> is_at (dec d) p0 v0 ->
  (forall p v, is_at (dec d) p v -> ~ near z v (tolerance d)) -> passes (dec d) z (tolerance d) g -> passes (dec d) z (tolerance d) g' -> g <> g' ->
  snap_point K inside root z d = (Ok r, d') -> d' = d /\ exists h t, r = SSegment h t /\ nearest_seg (dec d) z h /\ passes (dec d) z (tolerance d) h.
Proof.
  intros ED P R B V Z A0 NP G G' N H. assert (I := edits_einv _ ED). destruct (snap_first K inside root d z M I P (proj1 R) B p0 v0 A0) as [(p & v & _ & A & NV)|(S & _)]; [exfalso; by eapply NP|].
  rewrite S in H. exact (snap_several K inside root d z M I P B R V Z g g' r d' G G' N H).
Qed.
(** If there is none, the answer, if there is one, is a polygon: the one at the nearest segment, on the side of the place; at one of its ends, a polygon around that end. *)
Theorem C77_polygon K inside root d z M r d' p0 v0 g0 x0 y0 : edits d -> (0 < tolerance d)%Q -> room d M -> pt_bounded M z -> vec_ok (dec d) -> no_zero (dec d) ->
  is_at (dec d) p0 v0 -> ends (dec d) g0 x0 y0 -> (forall p v, is_at (dec d) p v -> ~ near z v (tolerance d)) -> (forall g, ~ passes (dec d) z (tolerance d) g) ->
  snap_point K inside root z d = (Ok r, d') -> d' = d /\ exists q g t x y, r = SPolygon q /\ is_Some (polys (dec d) !! q) /\
    nearest_seg (dec d) z g /\ ends (dec d) g x y /\ nearest_on x y z t /\
    (t == 0 -> exists h, vtx (dec d) !! h = vtx (dec d) !! (g, false) /\ poly_at (dec d) h = Some q)%Q /\
    (t == 1 -> exists h, vtx (dec d) !! h = vtx (dec d) !! (g, true) /\ poly_at (dec d) h = Some q)%Q /\
    ((0 < t < 1)%Q -> (0 < (fst y - fst x) * (snd z - snd x) - (snd y - snd x) * (fst z - fst x) -> poly_at (dec d) (g, true) = Some q)%Q /\
                      ((fst y - fst x) * (snd z - snd x) - (snd y - snd x) * (fst z - fst x) < 0 -> poly_at (dec d) (g, false) = Some q)%Q /\
                      ~ ((fst y - fst x) * (snd z - snd x) - (snd y - snd x) * (fst z - fst x) == 0)%Q).
Proof.
  intros ED P R B V Z A0 E0 NP NG H. assert (I := edits_einv _ ED). destruct (snap_first K inside root d z M I P (proj1 R) B p0 v0 A0) as [(p & v & _ & A & NV)|(S & _)]; [exfalso; by eapply NP|].
  destruct (snap_none K inside root d z M I P B R V Z g0 x0 y0 E0 NG) as (c & (x & y & E & N & _) & NS & S2). rewrite S, S2 in H. unfold on_dec in H.
  destruct (snap_polygon K inside (Some c) z (dec d)) as [r' s'] eqn:SP. injection H as -> <-. apply snap_polygon_ok in SP as (-> & q & -> & BS & LQ); [|apply I|done|apply N].
  split; [by destruct d|]. exists q, (c_seg c), (c_t c), x, y. split; [done|]. split; [done|]. split; [done|]. split; [done|]. split; [done|]. exact (BS x y E).
Qed.
Example C77_case : edits (eafter 1 frame) /\ room (eafter 1 frame) 20 /\ sound_b (dec (eafter 1 frame)) = true /\ lonely_b (eafter 1 frame) (7, (1 # 2))%Q 0 = true /\
  fst (snap_point plane (fun _ _ _ => true) (fun q => q) (7, (1 # 2))%Q (eafter 1 frame)) = Ok (SSegment 0 (140 # 200)) /\
  fst (snap_point plane (fun _ _ _ => true) (fun q => q) (7, 3)%Q (eafter 1 frame)) = Ok (SPolygon 1).
Proof. split; [apply efine_edits; vm_compute; reflexivity|]. split; [apply room_ok; vm_compute; reflexivity|]. split; [vm_compute; reflexivity|]. split; [vm_compute; reflexivity|]. split; vm_compute; reflexivity. Qed.

(** * C78: adding a point *)
(** add_point answers a point less than the root of 2 times the tolerance away; the points before stay where they are and at most this one is new. *)
Theorem C78_near K inside root d z M p d' p0 v0 g0 x0 y0 : edits d -> (0 < tolerance d)%Q -> room d M -> pt_bounded (M - tolerance d) z -> vec_ok (dec d) -> no_zero (dec d) ->
  is_at (dec d) p0 v0 -> ends (dec d) g0 x0 y0 -> (forall g g', passes (dec d) z (tolerance d) g -> passes (dec d) z (tolerance d) g' -> g = g') ->
  add_point_impl K inside root z d = (Ok p, d') ->
  edits d' /\ (forall q w, is_at (dec d) q w -> is_at (dec d') q w) /\ (forall q w, is_at (dec d') q w -> q = p \/ is_at (dec d) q w) /\
  exists v, is_at (dec d') p v /\ (dist2 z v < 2 * (tolerance d * tolerance d))%Q.
Proof.
  intros ED P R B V Z A0 E0 U H. destruct (add_cases K inside root d z M ED P R B V Z p d' p0 v0 g0 x0 y0 A0 E0 U H) as [(-> & v & A & D)|(ED' & v & (T & N & X) & NV & _)].
  - split; [done|]. split; [done|]. split; [by right|]. eauto.
  - split; [done|]. unfold is_at. unfold vect in *. rewrite X. split; [|split].
    + intros q w Q. rewrite lookup_insert_ne; [done|]. intros ->. congruence.
    + intros q w Q. destruct (decide (q = p)) as [-> |D]; [by left|]. right. by rewrite lookup_insert_ne in Q.
    + exists v. rewrite lookup_insert. split; [done|]. unfold near in NV. assert (Y := sqr_nonneg (tolerance d)). lra.
Qed.
(** Away from points and close to one segment, it answers an end of this segment or splits it at a new point, at least the tolerance away from both ends. *)
Theorem C78_split K inside root d z M g p d' p0 v0 : edits d -> (0 < tolerance d)%Q -> room d M -> pt_bounded M z -> vec_ok (dec d) -> no_zero (dec d) -> is_at (dec d) p0 v0 ->
  (forall q w, is_at (dec d) q w -> ~ near z w (tolerance d)) -> passes (dec d) z (tolerance d) g -> (forall g', passes (dec d) z (tolerance d) g' -> g' = g) ->
  add_point_impl K inside root z d = (Ok p, d') ->
  exists a b x y, vtx (dec d) !! (g, false) = Some a /\ vtx (dec d) !! (g, true) = Some b /\ is_at (dec d) a x /\ is_at (dec d) b y /\
  ((d' = d /\ (p = a \/ p = b)) \/
   (exists n v, vec (dec d) !! n = None /\ n <> g /\ vtx (dec d') !! (g, false) = Some a /\ vtx (dec d') !! (g, true) = Some p /\ vtx (dec d') !! (n, false) = Some p /\
     vtx (dec d') !! (n, true) = Some b /\ (forall h, fst h <> g -> fst h <> n -> vtx (dec d') !! h = vtx (dec d) !! h) /\
     is_at (dec d') p v /\ between x y v /\ (tolerance d * tolerance d <= dist2 v x)%Q /\ (tolerance d * tolerance d <= dist2 v y)%Q)).
Proof. intros ED P R B V Z A0 NP G U H. exact (add_on_segment K inside root d z M ED P R B V Z g p d' p0 v0 A0 NP G U H). Qed.
(** With two segments close to the place the point can be far: here 80 tolerances. *)
Theorem C78_two_refuted : exists d z p v root d', edits d /\ tolerance d = 1%Q /\ (root 10000 == 100)%Q /\ room d 200 /\ vec_ok (dec d) /\ no_zero (dec d) /\
  add_point_impl plane (fun _ _ _ => true) root z d = (Ok p, d') /\ is_at (dec d') p v /\ (dist2 z v > 80 * 80)%Q.
Proof.
  exists (eafter 1 wedge), (20, (3 # 20))%Q, 2, (100, 1)%Q, (fun _ => 100%Q). eexists. assert (ED : edits (eafter 1 wedge)) by (apply efine_edits; vm_compute; reflexivity).
  destruct (sound_ok (dec (eafter 1 wedge)) (g_inv _ (e_good _ (edits_einv _ ED)))) as [V Z]; [vm_compute; reflexivity|].
  split; [exact ED|]. split; [vm_compute; reflexivity|]. split; [reflexivity|]. split; [apply room_ok; vm_compute; reflexivity|]. split; [exact V|]. split; [exact Z|].
  split; [apply split_pair; vm_compute; reflexivity|]. split; vm_compute; reflexivity.
Qed.
Example C78_case : edits (eafter 1 frame) /\ room (eafter 1 frame) 20 /\ sound_b (dec (eafter 1 frame)) = true /\ lonely_b (eafter 1 frame) (7, (1 # 2))%Q 0 = true /\
  fst (add_point_impl plane (fun _ _ _ => true) (fun q => q) (7, (1 # 2))%Q (eafter 1 frame)) = Ok 5.
Proof. split; [apply efine_edits; vm_compute; reflexivity|]. split; [apply room_ok; vm_compute; reflexivity|]. split; [vm_compute; reflexivity|]. split; vm_compute; reflexivity. Qed.

(** * C79: adding a point twice *)
(** A second call of add_point for the same place answers the same point and changes nothing. *)
Theorem C79_again K inside root d z M p d' p0 v0 g0 x0 y0 : edits d -> (0 < tolerance d)%Q -> room d M -> pt_bounded (M - tolerance d) z -> vec_ok (dec d) -> no_zero (dec d) ->
  is_at (dec d) p0 v0 -> ends (dec d) g0 x0 y0 -> (forall g g', passes (dec d) z (tolerance d) g -> passes (dec d) z (tolerance d) g' -> g = g') ->
  add_point_impl K inside root z d = (Ok p, d') -> add_point_impl K inside root z d' = (Ok p, d').
Proof. intros ED P R B V Z A0 E0 U H. exact (add_again K inside root d z M ED P R B V Z p d' p0 v0 g0 x0 y0 A0 E0 U H). Qed.
Example C79_case : edits (eafter 1 frame) /\ lonely_b (eafter 1 frame) (7, (1 # 2))%Q 0 = true /\
  (let r := add_point_impl plane (fun _ _ _ => true) (fun q => q) (7, (1 # 2))%Q (eafter 1 frame) in fst r = Ok 5 /\ length (stack (snd r)) = 11 /\
   let r' := add_point_impl plane (fun _ _ _ => true) (fun q => q) (7, (1 # 2))%Q (snd r) in fst r' = Ok 5 /\ length (stack (snd r')) = 11).
Proof. split; [apply efine_edits; vm_compute; reflexivity|]. split; [vm_compute; reflexivity|]. vm_compute. repeat split. Qed.

(** * C80: points stay apart *)
(** If points are the tolerance apart, and from segments they do not end, so are the points after add_point. *)
Theorem C80_apart K inside root d z M p d' p0 v0 g0 x0 y0 : edits d -> (0 < tolerance d)%Q -> room d M -> pt_bounded (M - tolerance d) z -> vec_ok (dec d) -> no_zero (dec d) ->
  is_at (dec d) p0 v0 -> ends (dec d) g0 x0 y0 -> (forall g g', passes (dec d) z (tolerance d) g -> passes (dec d) z (tolerance d) g' -> g = g') ->
  (forall q q' w w', is_at (dec d) q w -> is_at (dec d) q' w' -> q <> q' -> ~ near w w' (tolerance d)) ->
  (forall q w g, is_at (dec d) q w -> passes (dec d) w (tolerance d) g -> exists c, vtx (dec d) !! (g, c) = Some q) ->
  add_point_impl K inside root z d = (Ok p, d') ->
  forall q q' w w', is_at (dec d') q w -> is_at (dec d') q' w' -> q <> q' -> ~ near w w' (tolerance d').
Proof.
  intros ED P R B V Z A0 E0 U AP PS H. destruct (add_cases K inside root d z M ED P R B V Z p d' p0 v0 g0 x0 y0 A0 E0 U H) as [(-> & _)|(ED' & v & (T & N & X) & NV & _ & NN & VZ)]; [done|].
  assert (NEW : forall q w, is_at (dec d) q w -> ~ near w v (tolerance d)).
  { intros q w Q NW. destruct VZ as [-> |(g & G)]; [apply (NN q w Q); by apply near_sym|].
    destruct (add_on_segment K inside root d z M ED P R (bounded_z d z M P B) V Z g p d' p0 v0 A0 NN G (fun g' G' => U g' g G' G) H) as (a & b & x & y & VA & VB & AX & AY & [[-> _]|(n & v' & _ & _ & _ & _ & _ & _ & _ & AV & BV & D1 & D2)]).
    - unfold vect in *. rewrite X in N. by rewrite lookup_insert in N.
    - assert (v' = v) as ->. { unfold is_at in AV. unfold vect in *. rewrite X, lookup_insert in AV. congruence. }
      destruct (PS q w g Q) as [c C]. { exists x, y, v. split; [by exists a, b|done]. }
      apply near_sym in NW. unfold near in NW. destruct c; [assert (q = b) as -> by congruence; assert (w = y) as -> by (unfold is_at in *; congruence)|assert (q = a) as -> by congruence; assert (w = x) as -> by (unfold is_at in *; congruence)]; lra. }
  rewrite T. assert (OLD : forall q w, is_at (dec d') q w -> (q = p /\ w = v) \/ is_at (dec d) q w).
  { intros q w Q. unfold is_at in *. unfold vect in *. rewrite X in Q. destruct (decide (q = p)) as [-> |D]; [left; rewrite lookup_insert in Q; split; [done|congruence]|]. right. by rewrite lookup_insert_ne in Q. }
  intros q q' w w' Q Q' D NW. destruct (OLD _ _ Q) as [[-> ->]|Q1]; destruct (OLD _ _ Q') as [[-> ->]|Q2]; [done| |by apply (NEW _ _ Q1)|by apply (AP q q' w w')].
  apply (NEW _ _ Q2). by apply near_sym.
Qed.
(** A point near a segment that it does not end can get a new point near. *)
Theorem C80_apart_refuted : exists d z p d' q v w, edits d /\ (forall q q' w w', is_at (dec d) q w -> is_at (dec d) q' w' -> q <> q' -> ~ near w w' (tolerance d)) /\
  add_point_impl plane (fun _ _ _ => true) (fun q => q) z d = (Ok p, d') /\ p <> q /\ is_at (dec d') p v /\ is_at (dec d') q w /\ near v w (tolerance d').
Proof.
  exists (eafter 1 (Call <$> [EAddPoint (0, 0)%Q 0; EAddPoint (10, 0)%Q 0; EAddPoint (5, (9 # 10))%Q 0; EAddSegment 0 1])), (5, (- 9 # 10))%Q, 3. eexists. exists 2. eexists _, _.
  split; [apply efine_edits; vm_compute; reflexivity|]. split; [apply apart_ok; vm_compute; reflexivity|]. split; [apply split_pair; vm_compute; reflexivity|].
  split; [done|]. split; [vm_compute; reflexivity|]. split; [vm_compute; reflexivity|]. vm_compute. reflexivity.
Qed.
Example C80_case : edits (eafter 1 four) /\ room (eafter 1 four) 20 /\ sound_b (dec (eafter 1 four)) = true /\ lonely_b (eafter 1 four) (7, (1 # 2))%Q 0 = true /\
  apart_b (eafter 1 four) = true /\ clear_b (eafter 1 four) = true /\
  fst (add_point_impl plane (fun _ _ _ => true) (fun q => q) (7, (1 # 2))%Q (eafter 1 four)) = Ok 4.
Proof. split; [apply efine_edits; vm_compute; reflexivity|]. split; [apply room_ok; vm_compute; reflexivity|]. do 4 (split; [vm_compute; reflexivity|]). vm_compute. reflexivity. Qed.
Print Assumptions C76_point.
Print Assumptions C76_nearest_refuted.
Print Assumptions C76_dead_refuted.
Print Assumptions C76_segment_gone_refuted.
Print Assumptions C77_one.
Print Assumptions C77_several.
Print Assumptions C77_polygon.
Print Assumptions C78_near.
Print Assumptions C78_split.
Print Assumptions C78_two_refuted.
Print Assumptions C79_again.
Print Assumptions C80_apart.
Print Assumptions C80_apart_refuted.
