(** Properties C94-C98. *)
From stdpp Require Import gmap list.
From Coq Require Import QArith Lqa.
From Verif Require Import Decomp_Model Decomp_Spec Decomp_Inv Decomp_Good Decomp_Plane.
From Verif Require Import Aabb_Model Aabb_Spec Editor_Model Editor_Spec Editor_Proofs Editor_Undo Editor_Box Editor_Plane.
From Verif Require Import Geom_Model Snap_Model Snap_Spec Snap_Proofs Snap_Plane Line_Model Line_Spec Line_Geo Line_Cut Line_Run Line_Segs Line_Main Line_Plane Line_Add Line_Test.
Local Open Scope nat_scope.

(** * C94: what is drawn *)
(** Afterwards exactly the places are on segments that were before or are on the line. *)
Theorem C94_drawn K can order n d a b xa xb l d' : (forall l p, In p (order l) -> In p l) -> edits d -> (0 < tolerance d)%Q -> vec_ok (dec d) ->
  is_at (dec d) a xa -> is_at (dec d) b xb -> a <> b -> clean d a b xa xb -> line_for_points K can order n [a; b] a b d = (Ok l, d') ->
  forall w, drawn (dec d') w <-> drawn (dec d) w \/ between xa xb w.
Proof.
  intros OR ED P V A B AB C H. destruct (line_plan K can order OR d a b xa xb ED P V A B AB C n [a; b] ltac:(by left) ltac:(right; by left) l d' H) as (d1 & cs & div & AC & CH & LD & NO & I' & _ & X' & W & L).
  intros w. exact (drawn_after d d1 d' a b xa xb cs div l ED P A B C AC CH LD I' X' W L w).
Qed.

(** * C95: no crossings *)
(** If segments met only in common ends before, they do afterwards. *)
Theorem C95_planar K can order n d a b xa xb l d' : (forall l p, In p (order l) -> In p l) -> edits d -> (0 < tolerance d)%Q -> vec_ok (dec d) -> no_zero (dec d) ->
  is_at (dec d) a xa -> is_at (dec d) b xb -> a <> b -> clean d a b xa xb -> planar (dec d) -> line_for_points K can order n [a; b] a b d = (Ok l, d') -> planar (dec d').
Proof.
  intros OR ED P V Z A B AB C PL H. destruct (line_plan K can order OR d a b xa xb ED P V A B AB C n [a; b] ltac:(by left) ltac:(right; by left) l d' H) as (d1 & cs & div & AC & CH & LD & NO & I' & _ & X' & W & L).
  exact (planar_after d d1 d' a b xa xb cs div l ED P Z A B C AC CH LD NO I' X' W L PL).
Qed.

(** * C96: what is returned, points and segments *)
(** The answer are the pieces of the line, in order from [a] to [b]. *)
Theorem C96_chain K can order n d a b xa xb l d' : (forall l p, In p (order l) -> In p l) -> edits d -> (0 < tolerance d)%Q -> vec_ok (dec d) ->
  is_at (dec d) a xa -> is_at (dec d) b xb -> a <> b -> clean d a b xa xb -> line_for_points K can order n [a; b] a b d = (Ok l, d') -> goes_along (dec d') xa xb a 0 l b.
Proof.
  intros OR ED P V A B AB C H. destruct (line_plan K can order OR d a b xa xb ED P V A B AB C n [a; b] ltac:(by left) ltac:(right; by left) l d' H) as (d1 & cs & div & AC & CH & LD & NO & I' & _ & X' & W & L).
  exact (goes_after d d1 d' a b xa xb cs div l P A B C AC CH LD X' W).
Qed.
(** Points stay; new ones are only where a segment crosses the line, and every crossing has one; there the segment is split and its first part keeps the id; other segments keep their ends. *)
Theorem C96_points K can order n d a b xa xb l d' : (forall l p, In p (order l) -> In p l) -> edits d -> (0 < tolerance d)%Q -> vec_ok (dec d) ->
  is_at (dec d) a xa -> is_at (dec d) b xb -> a <> b -> clean d a b xa xb -> line_for_points K can order n [a; b] a b d = (Ok l, d') ->
  (forall p v, is_at (dec d) p v -> is_at (dec d') p v) /\ (forall p v, is_at (dec d') p v -> is_at (dec d) p v \/ exists g, crosses (dec d) g xa xb v) /\
  (forall g w, crosses (dec d) g xa xb w -> exists p q m n v, vtx (dec d) !! (g, false) = Some p /\ vtx (dec d) !! (g, true) = Some q /\ points (dec d) !! m = None /\ vec (dec d) !! n = None /\
    is_at (dec d') m v /\ same v w /\ vtx (dec d') !! (g, false) = Some p /\ vtx (dec d') !! (g, true) = Some m /\ vtx (dec d') !! (n, false) = Some m /\ vtx (dec d') !! (n, true) = Some q) /\
  (forall g c, is_Some (vec (dec d) !! g) -> (forall w, ~ crosses (dec d) g xa xb w) -> vtx (dec d') !! (g, c) = vtx (dec d) !! (g, c)).
Proof.
  intros OR ED P V A B AB C H. destruct (line_plan K can order OR d a b xa xb ED P V A B AB C n [a; b] ltac:(by left) ltac:(right; by left) l d' H) as (d1 & cs & div & AC & CH & LD & NO & I' & _ & X' & W & L).
  exact (points_after d d1 d' a b xa xb cs P A B C AC CH NO X').
Qed.
(** Every new segment is in the answer or the second part of one that was crossed. *)
Theorem C96_new K can order n d a b xa xb l d' : (forall l p, In p (order l) -> In p l) -> edits d -> (0 < tolerance d)%Q -> vec_ok (dec d) ->
  is_at (dec d) a xa -> is_at (dec d) b xb -> a <> b -> clean d a b xa xb -> line_for_points K can order n [a; b] a b d = (Ok l, d') ->
  forall g, is_Some (vec (dec d') !! g) -> is_Some (vec (dec d) !! g) \/ g ∈ l \/
    exists h p w, crosses (dec d) h xa xb w /\ vtx (dec d') !! (h, true) = Some p /\ vtx (dec d') !! (g, false) = Some p /\ vtx (dec d') !! (g, true) = vtx (dec d) !! (h, true).
Proof.
  intros OR ED P V A B AB C H. destruct (line_plan K can order OR d a b xa xb ED P V A B AB C n [a; b] ltac:(by left) ltac:(right; by left) l d' H) as (d1 & cs & div & AC & CH & LD & NO & I' & _ & X' & W & L).
  exact (new_after d d1 d' a b xa xb cs l P A B C AC CH X' L).
Qed.

(** * C97: a line that is there, and what goes wrong close to points *)
(** If a segment joins the points already, it is the answer, and points and segments are the same. *)
Theorem C97_again K can order n d a b xa xb l d' g : (forall l p, In p (order l) -> In p l) -> edits d -> (0 < tolerance d)%Q -> vec_ok (dec d) ->
  is_at (dec d) a xa -> is_at (dec d) b xb -> a <> b -> clean d a b xa xb -> planar (dec d) -> joins (dec d) g a b -> line_for_points K can order n [a; b] a b d = (Ok l, d') ->
  l = [g] /\ (forall p v, is_at (dec d') p v <-> is_at (dec d) p v) /\ (forall h, is_Some (vec (dec d') !! h) <-> is_Some (vec (dec d) !! h)) /\
  forall h c, is_Some (vec (dec d) !! h) -> vtx (dec d') !! (h, c) = vtx (dec d) !! (h, c).
Proof.
  intros OR ED P V A B AB C PL J H. destruct (line_plan K can order OR d a b xa xb ED P V A B AB C n [a; b] ltac:(by left) ltac:(right; by left) l d' H) as (d1 & cs & div & AC & CH & LD & NO & I' & _ & X' & W & L).
  assert (CN : cs = []) by exact (no_cuts d d1 a b xa xb cs div P A B C AC CH LD NO PL g J). subst cs.
  assert (DN : div = []). { destruct div as [|[t1 m1] dv]; [done|]. exfalso. destruct LD as [_ LI]. by destruct (proj1 (LI t1 m1) (or_introl eq_refl)) as (c & IC & _). }
  subst div. unfold brk in W. cbn [app] in W. apply walk_two in W as (h & l' & El & Jh & WN). cbn in WN. subst l' l. destruct X' as (X1 & X2 & X3). assert (LV : forall k, is_Some (vec (dec d1) !! k) <-> is_Some (vec (dec d) !! k)). { intros k. rewrite (ac_live _ _ _ AC). split; [|by left]. intros [Q|Q]; [done|by apply elem_of_nil in Q]. }
  assert (OT : forall k c, is_Some (vec (dec d) !! k) -> vtx (dec d') !! (k, c) = vtx (dec d) !! (k, c)). { intros k c Q. rewrite X2 by (by apply LV). apply (ac_old _ _ _ AC k Q). apply not_elem_of_nil. }
  assert (Lg : is_Some (vec (dec d) !! g)). { destruct J as [[J1 J2]|[J1 J2]]; [apply (seg_live _ _ xa xb (g_inv _ (e_good _ (edits_einv _ ED)))); by exists a, b|apply (seg_live _ _ xb xa (g_inv _ (e_good _ (edits_einv _ ED)))); by exists b, a]. }
  assert (h = g) as ->. { apply (joins_eq (dec d') h g a b I' Jh). unfold joins. rewrite !OT by done. exact J. }
  split; [done|]. split; [|split; [|exact OT]].
  - intros p v. rewrite X1, (ac_pts _ _ _ AC). split; [|by left]. intros [Q|(c & [] & _)]; done.
  - intros k. split; [|intros Q; apply X3; by apply LV]. intros Q. destruct (L k Q) as [Q1|Q1]; [by apply LV|]. apply elem_of_list_singleton in Q1 as ->. done.
Qed.
(** The line runs over a point that ends no segment; the point is not connected. *)
Theorem C97_free_refuted : exists d a b xa xb p v l d', edits d /\ planar (dec d) /\ is_at (dec d) a xa /\ is_at (dec d) b xb /\ is_at (dec d) p v /\ p <> a /\ p <> b /\ between xa xb v /\
  line_for_points plane (fun _ _ _ => true) (fun l => l) 9 [a; b] a b d = (Ok l, d') /\ (forall g c, vtx (dec d') !! (g, c) <> Some p).
Proof.
  exists (eafter 1 (Call <$> [EAddPoint (0, 0)%Q 0; EAddPoint (10, 0)%Q 0; EAddPoint (5, 0)%Q 0])), 0, 1, (0, 0)%Q, (10, 0)%Q, 2, (5, 0)%Q. eexists [0], _.
  assert (ED : edits (eafter 1 (Call <$> [EAddPoint (0, 0)%Q 0; EAddPoint (10, 0)%Q 0; EAddPoint (5, 0)%Q 0]))) by (apply efine_edits; vm_compute; reflexivity).
  split; [exact ED|]. split; [apply planar_ok; [apply (g_inv _ (e_good _ (edits_einv _ ED)))|vm_compute; reflexivity]|]. split; [vm_compute; reflexivity|]. split; [vm_compute; reflexivity|]. split; [vm_compute; reflexivity|]. split; [done|]. split; [done|].
  split; [apply between_along; exists (1 # 2)%Q; split; [lra|split; vm_compute; reflexivity]|]. split; [apply split_pair; vm_compute; reflexivity|]. intros g c G.
  match type of G with vtx ?s !! _ = _ => assert (T : forallb (fun i => negb (snd i =? 2)) (map_to_list (vtx s)) = true) by (vm_compute; reflexivity) end.
  rewrite forallb_forall in T. specialize (T ((g, c), 2) (proj1 (elem_of_list_In _ _) (proj2 (elem_of_map_to_list _ _ _) G))). done.
Qed.
(** Two crossings less than the tolerance apart, and no point may move: a piece of the line is missing. *)
Theorem C97_gap_refuted : exists d a b xa xb w l d', edits d /\ planar (dec d) /\ vec_ok (dec d) /\ no_zero (dec d) /\ is_at (dec d) a xa /\ is_at (dec d) b xb /\
  (forall g c p v z, vtx (dec d) !! (g, c) = Some p -> p <> a -> p <> b -> is_at (dec d) p v -> between xa xb z -> ~ near v z (tolerance d)) /\
  (forall p v g, is_at (dec d) p v -> passes (dec d) v (tolerance d) g -> exists c, vtx (dec d) !! (g, c) = Some p) /\
  line_for_points plane (fun _ _ _ => false) (fun l => l) 9 [a; b] a b d = (Ok l, d') /\ between xa xb w /\ ~ drawn (dec d') w /\ ~ goes_along (dec d') xa xb a 0 l b.
Proof.
  set (acts := wedge ++ (Call <$> [EAddPoint (40, -10)%Q 0; EAddPoint (40, 10)%Q 0])). assert (ED : edits (eafter (1 # 2) acts)) by (apply efine_edits; vm_compute; reflexivity). assert (I := g_inv _ (e_good _ (edits_einv _ ED))).
  destruct (sound_ok (dec (eafter (1 # 2) acts)) I) as [V Z]; [vm_compute; reflexivity|].
  exists (eafter (1 # 2) acts), 3, 4, (40, -10)%Q, (40, 10)%Q, (40, 1 # 5)%Q. eexists [4; 5], _. split; [exact ED|]. split; [apply (planar_ok _ I); vm_compute; reflexivity|]. split; [exact V|]. split; [exact Z|]. split; [vm_compute; reflexivity|]. split; [vm_compute; reflexivity|].
  split; [apply vertices_ok; vm_compute; reflexivity|]. split; [apply (clear_ok _ I V Z); vm_compute; reflexivity|]. split; [apply split_pair; vm_compute; reflexivity|].
  split; [apply between_along; exists (51 # 100)%Q; split; [lra|split; vm_compute; reflexivity]|]. split; [apply blank_ok; vm_compute; reflexivity|].
  intros (r & u & v & J & _ & _ & _ & r' & u' & v' & J' & _).
  match type of J with joins ?s _ _ _ => assert (F1 : vtx s !! (4, false) = Some 3) by (vm_compute; reflexivity); assert (F2 : vtx s !! (4, true) = Some 5) by (vm_compute; reflexivity); assert (F3 : vtx s !! (5, false) = Some 6) by (vm_compute; reflexivity); assert (F4 : vtx s !! (5, true) = Some 4) by (vm_compute; reflexivity) end.
  unfold joins in J, J'. rewrite F1, F2 in J. rewrite F3, F4 in J'. destruct J as [[J1 J2]|[J1 J2]]; [|discriminate J2]. injection J2 as <-. destruct J' as [[K1 K2]|[K1 K2]]; [discriminate K1|discriminate K2].
Qed.
(** If both ends snap to one point, add_line answers this point, not a list. *)
Theorem C97_point_refuted : exists d xa xb p d', edits d /\ (fst xa < fst xb)%Q /\ add_line plane (fun _ _ _ => true) (fun l => l) (fun _ _ _ => true) (fun q => q) 9 xa xb d = (Ok (OnePoint p), d').
Proof.
  exists (eafter 1 four), (-(1 # 2), 0)%Q, ((1 # 2), 0)%Q, 0. eexists. split; [apply efine_edits; vm_compute; reflexivity|]. split; [reflexivity|]. apply split_pair. vm_compute. reflexivity.
Qed.

(** * C98: adding a line between places *)
(** Away from points and other segments, add_line makes points at both places and draws exactly the line between them; nothing else moves. *)
Theorem C98_add_line K can order inside root n d xa xb M r d' p0 v0 g0 x0 y0 : (forall l p, In p (order l) -> In p l) -> edits d -> (0 < tolerance d)%Q -> room d M ->
  pt_bounded (M - tolerance d) xa -> pt_bounded (M - tolerance d) xb -> vec_ok (dec d) -> no_zero (dec d) -> is_at (dec d) p0 v0 -> ends (dec d) g0 x0 y0 -> lonely d xa xb ->
  add_line K can order inside root n xa xb d = (Ok r, d') ->
  exists a b l, r = Segments l /\ points (dec d) !! a = None /\ points (dec d) !! b = None /\ is_at (dec d') a xa /\ is_at (dec d') b xb /\ goes_along (dec d') xa xb a 0 l b /\
  (forall w, drawn (dec d') w <-> drawn (dec d) w \/ between xa xb w) /\ (planar (dec d) -> planar (dec d')) /\
  (forall p v, is_at (dec d) p v -> is_at (dec d') p v) /\ (forall p v, is_at (dec d') p v -> is_at (dec d) p v \/ p = a \/ p = b \/ exists g, crosses (dec d) g xa xb v).
Proof.
  intros OR ED P R BA BB V Z A0 E0 O H. destruct (add_line_points K can order inside root n d xa xb M r d' p0 v0 g0 x0 y0 ED P R BA BB V Z A0 E0 O H) as (a & b & l & da & db & -> & Pa & Pb & AB & C & H').
  exists a, b, l. assert (EDa := pp_edits _ _ _ _ Pa). assert (EDb := pp_edits _ _ _ _ Pb). assert (Tb : (0 < tolerance db)%Q) by (rewrite (pp_tol _ _ _ _ Pb), (pp_tol _ _ _ _ Pa); done).
  assert (Vb : vec_ok (dec db)) by (apply (plus_vec da db b xb EDa Pb), (plus_vec d da a xa ED Pa); done). assert (Zb : no_zero (dec db)) by (apply (plus_zero da db b xb EDa Pb), (plus_zero d da a xa ED Pa); done).
  assert (Aa : is_at (dec db) a xa) by (apply (plus_at _ _ _ _ Pb); left; apply (plus_at _ _ _ _ Pa); by right). assert (Bb : is_at (dec db) b xb) by (apply (plus_at _ _ _ _ Pb); by right).
  destruct (C96_points K can order n db a b xa xb l d' OR EDb Tb Vb Aa Bb AB C H') as (P1 & P2 & _).
  assert (OLD : forall p v, is_at (dec d) p v -> is_at (dec db) p v) by (intros p v Q; apply (plus_at _ _ _ _ Pb); left; apply (plus_at _ _ _ _ Pa); by left).
  split; [done|]. split. { assert (N := pp_new _ _ _ _ Pa). rewrite lookup_fmap in N. by destruct (points (dec d) !! a). }
  split. { destruct (points (dec d) !! b) as [x|] eqn:E; [|done]. exfalso. assert (N := pp_new _ _ _ _ Pb). assert (Q : is_at (dec da) b (xy x)) by (apply (plus_at _ _ _ _ Pa); left; unfold is_at; by rewrite lookup_fmap, E). unfold is_at in Q. unfold vect in *. congruence. }
  split; [by apply P1|]. split; [by apply P1|]. split; [exact (C96_chain K can order n db a b xa xb l d' OR EDb Tb Vb Aa Bb AB C H')|].
  split. { intros w. rewrite (C94_drawn K can order n db a b xa xb l d' OR EDb Tb Vb Aa Bb AB C H' w), (plus_drawn _ _ _ _ EDa Pb), (plus_drawn _ _ _ _ ED Pa). done. }
  split. { intros PL. apply (C95_planar K can order n db a b xa xb l d' OR EDb Tb Vb Zb Aa Bb AB C); [|done]. apply (plus_planar _ _ _ _ EDa Pb), (plus_planar _ _ _ _ ED Pa), PL. }
  split; [intros p v Q; by apply P1, OLD|]. intros p v Q. apply P2 in Q as [Q|(g & Q)].
  - apply (plus_at _ _ _ _ Pb) in Q as [Q|[-> _]]; [|by right; right; left]. apply (plus_at _ _ _ _ Pa) in Q as [Q|[-> _]]; [by left|by right; left].
  - right. right. right. exists g. by apply (plus_crosses _ _ _ _ ED Pa), (plus_crosses _ _ _ _ EDa Pb).
Qed.
(** The places inside of the square (polygon.py lines 179-194). *)
Definition in_square (s : st) (w : nat) (z : vect) : bool := negb (Qle_bool (fst z) 0) && negb (Qle_bool 10 (fst z)) && negb (Qle_bool (snd z) 0) && negb (Qle_bool 10 (snd z)).
Example C98_case : edits (eafter 1 four) /\ room (eafter 1 four) 20 /\ lonely (eafter 1 four) (-5, 5)%Q (15, 6)%Q /\
  fst (add_line plane (fun _ _ _ => true) (fun l => l) in_square (fun q => q) 9 (-5, 5)%Q (15, 6)%Q (eafter 1 four)) = Ok (Segments [6; 7; 8]).
Proof.
  assert (ED : edits (eafter 1 four)) by (apply efine_edits; vm_compute; reflexivity). assert (I := g_inv _ (e_good _ (edits_einv _ ED))). destruct (sound_ok (dec (eafter 1 four)) I) as [V Z]; [vm_compute; reflexivity|].
  split; [exact ED|]. split; [apply room_ok; vm_compute; reflexivity|]. split; [apply (lonely_line_ok _ 99 99 _ _ I V Z); vm_compute; reflexivity|]. vm_compute. reflexivity.
Qed.

(** A square and a line through it. *)
Definition crossed : list act := four ++ (Call <$> [EAddPoint (-5, 5)%Q 0; EAddPoint (15, 6)%Q 0]). (* polygons.py lines 625-642 *)
Example C94_case : edits (eafter 1 crossed) /\ vec_ok (dec (eafter 1 crossed)) /\ no_zero (dec (eafter 1 crossed)) /\ planar (dec (eafter 1 crossed)) /\
  is_at (dec (eafter 1 crossed)) 4 (-5, 5)%Q /\ is_at (dec (eafter 1 crossed)) 5 (15, 6)%Q /\ clean (eafter 1 crossed) 4 5 (-5, 5)%Q (15, 6)%Q /\
  fst (line_for_points plane (fun _ _ _ => true) (fun l => l) 9 [4; 5] 4 5 (eafter 1 crossed)) = Ok [6; 7; 8].
Proof.
  assert (ED : edits (eafter 1 crossed)) by (apply efine_edits; vm_compute; reflexivity). assert (I := g_inv _ (e_good _ (edits_einv _ ED))). destruct (sound_ok (dec (eafter 1 crossed)) I) as [V Z]; [vm_compute; reflexivity|].
  split; [exact ED|]. split; [exact V|]. split; [exact Z|]. split; [apply (planar_ok _ I); vm_compute; reflexivity|]. split; [vm_compute; reflexivity|]. split; [vm_compute; reflexivity|].
  split; [apply (clean_ok _ _ _ _ _ I V Z); vm_compute; reflexivity|]. vm_compute. reflexivity.
Qed.
(** The line crosses two sides. *)
Example C95_case : (exists w, crosses (dec (eafter 1 crossed)) 1 (-5, 5)%Q (15, 6)%Q w) /\ (exists w, crosses (dec (eafter 1 crossed)) 3 (-5, 5)%Q (15, 6)%Q w).
Proof.
  split.
  - exists (10, 23 # 4)%Q, (10, 0)%Q, (10, 10)%Q. split; [exists 1, 2; repeat split; vm_compute; reflexivity|]. split; [split; [apply between_along; exists (23 # 40)%Q; split; [lra|split; vm_compute; reflexivity]|split; intros [Q1 Q2]; discriminate]|].
    split; [split; [apply between_along; exists (3 # 4)%Q; split; [lra|split; vm_compute; reflexivity]|split; intros [Q1 Q2]; discriminate]|]. discriminate.
  - exists (0, 21 # 4)%Q, (0, 10)%Q, (0, 0)%Q. split; [exists 3, 0; repeat split; vm_compute; reflexivity|]. split; [split; [apply between_along; exists (19 # 40)%Q; split; [lra|split; vm_compute; reflexivity]|split; intros [Q1 Q2]; discriminate]|].
    split; [split; [apply between_along; exists (1 # 4)%Q; split; [lra|split; vm_compute; reflexivity]|split; intros [Q1 Q2]; discriminate]|]. discriminate.
Qed.
(** Two new points and two new parts. *)
Example C96_case : let s := dec (snd (line_for_points plane (fun _ _ _ => true) (fun l => l) 9 [4; 5] 4 5 (eafter 1 crossed))) in
  vtx s !! (6, false) = Some 4 /\ vtx s !! (6, true) = Some 7 /\ vtx s !! (7, true) = Some 6 /\ vtx s !! (8, true) = Some 5 /\ vtx s !! (3, true) = Some 7 /\ vtx s !! (5, false) = Some 7 /\ vtx s !! (5, true) = Some 0.
Proof. vm_compute. repeat split. Qed.
(** A side of the square is there. *)
Example C97_case : edits (eafter 1 four) /\ planar (dec (eafter 1 four)) /\ joins (dec (eafter 1 four)) 3 0 3 /\ clean (eafter 1 four) 0 3 (0, 0)%Q (0, 10)%Q /\
  fst (line_for_points plane (fun _ _ _ => true) (fun l => l) 9 [0; 3] 0 3 (eafter 1 four)) = Ok [3].
Proof.
  assert (ED : edits (eafter 1 four)) by (apply efine_edits; vm_compute; reflexivity). assert (I := g_inv _ (e_good _ (edits_einv _ ED))). destruct (sound_ok (dec (eafter 1 four)) I) as [V Z]; [vm_compute; reflexivity|].
  split; [exact ED|]. split; [apply (planar_ok _ I); vm_compute; reflexivity|]. split; [right; split; vm_compute; reflexivity|]. split; [apply (clean_ok _ _ _ _ _ I V Z); vm_compute; reflexivity|]. vm_compute. reflexivity.
Qed.
Print Assumptions C94_drawn.
Print Assumptions C95_planar.
Print Assumptions C96_chain.
Print Assumptions C96_points.
Print Assumptions C96_new.
Print Assumptions C97_again.
Print Assumptions C97_free_refuted.
Print Assumptions C97_gap_refuted.
Print Assumptions C97_point_refuted.
Print Assumptions C98_add_line.
