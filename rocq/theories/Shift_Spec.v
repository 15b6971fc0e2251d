(** What is claimed about the test before points are moved. *)
From stdpp Require Import gmap list relations.
From Coq Require Import QArith.
From Verif Require Import Decomp_Model Decomp_Spec.
Local Open Scope nat_scope.

(** The end of a segment moves with the points. *)
Definition moves_end (s : st) (ps : list nat) (h : he) : Prop := exists p, p ∈ ps /\ vtx s !! h = Some p.
(** Polygons beside segments of the points. *)
Definition changed (s : st) (ps : list nat) (g : nat) : Prop := exists e b c, moves_end s ps (e, b) /\ poly_at s (e, c) = Some g.
(** A segment that stays, of a wire at or below the outer wire of such a polygon. *)
Definition envelope (s : st) (ps : list nat) (e : nat) : Prop :=
  (forall c, ~ moves_end s ps (e, c)) /\
  exists c w g p, wir s !! (e, c) = Some w /\ changed s ps g /\ polys s !! g = Some p /\ rtc (fun x q => (parent <$> wires s) !! x = Some (Some q)) w (outer p).
(** Where a point is after the move. *)
Definition new_place (s : st) (ps : list nat) (d : vect) (p : nat) (v : vect) : Prop :=
  exists x, points s !! p = Some x /\ v = if decide (p ∈ ps) then (fst (xy x) + fst d, snd (xy x) + snd d)%Q else xy x.
(** Two lines cross inside of both. *)
Definition cross_inside (x y a b : vect) : Prop :=
  ~ ((fst y - fst x) * (snd b - snd a) - (snd y - snd x) * (fst b - fst a) == 0)%Q /\
  exists t u : Q, (((1 # 10000000000) < t < 1 - (1 # 10000000000)) /\ ((1 # 10000000000) < u < 1 - (1 # 10000000000)) /\
    fst x + t * (fst y - fst x) == fst a + u * (fst b - fst a) /\ snd x + t * (snd y - snd x) == snd a + u * (snd b - snd a))%Q.
(** A point on its way, or a segment in its new place, crosses a segment that stays. *)
Definition collision (s : st) (ps : list nat) (d : vect) : Prop := exists e a b x y,
  envelope s ps e /\ vtx s !! (e, false) = Some a /\ vtx s !! (e, true) = Some b /\ points s !! a = Some x /\ points s !! b = Some y /\
  ((exists p z, p ∈ ps /\ points s !! p = Some z /\ cross_inside (xy x) (xy y) (xy z) (fst (xy z) + fst d, snd (xy z) + snd d)%Q) \/
   (exists h p q u v, moves_end s ps h /\ vtx s !! h = Some p /\ vtx s !! flip h = Some q /\ new_place s ps d p u /\ new_place s ps d q v /\ cross_inside (xy x) (xy y) u v)).
(** Segments [e] and [f] cross. *)
Definition crossing (s : st) (e f : nat) : Prop := exists a b p q x y u v,
  vtx s !! (e, false) = Some a /\ vtx s !! (e, true) = Some b /\ vtx s !! (f, false) = Some p /\ vtx s !! (f, true) = Some q /\
  points s !! a = Some x /\ points s !! b = Some y /\ points s !! p = Some u /\ points s !! q = Some v /\ cross_inside (xy x) (xy y) (xy u) (xy v).
(** Points other than by their place, segments with ends and order, wires and polygons are the same. *)
Definition same_links (s s' : st) : Prop := vtx s' = vtx s /\ nxt s' = nxt s /\ wir s' = wir s /\ wires s' = wires s /\ polys s' = polys s /\ p2s s' = p2s s /\
  p_seg <$> points s' = p_seg <$> points s /\ p_poly <$> points s' = p_poly <$> points s.
