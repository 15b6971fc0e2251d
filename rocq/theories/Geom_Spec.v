(** Specification of the planar geometry. *)
From Coq Require Import List QArith Bool Arith Permutation.
From Verif Require Import Aabb_Model Aabb_Spec Geom_Model.
Import ListNotations.
Open Scope Q_scope.

(** Point of the segment a + t (b - a). *)
Definition point_at (a b : pt) (t : Q) : pt :=
  (fst a + t * (fst b - fst a), snd a + t * (snd b - snd a)).
Definition pt_eq (p q : pt) : Prop := fst p == fst q /\ snd p == snd q.
(** p lies on the closed segment ab. *)
Definition on_seg (a b p : pt) : Prop := exists t, 0 <= t <= 1 /\ pt_eq (point_at a b t) p.
(** Segments in any direction of the same line. *)
Definition parallel (u v : pt) : Prop := fst u * snd v == snd u * fst v.
(** Twice the signed area of the triangle a b p: positive when p is to the left
    of the directed line ab. *)
Definition side_of (a b p : pt) : Q :=
  (fst b - fst a) * (snd p - snd a) - (snd b - snd a) * (fst p - fst a).

(** Half-open rule: the level y separates the heights of a and b, the lower end
    included, the upper one excluded. *)
Definition level_between (a b : pt) (y : Q) : Prop :=
  (snd a <= y < snd b) \/ (snd b <= y < snd a).
(** The segment has a point at height of p strictly to the right of p. *)
Definition right_of (a b p : pt) : Prop :=
  exists t, 0 <= t <= 1 /\ snd (point_at a b t) == snd p /\ fst p < fst (point_at a b t).

(** Edges of the closed walk through the vertices. *)
Definition rot1 (vs : list pt) : list pt :=
  match vs with [] => [] | v :: vs' => vs' ++ [v] end.
Definition closed_walk (vs : list pt) : list gseg := combine vs (rot1 vs).
(** Same segment, possibly stored the other way round. *)
Definition same_seg (s s' : gseg) : Prop := s' = s \/ s' = (snd s, fst s).
(** The wire walks the given edges, each stored in either orientation, in any
    order. *)
Definition walks (edges wire : list gseg) : Prop :=
  exists edges', Forall2 same_seg edges edges' /\ Permutation edges' wire.
Definition off_wire (wire : list gseg) (p : pt) : Prop :=
  forall s, In s wire -> ~ on_seg (fst s) (snd s) p.
(** Strictly convex counter-clockwise polygon: every vertex which is not an end
    point of an edge lies strictly to the left of it; no edge is degenerate. *)
Definition convex_ccw (vs : list pt) : Prop :=
  (3 <= length vs)%nat /\ NoDup vs /\
  forall s v, In s (closed_walk vs) -> In v vs ->
    v = fst s \/ v = snd s \/ 0 < side_of (fst s) (snd s) v.
Definition inside (vs : list pt) (p : pt) : Prop :=
  forall s, In s (closed_walk vs) -> 0 < side_of (fst s) (snd s) p.
Definition outside (vs : list pt) (p : pt) : Prop :=
  exists s, In s (closed_walk vs) /\ side_of (fst s) (snd s) p < 0.
(** The segments pq and ab have no common point. *)
Definition disjoint (p q a b : pt) : Prop :=
  forall s t, 0 <= s <= 1 -> 0 <= t <= 1 -> ~ pt_eq (point_at p q s) (point_at a b t).
(** Parameter in the interior, with the tolerance 1e-10 of the code. *)
Definition inner (t : Q) : Prop := (1 # 10000000000) < t < 1 - (1 # 10000000000).
(** The point is strictly on one side of all vertices. *)
Definition beyond (vs : list pt) (p : pt) : Prop :=
  (forall v, In v vs -> fst v < fst p) \/ (forall v, In v vs -> fst p < fst v) \/
  (forall v, In v vs -> snd v < snd p) \/ (forall v, In v vs -> snd p < snd v).
