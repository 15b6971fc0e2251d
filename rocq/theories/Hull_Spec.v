(** Convex hulls in the plane, independent of the code. *)
From Coq Require Import List QArith.
From Verif Require Import Aabb_Model.
Import ListNotations.
Open Scope Q_scope.

(** The point [p] is to the left (> 0), to the right (< 0) of or on (== 0) the line from [a] to [b]. *)
Definition side (a b p : pt) : Q := (fst b - fst a) * (snd p - snd a) - (snd b - snd a) * (fst p - fst a).
(** The same place. *)
Definition same (a b : pt) : Prop := fst a == fst b /\ snd a == snd b.
(** A set with two points contains all between them. *)
Definition convex (C : pt -> Prop) : Prop := forall a b t p, C a -> C b -> 0 <= t -> t <= 1 ->
  same p (fst a + t * (fst b - fst a), snd a + t * (snd b - snd a)) -> C p.
(** The convex hull: what is in every convex set around the points. *)
Definition in_hull (l : list pt) (p : pt) : Prop := forall C, convex C -> (forall q, In q l -> C q) -> C p.
(** Points one after the other in a list. *)
Definition edge_of (l : list pt) (a b : pt) : Prop := exists l1 l2, l = l1 ++ a :: b :: l2.
(** No two entries are at the same place. *)
Definition distinct (l : list pt) : Prop := ForallOrdPairs (fun a b => ~ same a b) l.
