(** Rectangles around points, independent of the code. *)
From Coq Require Import List Reals.
Import ListNotations.
Local Open Scope R_scope.

(** Products of vectors. *)
Definition dotr (a b : R * R) : R := fst a * fst b + snd a * snd b.
Definition crossr (a b : R * R) : R := fst a * snd b - snd a * fst b.
Definition subr (a b : R * R) : R * R := (fst a - fst b, snd a - snd b).
(** Corners of a rectangle counter-clockwise, sides may be 0. *)
Definition rectangle (c0 c1 c2 c3 : R * R) : Prop := dotr (subr c2 c1) (subr c0 c1) = 0 /\ 0 <= crossr (subr c2 c1) (subr c0 c1) /\
  subr c3 c0 = subr c2 c1.
(** A point of the rectangle. *)
Definition inside (c0 c1 c2 c3 p : R * R) : Prop := exists s t, 0 <= s <= 1 /\ 0 <= t <= 1 /\
  fst p = fst c1 + s * (fst c2 - fst c1) + t * (fst c0 - fst c1) /\ snd p = snd c1 + s * (snd c2 - snd c1) + t * (snd c0 - snd c1).
(** A point between two corners. *)
Definition on_side (a b p : R * R) : Prop := exists s, 0 <= s <= 1 /\ fst p = fst a + s * (fst b - fst a) /\ snd p = snd a + s * (snd b - snd a).
(** Its area. *)
Definition area (c0 c1 c2 : R * R) : R := crossr (subr c2 c1) (subr c0 c1).
(** A vector along a line between neighbours in the list, points apart. *)
Definition edge_dir (l : list (R * R)) (e : R * R) : Prop := exists l1 a b l2, l = l1 ++ a :: b :: l2 /\ e = subr b a /\ e <> (0, 0).
(** A walk around a convex polygon, clockwise: neighbours are apart and all points are on the right of every edge. *)
Definition convex_walk (l : list (R * R)) : Prop := (exists a m, l = a :: m ++ [a]) /\
  forall l1 x y l2, l = l1 ++ x :: y :: l2 -> x <> y /\ forall z, In z l -> crossr (subr y x) (subr z x) <= 0.
