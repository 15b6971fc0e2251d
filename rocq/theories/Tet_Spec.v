(** Words for tetrahedra: distances of points, lines and planes in space. *)
From Coq Require Import List Reals.
Local Open Scope R_scope.

Definition point : Type := R * R * R.
Definition px (p : point) : R := fst (fst p).
Definition py (p : point) : R := snd (fst p).
Definition pz (p : point) : R := snd p.
Definition distance (p q : point) : R := sqrt ((px p - px q) ^ 2 + (py p - py q) ^ 2 + (pz p - pz q) ^ 2).
(** The point a + s (b - a). *)
Definition on_line (a b : point) (s : R) : point := (px a + s * (px b - px a), py a + s * (py b - py a), pz a + s * (pz b - pz a)).
(** The point a + s (b - a) + t (c - a). *)
Definition on_plane (a b c : point) (s t : R) : point :=
  (px a + s * (px b - px a) + t * (px c - px a), py a + s * (py b - py a) + t * (py c - py a), pz a + s * (pz b - pz a) + t * (pz c - pz a)).
(** The distance of the point m from the plane of a, b, c is r. *)
Definition from_plane (m a b c : point) (r : R) : Prop := (forall s t, r <= distance m (on_plane a b c s t)) /\ exists s t, distance m (on_plane a b c s t) = r.
(** Six times the signed volume. *)
Definition volume6 (a b c d : point) : R :=
  (px b - px a) * ((py c - py a) * (pz d - pz a) - (pz c - pz a) * (py d - py a)) +
  (py b - py a) * ((pz c - pz a) * (px d - px a) - (px c - px a) * (pz d - pz a)) +
  (pz b - pz a) * ((px c - px a) * (py d - py a) - (py c - py a) * (px d - px a)).
(** Lines through a, b and c, d have different directions. *)
Definition not_parallel (a b c d : point) : Prop := forall s t,
  s * (px b - px a) + t * (px d - px c) = 0 -> s * (py b - py a) + t * (py d - py c) = 0 -> s * (pz b - pz a) + t * (pz d - pz c) = 0 -> s = 0 /\ t = 0.
(** A point strictly inside of the tetrahedron. *)
Definition within (n : nat -> point) (m : point) : Prop := exists k0 k1 k2 k3, 0 < k0 /\ 0 < k1 /\ 0 < k2 /\ 0 < k3 /\ k0 + k1 + k2 + k3 = 1 /\
  m = (k0 * px (n 0%nat) + k1 * px (n 1%nat) + k2 * px (n 2%nat) + k3 * px (n 3%nat), k0 * py (n 0%nat) + k1 * py (n 1%nat) + k2 * py (n 2%nat) + k3 * py (n 3%nat), k0 * pz (n 0%nat) + k1 * pz (n 1%nat) + k2 * pz (n 2%nat) + k3 * pz (n 3%nat)).
(** The sphere through the nodes, and the one inside that touches the faces. *)
Definition circumscribed (n : nat -> point) (c : point) (r : R) : Prop := forall i, (i < 4)%nat -> distance c (n i) = r.
Definition inscribed (n : nat -> point) (m : point) (r : R) : Prop := within n m /\
  from_plane m (n 0%nat) (n 1%nat) (n 2%nat) r /\ from_plane m (n 0%nat) (n 1%nat) (n 3%nat) r /\ from_plane m (n 0%nat) (n 2%nat) (n 3%nat) r /\ from_plane m (n 1%nat) (n 2%nat) (n 3%nat) r.
