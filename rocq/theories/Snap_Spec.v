(** What is claimed about snapping. *)
From stdpp Require Import gmap list.
From Coq Require Import QArith.
From Verif Require Import Decomp_Model Decomp_Spec Aabb_Model Aabb_Spec Editor_Model Editor_Spec.
Local Open Scope nat_scope.

(** The point [p] is at [v]. *)
Definition is_at (s : st) (p : nat) (v : vect) : Prop := (xy <$> points s) !! p = Some v.
(** Points stay so far inside a square of half size [M], and that far from the value for empty rows of the tables
    (aabb_lookup.py line 29), that their boxes do. *)
Definition room_points (d : ed) (M : Q) : Prop := (0 < M)%Q /\ (4 * M <= inject_Z (10 ^ 50))%Q /\
  forall p v, is_at (dec d) p v -> pt_bounded (M - tolerance d) v.
(** The same for the boxes of segments. *)
Definition room (d : ed) (M : Q) : Prop := room_points d M /\
  forall g b, is_Some (vec (dec d) !! g) -> box_of (s_boxes d) g = Some b -> bounded M b.
(** A segment has a place less than [r] away from [z]. *)
Definition passes (s : st) (z : vect) (r : Q) (g : nat) : Prop := exists x y w, ends s g x y /\ between x y w /\ near z w r.
(** The place of parameter [t] on the segment from [x] to [y]. *)
Definition along (x y : vect) (t : Q) : vect := (fst x + t * (fst y - fst x), snd x + t * (snd y - snd x))%Q.
(** [t] is the parameter of the place of the segment that is the nearest one to [z]. *)
Definition nearest_on (x y z : vect) (t : Q) : Prop := (0 <= t <= 1)%Q /\ forall w, between x y w -> (dist2 z (along x y t) <= dist2 z w)%Q.
(** No other segment comes nearer to [z] than [g]. *)
Definition nearest_seg (s : st) (z : vect) (g : nat) : Prop := forall g' x' y' w', ends s g' x' y' -> between x' y' w' ->
  exists x y w, ends s g x y /\ between x y w /\ (dist2 z w <= dist2 z w')%Q.
(** Segments have a length. *)
Definition no_zero (s : st) : Prop := forall g x y, ends s g x y -> ~ (fst x == fst y /\ snd x == snd y)%Q.
