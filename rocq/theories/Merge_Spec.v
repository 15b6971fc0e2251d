(** What is claimed about merging decompositions. *)
From stdpp Require Import gmap list relations.
From Coq Require Import QArith.
From Verif Require Import Decomp_Model Decomp_Spec Aabb_Model Aabb_Spec Editor_Model Editor_Spec Snap_Spec.
Local Open Scope nat_scope.

(** The place [w] is on the segment [g]. *)
Definition on (s : st) (g : nat) (w : vect) : Prop := exists x y, ends s g x y /\ between x y w.
(** The answers whether a wire is inside of another one are read off the drawing, and two wires are not inside of each other. *)
Definition steady (K : geometry) : Prop :=
  (forall s1 s a b, same_geo s1 s -> k_wire K s1 a b = k_wire K s a b) /\ forall s a b, a <> b -> k_wire K s a b = true -> k_wire K s b a = false.
(** Two points are not nearer to each other than [r]. *)
Definition spread (s : st) (r : Q) : Prop := forall p q v w, p <> q -> is_at s p v -> is_at s q w -> ~ near v w r.
(** The map, a list of keys with values, gives [v] for [k]; what is not a key stays as it is. *)
Definition says (l : list (nat * nat)) (k v : nat) : Prop := In (k, v) l \/ v = k /\ forall u, ~ In (k, u) l.
(** Polygon [q] is on the other side of a segment of the outer wire of [p]. *)
Definition beside (s : st) (p q : nat) : Prop := exists h o, (outer <$> polys s) !! p = Some o /\ wir s !! h = Some o /\ poly_at s (flip h) = Some q.
(** The value [v] spreads from the polygons that have it to those without a value. *)
Inductive flows (s : st) (m : list (nat * option nat)) (v : nat) : nat -> Prop :=
  | flow_given p : In (p, Some v) m -> flows s m v p
  | flow_step p q : flows s m v p -> beside s p q -> (forall u, ~ In (q, Some u) m) -> flows s m v q.
(** The way along a segment from one of its ends to the other has the side of the same name on its right; [turned h true] is the other side. *)
Definition turned (h : he) (c : bool) : he := if c then flip h else h.
(** [l] are segments, one after the other, with the direction in which they are passed, from the point [p] to the point [q]. *)
Inductive walk (s : st) : nat -> list he -> nat -> Prop :=
  | walk_end p : walk s p [] p
  | walk_step p h m l q : vtx s !! h = Some p -> vtx s !! flip h = Some m -> walk s m l q -> walk s p (h :: l) q.
(** [l] is a walk in [s] from the point for the first end of the segment [e] of the other decomposition to the one for its second end; [f] gives points for points. *)
Definition way (s other : st) (f : nat -> nat) (e : nat) (l : list he) : Prop :=
  exists a b, vtx other !! (e, false) = Some a /\ vtx other !! (e, true) = Some b /\ walk s (f a) l (f b).
