(** What is claimed about adding a line. *)
From stdpp Require Import gmap list.
From Coq Require Import QArith.
From Verif Require Import Decomp_Model Decomp_Spec Aabb_Model Aabb_Spec Editor_Model Editor_Spec Snap_Spec.
Local Open Scope nat_scope.

(** The same place. *)
Definition same (v w : vect) : Prop := (fst v == fst w /\ snd v == snd w)%Q.
(** The place [w] is on a segment. *)
Definition drawn (s : st) (w : vect) : Prop := exists g x y, ends s g x y /\ between x y w.
(** Two segments meet only in common ends. *)
Definition planar (s : st) : Prop := forall g h x y x' y' w, g <> h -> ends s g x y -> ends s h x' y' -> between x y w -> between x' y' w ->
  (same w x \/ same w y) /\ (same w x' \/ same w y').
(** The place [w] is inside of the segment from [x] to [y], not an end. *)
Definition inside_of (x y w : vect) : Prop := between x y w /\ ~ same w x /\ ~ same w y.
(** The segment [g] crosses the line from [xa] to [xb] at [w]. *)
Definition crosses (s : st) (g : nat) (xa xb w : vect) : Prop := exists x y, ends s g x y /\ inside_of x y w /\ inside_of xa xb w /\
  ~ ((fst y - fst x) * (snd xb - snd xa) == (snd y - snd x) * (fst xb - fst xa))%Q.
(** The end points of [g] are [p] and [q]. *)
Definition joins (s : st) (g p q : nat) : Prop :=
  vtx s !! (g, false) = Some p /\ vtx s !! (g, true) = Some q \/ vtx s !! (g, false) = Some q /\ vtx s !! (g, true) = Some p.
(** [l] are segments, one after the other, from the point [p] to the point [q], which go on from parameter [t] to 1 on the line from [xa] to [xb]. *)
Fixpoint goes_along (s : st) (xa xb : vect) (p : nat) (t : Q) (l : list nat) (q : nat) : Prop :=
  match l with
  | [] => p = q /\ (t == 1)%Q
  | g :: l => exists r u v, joins s g p r /\ is_at s r v /\ same v (along xa xb u) /\ (t < u)%Q /\ goes_along s xa xb r u l q
  end.
(** The new line keeps away from what is there: no vertex of a segment, other than its own ends, is less than the tolerance away
    from it; its ends are that far from segments that do not end in them; it crosses two segments at places that are that far apart.
    Segments and the line are so short that 1e-10 of their length is less than the tolerance (polygons.py line 742); the line has a length. *)
Record clean (d : ed) (a b : nat) (xa xb : vect) : Prop := Clean {
  l_vertex : forall g c p w z, vtx (dec d) !! (g, c) = Some p -> p <> a -> p <> b -> is_at (dec d) p w -> between xa xb z -> ~ near w z (tolerance d);
  l_from : forall g, passes (dec d) xa (tolerance d) g -> exists c, vtx (dec d) !! (g, c) = Some a;
  l_to : forall g, passes (dec d) xb (tolerance d) g -> exists c, vtx (dec d) !! (g, c) = Some b;
  l_apart : forall g h w z, crosses (dec d) g xa xb w -> crosses (dec d) h xa xb z -> near w z (tolerance d) -> g = h;
  l_short : forall g x y, ends (dec d) g x y -> ((1 # 10000000000) * (1 # 10000000000) * dist2 x y < tolerance d * tolerance d)%Q;
  l_len : ~ same xa xb;
  l_line : ((1 # 10000000000) * (1 # 10000000000) * dist2 xa xb < tolerance d * tolerance d)%Q }.
(** A line away from everything: as before, and no point and no segment is less than the tolerance away from its ends, which are that far apart. *)
Record lonely (d : ed) (xa xb : vect) : Prop := Lonely {
  o_points : forall p v, is_at (dec d) p v -> ~ near xa v (tolerance d) /\ ~ near xb v (tolerance d);
  o_segments : forall g, ~ passes (dec d) xa (tolerance d) g /\ ~ passes (dec d) xb (tolerance d) g;
  o_vertex : forall g c p w z, vtx (dec d) !! (g, c) = Some p -> is_at (dec d) p w -> between xa xb z -> ~ near w z (tolerance d);
  o_apart : forall g h w z, crosses (dec d) g xa xb w -> crosses (dec d) h xa xb z -> near w z (tolerance d) -> g = h;
  o_short : forall g x y, ends (dec d) g x y -> ((1 # 10000000000) * (1 # 10000000000) * dist2 x y < tolerance d * tolerance d)%Q;
  o_len : ~ near xa xb (tolerance d);
  o_line : ((1 # 10000000000) * (1 # 10000000000) * dist2 xa xb < tolerance d * tolerance d)%Q }.
