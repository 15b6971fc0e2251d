(** What is claimed about the editor of decompositions: its tables of boxes and its undo. *)
From stdpp Require Import gmap list.
From Coq Require Import QArith.
From Verif Require Import Decomp_Model Decomp_Spec Aabb_Model Aabb_Spec Editor_Model.
Local Open Scope nat_scope.

(** * Histories *)
(** The primitive operations (polygons.py lines 625-683). *)
Inductive eop := EAddPoint (v : vect) (g : nat) | EAddSegment (a b : nat) | ERmPoint (p : nat) | ERmSegment (g : nat)
  | ESplit (e mid : nat) | EJoin (mid e n : nat).
(** A call (polygons.py lines 625-683); 0 stands for the result None. *)
Definition erun (K : geometry) (o : eop) : E nat :=
  match o with
  | EAddPoint v g => add_point v g
  | EAddSegment a b => add_segment K a b
  | ERmPoint p => rm_point p ;% eret 0
  | ERmSegment g => rm_segment K g
  | ESplit e mid => split_seg e mid
  | EJoin mid e n => join_seg mid e n
  end.
(** The call that an undo part makes (polygons.py lines 632, 642, 651, 660, 672, 683). *)
Definition op_of (d : ed) (u : undo_part) : option eop :=
  match u with
  | UnAddPoint p => Some (ERmPoint p)
  | UnAddSegment g => Some (ERmSegment g)
  | UnRmPoint v g => Some (EAddPoint v g)
  | UnRmSegment c => (fun ab : nat * nat => EAddSegment (fst ab) (snd ab)) <$> cells d !! c
  | UnSplit mid e n => Some (EJoin mid e n)
  | UnJoin mid e => Some (ESplit e mid)
  end.

(** The box of an object: its row of the table. *)
Definition box_of (t : lookup) (i : nat) : option box := if i <? l_n t then nth_error (l_rows t) i else None.
(** [m] lies on the segment from [a] to [b]. *)
Definition between (a b m : vect) : Prop := exists t : Q, (0 <= t <= 1 /\ fst m == fst a + t * (fst b - fst a) /\ snd m == snd a + t * (snd b - snd a))%Q.
(** The coordinates of the end points of a segment. *)
Definition ends (s : st) (g : nat) (x y : vect) : Prop := exists a b, vtx s !! (g, false) = Some a /\ vtx s !! (g, true) = Some b /\
  (xy <$> points s) !! a = Some x /\ (xy <$> points s) !! b = Some y.
(** The calls of a history: those of [Decomp_Spec.proper]; segments are split at a point on them, and joined if the box of
    the first one reaches to the end of the second one, as when a split is undone (see C25 for what goes wrong otherwise). *)
Definition eproper (K : geometry) (d : ed) (o : eop) (r : nat) (d' : ed) : Prop :=
  match o with
  | EAddSegment _ _ => sane K (dec d') r
  | ERmSegment g => exposed (dec d) g -> whole (dec d')
  | ESplit e mid => loose (dec d) mid /\ forall x y m, ends (dec d) e x y -> (xy <$> points (dec d)) !! mid = Some m -> between x y m
  | EJoin mid e n => goes_on (dec d) mid e n /\ forall x y b, ends (dec d) n x y -> box_of (s_boxes d) e = Some b -> covers b (eff_margin (tolerance d)) y
  | _ => True
  end.
Inductive edits : ed -> Prop :=
  | edits_start tol : edits (ed_init tol)
  | edits_call K o d r d' : edits d -> erun K o d = (Ok r, d') -> eproper K d o r d' -> edits d'
  | edits_undo K u l o d r d' : edits d -> stack d = u :: l -> op_of d u = Some o -> erun K o (set_stack l d) = (Ok r, d') ->
      eproper K d o r d' -> edits (set_stack l d')
  | edits_put c side a d d' : edits d -> put_cell c side a d = (Ok tt, d') -> edits d'.

(** * Boxes *)
(** Every point and both ends of every segment lie in the box in the tables, with the tolerance around. *)
Definition covered (d : ed) : Prop :=
  (forall p v, (xy <$> points (dec d)) !! p = Some v -> exists b, box_of (p_boxes d) p = Some b /\ covers b (eff_margin (tolerance d)) v) /\
  (forall g x y, ends (dec d) g x y -> exists b, box_of (s_boxes d) g = Some b /\ covers b (eff_margin (tolerance d)) x /\ covers b (eff_margin (tolerance d)) y).
(** Square of the distance to a point. *)
Definition near (p v : vect) (r : Q) : Prop := (dist2 p v < r * r)%Q.

(** * Undo *)
(** The same points and segments: ids, coordinates, end points, vectors, the index, free points. *)
Definition same_plan (s s' : st) : Prop :=
  xy <$> points s = xy <$> points s' /\ vtx s = vtx s' /\ vec s = vec s' /\ p2s s = p2s s' /\ (forall p, loose s p <-> loose s' p).
