(** What is claimed about decompositions of the plane, in terms of their observable state. *)
From stdpp Require Import gmap list relations.
From Coq Require Import QArith.
From Verif Require Import Decomp_Model.
Local Open Scope nat_scope.

(** * Histories *)
(** The public operations (decomp.py lines 160-341, point.py lines 117-125). *)
Inductive op := AddPoint (v : vect) (g : nat) | RemovePoint (p : nat) | NewSegment (a b : nat) | DeleteSegment (e : nat)
  | SplitSegment (e p : nat) | MovePoint (p : nat) (v : vect) | JoinSegments (p e n : nat).
(** A call (decomp.py lines 160-341); 0 stands for the result None. *)
Definition run (K : geometry) (o : op) : M nat :=
  match o with
  | AddPoint v g => add_free_point v g
  | RemovePoint p => remove_free_point p ;~ ret 0
  | NewSegment a b => new_segment K a b
  | DeleteSegment e => delete_segment K e ;~ ret 0
  | SplitSegment e p => split_segment e p
  | MovePoint p v => move p v ;~ ret 0
  | JoinSegments p e n => join_segments p e n
  end.
(** Any sequence of calls that return. *)
Inductive calls (K : geometry) : st -> Prop :=
  | calls_start : calls K init
  | calls_next o s r s' : calls K s -> run K o s = (Ok r, s') -> calls K s'.

(** The states look alike to geometric tests. *)
Definition same_geo (s s' : st) : Prop :=
  xy <$> points s = xy <$> points s' /\ vtx s = vtx s' /\ nxt s = nxt s' /\ wir s = wir s' /\ w_seg <$> wires s = w_seg <$> wires s' /\ vec s = vec s'.
(** A sound answer to [contains_wire] in state [s]: it depends on the geometry only, and of the two wires on the sides of
    segment [i] at most one lies inside the other. *)
Definition sane (K : geometry) (s : st) (i : nat) : Prop :=
  (forall s1 a b, same_geo s1 s -> k_wire K s1 a b = k_wire K s a b) /\
  (forall c a b, wir s !! (i, c) = Some a -> wir s !! (i, negb c) = Some b -> a <> b -> k_wire K s a b = true -> k_wire K s b a = false).
(** Following parents from [x] leads to the root wire 0. *)
Definition up (P : gmap nat (option nat)) (x : nat) : Prop := rtc (fun c q => P !! c = Some (Some q)) x 0.
(** Every wire hangs below the root, and is the outer wire of its polygon or a child of it. *)
Definition whole (s : st) : Prop := forall w, is_Some ((parent <$> wires s) !! w) -> up (parent <$> wires s) w /\
  exists g o, (w_poly <$> wires s) !! w = Some (Some g) /\ (outer <$> polys s) !! g = Some o /\ (o = w \/ (parent <$> wires s) !! w = Some (Some o)).
(** A segment whose removal rearranges the tree of wires: alone with its wire around other wires, or a bridge on the
    outer wire of a polygon. *)
Definition exposed (s : st) (g : nat) : Prop := exists w, wir s !! (g, true) = Some w /\ wir s !! (g, false) = Some w /\
  (((forall b, nxt s !! (g, b) = Some (g, negb b)) /\ exists c, (parent <$> wires s) !! c = Some (Some w)) \/
   (nxt s !! (g, true) <> Some (g, false) /\ nxt s !! (g, false) <> Some (g, true) /\ exists x, (outer <$> polys s) !! x = Some w)).
(** A point without segments. *)
Definition loose (s : st) (p : nat) : Prop := exists x, points s !! p = Some x /\ p_seg x = None.
(** Segment [n] goes on where [e] ends, at [p], and no segment joins the far ends. *)
Definition goes_on (s : st) (p e n : nat) : Prop := vtx s !! (e, true) = Some p /\ vtx s !! (n, false) = Some p /\
  forall a b, vtx s !! (e, false) = Some a -> vtx s !! (n, true) = Some b -> p2s s !! (a, b) = None /\ p2s s !! (b, a) = None.
(** The calls of a history: containment is answered soundly, removal of an exposed segment leaves a whole tree (which is
    not so always, see C23), segments are split at free points, and joined where one goes on after the other (see C19 and
    C23 for what goes wrong otherwise). *)
Definition proper (K : geometry) (s : st) (o : op) (r : nat) (s' : st) : Prop :=
  match o with
  | NewSegment _ _ => sane K s' r
  | DeleteSegment e => exposed s e -> whole s'
  | SplitSegment _ p => loose s p
  | JoinSegments p e n => goes_on s p e n
  | _ => True
  end.
Inductive history : st -> Prop :=
  | hist_start : history init
  | hist_next K o s r s' : history s -> run K o s = (Ok r, s') -> proper K s o r s' -> history s'.
(** Histories in which no segments are joined. *)
Inductive plain : st -> Prop :=
  | plain_start : plain init
  | plain_next K o s r s' : plain s -> run K o s = (Ok r, s') -> proper K s o r s' -> (forall p e n, o <> JoinSegments p e n) -> plain s'.

(** * Structure *)
(** [k] follows [h] along a wire, after some steps. *)
Definition along (s : st) : he -> he -> Prop := rtc (fun h k => nxt s !! h = Some k).
(** Segments are a half-edge structure: a live segment has both sides with end point, next side and wire; next sides are
    a permutation; the next side starts at the end of the side; wires are its cycles. *)
Definition half_edges (s : st) : Prop :=
  (forall g c, is_Some (vec s !! g) <-> is_Some (nxt s !! (g, c))) /\
  (forall h, (is_Some (nxt s !! h) <-> is_Some (vtx s !! h)) /\ (is_Some (nxt s !! h) <-> is_Some (wir s !! h))) /\
  (forall h k, nxt s !! h = Some k -> is_Some (nxt s !! k) /\ vtx s !! flip k = vtx s !! h) /\
  (forall h h' k, nxt s !! h = Some k -> nxt s !! h' = Some k -> h = h') /\
  (forall h k w x, wir s !! h = Some w -> wir s !! k = Some x -> (w = x <-> along s h k)) /\
  (forall h p, vtx s !! h = Some p -> vtx s !! flip h <> Some p).
(** The list is all of the set, each once. *)
Definition lists {A} (l : list A) (P : A -> Prop) : Prop := NoDup l /\ forall x, x ∈ l <-> P x.
(** The polygon on a side of a segment. *)
Definition poly_at (s : st) (h : he) : option nat := wir s !! h ≫= (fun w => wires s !! w ≫= w_poly).
(** The report of a change agrees with the ids of polygons before and after, and with the polygons on the sides [l] and [r]
    of the segment that came or went. *)
Definition told (c : change) (old new : gset nat) (l r : option nat) : Prop :=
  match c with
  | CNone => new = old
  | CShape g => new = old /\ l = r
  | CAdd g n | CSplit g n => g ∈ old /\ n ∉ old /\ new = old ∪ {[n]} /\ ((l = Some g /\ r = Some n) \/ (l = Some n /\ r = Some g))
  | CRemove g n | CJoin g n => g ∈ new /\ n ∉ new /\ old = new ∪ {[n]} /\ ((l = Some g /\ r = Some n) \/ (l = Some n /\ r = Some g))
  end.
(** Vectors of segments are up to date. *)
Definition vec_ok (s : st) : Prop := forall g a b x y, vtx s !! (g, false) = Some a -> vtx s !! (g, true) = Some b ->
  (xy <$> points s) !! a = Some x -> (xy <$> points s) !! b = Some y -> vec s !! g = Some (vminus y x).
(** The same drawing: points with coordinates, segments with end points, vectors, links and the polygons on their sides,
    index, polygon ids; the same sides share a wire. *)
Definition same_drawing (s s' : st) : Prop :=
  xy <$> points s = xy <$> points s' /\ vtx s = vtx s' /\ vec s = vec s' /\ nxt s = nxt s' /\ p2s s = p2s s' /\
  (dom (polys s) : gset nat) = dom (polys s') /\ (forall h, poly_at s h = poly_at s' h) /\
  (forall h k, wir s !! h = wir s !! k <-> wir s' !! h = wir s' !! k) /\
  (forall p, loose s p <-> loose s' p).

(** * check_consistency *)
(** The asserts of check_consistency, decomp.py lines 97-153; [last] is the last wire but the root in
    the order of [wires], whose segment is meant by seg in line 127. *)
Definition consistent (s : st) (last : option nat) : Prop :=
  (forall g p, polys s !! g = Some p ->
    (exists x, wires s !! outer p = Some x /\ w_poly x = Some g) /\
    (forall v, v ∈ free p -> exists x, points s !! v = Some x /\ p_poly x = Some g /\ p_seg x = None)) /\
  (forall w x, wires s !! w = Some x ->
    (forall c, c ∈ childs x -> is_Some (wires s !! c)) /\
    (exists g p o, w_poly x = Some g /\ polys s !! g = Some p /\ wires s !! outer p = Some o /\ (w = outer p \/ w ∈ childs o)) /\
    match parent x with
    | None => exists p, polys s !! 0 = Some p /\ w = outer p
    | Some q => (exists h, w_seg x = Some h /\ is_Some (vec s !! fst h) /\ wir s !! h = Some w) /\ exists y, wires s !! q = Some y /\ w ∈ childs y
    end) /\
  (forall g, is_Some (vec s !! g) ->
    (exists w x h a b, last = Some w /\ wires s !! w = Some x /\ w_seg x = Some h /\ vtx s !! (fst h, false) = Some a /\ vtx s !! (fst h, true) = Some b /\
       is_Some (p2s s !! (a, b))) /\
    forall c, exists p w k x h l, vtx s !! (g, c) = Some p /\ is_Some (points s !! p) /\ wir s !! (g, c) = Some w /\ wires s !! w = Some x /\
      nxt s !! (g, c) = Some k /\ is_Some (vec s !! fst k) /\
      point_segments p s = (Ok l, s) /\ g ∈ (fst <$> l) /\ w_seg x = Some h /\ wir s !! h = Some w /\ wir s !! k = Some w) /\
  (forall a b g, p2s s !! (a, b) = Some g -> is_Some (vec s !! g) /\ vtx s !! (g, false) = Some a /\ vtx s !! (g, true) = Some b) /\
  (forall p x, points s !! p = Some x ->
    match p_seg x with
    | None => exists g y, p_poly x = Some g /\ polys s !! g = Some y /\ p ∈ free y
    | Some h => is_Some (vec s !! fst h) /\ vtx s !! h = Some p
    end).
(** [w] is a wire but the root; None if there is none. *)
Definition some_wire (s : st) (last : option nat) : Prop :=
  match last with
  | Some w => exists x q, wires s !! w = Some x /\ parent x = Some q
  | None => forall w x q, wires s !! w = Some x -> parent x <> Some q
  end.
