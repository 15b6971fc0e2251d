(** What is claimed about building a decomposition from its parts. *)
From stdpp Require Import gmap list relations.
From Verif Require Import Decomp_Model Decomp_Spec Build_Model.
Local Open Scope nat_scope.

(** Sides follow each other: each starts in the point where the one before ends; after the last one comes [t]. *)
Fixpoint leads (v : gmap he nat) (h : he) (l : list he) (t : he) : Prop :=
  match l with [] => v !! flip t = v !! h | k :: r => v !! flip k = v !! h /\ leads v k r t end.
(** A closed way over at least two sides, each once. *)
Definition ring (v : gmap he nat) (l : list he) : Prop :=
  match l with
  | [] => False
  | h :: r => r <> [] /\ NoDup l /\ leads v h r h /\ forall k, k ∈ l -> exists a b, v !! k = Some a /\ v !! flip k = Some b /\ a <> b
  end.
(** The direction is to be seen from the first two segments: the second one does not touch the first end of the first one if the way
    leaves it at its second end. *)
Definition clear (v : gmap he nat) (l : list he) : Prop :=
  match l with
  | (g, true) :: (e, _) :: _ => v !! (g, false) <> v !! (e, false) /\ v !! (g, false) <> v !! (e, true)
  | _ => True
  end.
(** Wire [w] of polygon [g] is the list of sides. *)
Definition wire_of (s : st) (w g : nat) (l : list he) : Prop :=
  wire_segments w None None s = (Ok l, s) /\ (forall h, h ∈ l <-> wir s !! h = Some w) /\ (w_poly <$> wires s) !! w = Some (Some g).

(** Each side starts in the point where the one before ends. *)
Fixpoint joined (v : gmap he nat) (h : he) (l : list he) : Prop := match l with [] => True | k :: r => v !! flip k = v !! h /\ joined v k r end.
(** No wire was removed so far. *)
Definition new_wires (s : st) : Prop := s_free (iw s) = [] /\ forall w, is_Some (wires s !! w) \/ (exists h, wir s !! h = Some w) -> w < s_next (iw s).

(** A polygon in a file: sides of its outer wire (none for the outer polygon), of its holes, free points. *)
Notation entry := (list he * list (list he) * list nat)%type.
(** The wires of an entry. *)
Definition rings_of (e : entry) : list (list he) := match fst (fst e) with [] => [] | l => [l] end ++ snd (fst e).
(** What make_polygon gets: segments without sides. *)
Definition ids_of (e : entry) : list nat * list (list nat) * list nat := (List.map fst (fst (fst e)), List.map (List.map fst) (snd (fst e)), snd e).
(** All sides of all segments are listed once, in closed ways; all points without segments are listed once. *)
Definition listing (s : st) (l : list entry) : Prop :=
  (forall r, r ∈ List.flat_map rings_of l -> ring (vtx s) r /\ clear (vtx s) r) /\
  NoDup (concat (List.flat_map rings_of l)) /\ (forall h, is_Some (vtx s !! h) -> h ∈ concat (List.flat_map rings_of l)) /\
  NoDup (List.flat_map snd l) /\ (forall p, p ∈ List.flat_map snd l <-> exists x, points s !! p = Some x /\ p_seg x = None).
(** Points and segments are made first. *)
Inductive parts : st -> Prop :=
  | parts_none : parts init
  | parts_point v s p s' : parts s -> append_point v s = (Ok p, s') -> parts s'
  | parts_segment a b s g s' : parts s -> make_segment a b s = (Ok g, s') -> parts s'.
(** Polygon [g] is as listed: outer wire, holes below it, free points. *)
Definition as_listed (s : st) (e : entry) (g : nat) : Prop := exists p, polys s !! g = Some p /\
  (match fst (fst e) with [] => g = 0 | l => g <> 0 /\ wire_of s (outer p) g l end) /\
  (forall l, l ∈ snd (fst e) -> exists w, w <> outer p /\ wire_of s w g l /\ (parent <$> wires s) !! w = Some (Some (outer p))) /\
  (forall q, q ∈ snd e -> q ∈ free p /\ exists x, points s !! q = Some x /\ p_poly x = Some g /\ p_seg x = None).
(** The other direction: there is nothing but what is listed. *)
Definition only_listed (s : st) (l : list (entry * nat)) : Prop :=
  (forall w, is_Some (wires s !! w) -> w = 0 \/ exists e g r, (e, g) ∈ l /\ r ∈ rings_of e /\ wire_of s w g r) /\
  (forall g p q, polys s !! g = Some p -> q ∈ free p -> exists e, (e, g) ∈ l /\ q ∈ snd e) /\
  (forall g, is_Some (polys s !! g) <-> g = 0 \/ g ∈ l.*2) /\
  (forall i j e e' g, l !! i = Some (e, g) -> l !! j = Some (e', g) -> g <> 0 -> i = j).
(** Parents and children are the same relation; no wire is its own child. *)
Definition linked (s : st) : Prop := forall q x, wires s !! q = Some x -> forall w, w ∈ childs x <-> w <> q /\ (parent <$> wires s) !! w = Some (Some q).

(** Wires [w] and [x] are on the two sides of a segment. *)
Definition touch (m : gmap he nat) (w x : nat) : Prop := exists h, m !! h = Some w /\ m !! flip h = Some x.
(** A wire without known parent is its own parent. *)
Definition own (P : gmap nat (option nat)) (w : nat) : Prop := P !! w = Some (Some w).
(** Wires without known parent that are reached from [start] through such wires only. *)
Inductive inside (m : gmap he nat) (P : gmap nat (option nat)) (start : nat -> Prop) : nat -> Prop :=
  | inside_first w : start w -> own P w -> inside m P start w
  | inside_next w x : inside m P start w -> touch m w x -> own P x -> inside m P start x.
(** A hole of a polygon. *)
Definition hole_of (s : st) (w : nat) : Prop := exists g p x, polys s !! g = Some p /\ wires s !! outer p = Some x /\ w ∈ childs x.
