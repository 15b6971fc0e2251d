(** Notions used in the statements about heal_mesh.py. *)
From stdpp Require Import gmap.
From Coq Require Import ZArith QArith Reals Qreals.
From Verif Require Import Heal_Model.

(** The walk through a set meets each of its elements once. *)
Definition fair (pick : nat -> gset Z -> list Z) : Prop :=
  forall k X, NoDup (pick k X) /\ forall i, i ∈ pick k X <-> i ∈ X.
(** Element [i] uses node [n]. *)
Definition uses (s : st) (i n : Z) : Prop := exists e, els s !! i = Some e /\ n ∈ e_nodes e.
(** The index lists for each node the elements that use it. *)
Definition exact (s : st) : Prop := forall n i, i ∈ nels s n <-> uses s i n.
(** The nodes of the elements are in the mesh. *)
Definition closed (ns : gmap Z pt) (es : gmap Z elem) : Prop :=
  forall i e n, es !! i = Some e -> n ∈ e_nodes e -> is_Some (ns !! n).
(** An element with the positions of its nodes. *)
Definition snap (s : st) (i : Z) : option (elem * list (option pt)) :=
  e ← els s !! i; Some (e, map (fun n => nodes s !! n) (e_nodes e)).
(** Equal coordinates. *)
Definition same (p q : pt) : Prop :=
  let '(x, y, z) := p in let '(x', y', z') := q in x == x' /\ y == y' /\ z == z'.
(** u a + v b + w c. *)
Definition comb3 (u v w : Q) (a b c : pt) : pt :=
  let '(x, y, z) := a in let '(x', y', z') := b in let '(x'', y'', z'') := c in
  (u * x + v * x' + w * x'', u * y + v * y' + w * y'', u * z + v * z' + w * z'').
(** [p] is the point (1 - t) a + t b of the line through [a] and [b]. *)
Definition on_line (t : Q) (a b p : pt) : Prop := same p (comb3 (1 - t) t 0 a b b).
(** Quality [x] is in the range number [k]: ranges are separated by 2^-15, 2^-14, ..., 1. *)
Definition in_range (k : nat) (x : Q) : Prop :=
  (k < 17)%nat /\ (k <> 0%nat -> 2 ^ (Z.of_nat k - 16) <= x) /\ (k <> 16%nat -> x < 2 ^ (Z.of_nat k - 15)).
(** Faces and edges of a tetrahedron by the positions of their nodes. *)
Definition edge_in_face (e : nat * nat) (f : list nat) : Prop := fst e ∈ f /\ snd e ∈ f.
(** Element [e] with [b] in the place of [a]. *)
Definition subst_el (a b : Z) (e : elem) : elem := (e_type e, e_tags e, subst a b (e_nodes e)).
(** [e] has the type of [e'] and all its nodes. *)
Definition covers (e e' : elem) : Prop := e_type e = e_type e' /\ e_nodes e' ⊆ e_nodes e.
(** Points and lines with two different ends. *)
Definition thin (s : st) : Prop := forall i e, els s !! i = Some e -> (1 <= length (e_nodes e) <= 2)%nat /\ NoDup (e_nodes e).
(** Calls other than heal_mesh. *)
Definition edit (o : op) : Prop := match o with OHeal _ _ => False | _ => True end.
(** Elements of [l] of dimension > 1 whose quality satisfies [P]. *)
Definition tally (qual : list pt -> option quality) (s : st) (P : quality -> bool) (l : list (Z * elem)) : list (Z * elem) :=
  List.filter (fun ie => (3 <=? length (e_nodes (snd ie)))%nat &&
    match points s (e_nodes (snd ie)) ≫= qual with Some x => P x | None => false end) l.
Section Spec.
Context (pick : nat -> gset Z -> list Z) (G : geo).
(** Passes of the loop of heal_mesh. *)
Definition passes (limit : Q) : cfg -> cfg -> Prop := rtc (fun c c' => heal_step pick G limit c = inl c').
(** Element [i] was checked in some pass; nothing was done, and it has not changed since. *)
Definition checked (limit : Q) (c0 c : cfg) (i : Z) : Prop :=
  exists q1 m1 s1 q2 s2, passes limit c0 (q1, m1, s1) /\ rev m1 ++ q1 = i :: q2 /\
    heal_step pick G limit (q1, m1, s1) = inl (q2, [], s2) /\ els s2 = els s1 /\ nodes s2 = nodes s1 /\
    passes limit (q2, [], s2) c /\ snap (snd c) i = snap s1 i.
(** The caller moves existing nodes only. *)
Definition legal (o : op) (s : st) : Prop := match o with OMoveNode n _ => is_Some (nodes s !! n) | _ => True end.
Fixpoint legal_run (os : list op) (s : st) : Prop :=
  match os with [] => True | o :: os => legal o s /\ legal_run os (step pick G o s) end.
(** Edge numbers are in range. *)
Definition sensible : Prop := forall k ps j, g_short G k ps = Some j -> (j < length (edges_of (length ps)))%nat.
(** States reached from a mesh whose elements use nodes of the mesh. *)
Definition reached (s : st) : Prop :=
  exists ns es tol s0 t os, closed ns es /\ init ns es tol = Some (s0, t) /\ legal_run os s0 /\ s = run pick G os s0.
End Spec.
(** Distance of [p] from the plane through [a], [b], [c] and from the line through [a] and [b]. *)
Definition dist_plane (p a b c : pt) : R :=
  (Rabs (Q2R (dot (minus p a) (cross (minus b a) (minus c a)))) / norm (cross (minus b a) (minus c a)))%R.
Definition dist_line (p a b : pt) : R := (norm (cross (minus p a) (minus b a)) / norm (minus b a))%R.
(** The altitudes of a triangle and of a tetrahedron. *)
Definition altitudes (ps : list pt) : list R :=
  match ps with
  | [a; b; c] => [dist_line a b c; dist_line b c a; dist_line c a b]
  | [a; b; c; d] => [dist_plane a b c d; dist_plane b c d a; dist_plane c d a b; dist_plane d a b c]
  | _ => []
  end.
(** [x] is the least (greatest) number of [l]. *)
Definition least (x : R) (l : list R) : Prop := x ∈ l /\ Forall (fun y => x <= y)%R l.
Definition greatest (x : R) (l : list R) : Prop := x ∈ l /\ Forall (fun y => y <= x)%R l.
(** The sum over the edges of the tetrahedron of the squared length times the areas of
    the two faces that meet in the edge. *)
Definition right_pairs (areas lens : nat -> R) : R :=
  foldr Rplus 0%R (imap (fun k e => foldr Rmult (lens k * lens k)%R
    (map (fun i => areas i) (List.filter (fun i => match vtxs_faces !! i with Some f => bool_decide (edge_in_face e f) | None => false end) [0; 1; 2; 3]%nat)))
    (edges_of 4)).
