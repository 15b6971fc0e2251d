(** Model of shapes of tetrahedra: src/bgem/gmsh/heal_mesh.py lines 20-28, 54-69, 79-83, 95-107, 122-128, 144-148.

    Numbers are reals. The values kept in fields are not modelled, the nodes of a shape do not change. *)
From Coq Require Import List Reals.
From Verif Require Import Spline_Model.
Import ListNotations.
Local Open Scope R_scope.

(** Rows of the array of nodes, heal_mesh.py line 61. *)
Definition vec : Type := R * R * R.
(** Difference of rows, heal_mesh.py lines 21, 68, 123, 127, 147. *)
Definition minus (p q : vec) : vec := let '(x, y, z) := p in let '(x', y', z') := q in (x - x', y - y', z - z').
(** np.cross, heal_mesh.py lines 125, 147. *)
Definition cross (p q : vec) : vec := let '(x, y, z) := p in let '(x', y', z') := q in (y * z' - z * y', z * x' - x * z', x * y' - y * x').
(** Product of rows, heal_mesh.py line 127. *)
Definition dot (p q : vec) : R := let '(x, y, z) := p in let '(x', y', z') := q in x * x' + y * y' + z * z'.
(** np.linalg.norm, heal_mesh.py lines 27, 126, 147. *)
Definition norm (p : vec) : R := sqrt (dot p p).
(** Division of a row by a number, heal_mesh.py line 126. *)
Definition over (p : vec) (a : R) : vec := let '(x, y, z) := p in (x / a, y / a, z / a).
(** Tetrahedron.vtxs_faces, heal_mesh.py line 55. *)
Definition vtxs_faces : list (nat * nat * nat) := [(0, 1, 2); (0, 3, 1); (0, 2, 3); (1, 3, 2)]%nat.
(** Tetrahedron.edges, heal_mesh.py line 58. *)
Definition edges : list (nat * nat) := [(0, 1); (0, 2); (0, 3); (2, 3); (1, 3); (1, 2)]%nat.
(** edge_lens, heal_mesh.py lines 18-28. *)
Definition edge_lens (n : nat -> vec) : list R := map (fun '(a, b) => norm (minus (n b) (n a))) edges.
(** Triangle.measure, heal_mesh.py lines 144-148. *)
Definition tria_measure (a b c : vec) : R := norm (cross (minus c a) (minus b a)) / 2.
(** face_areas, heal_mesh.py lines 79-83. *)
Definition face_areas (n : nat -> vec) : list R := map (fun '(i, j, k) => tria_measure (n i) (n j) (n k)) vtxs_faces.
(** Tetrahedron.measure, heal_mesh.py lines 65-69. *)
Definition measure (n : nat -> vec) : R := dot (minus (n 1%nat) (n 0%nat)) (cross (minus (n 2%nat) (n 0%nat)) (minus (n 3%nat) (n 0%nat))) / 6.
(** The product of heal_mesh.py line 103. *)
Definition x_area (a b c A B C : R) : R := (a * A + b * B + c * C) * (a * A + b * B - c * C) * (a * A - b * B + c * C) * (- a * A + b * B + c * C).
(** max(1e-300, x), heal_mesh.py lines 105-106. *)
Definition at_least (x : R) : R := Rmax (/ 10 ^ 300) x.
(** Tetrahedron.gmsh_gamma, heal_mesh.py lines 95-107; None is the failed assertion of line 104. *)
Definition gmsh_gamma (n : nat -> vec) : option R :=
  let V := Rabs (measure n) in
  let r := 3 * V / fold_right Rplus 0 (face_areas n) in
  match edge_lens n with
  | [a; b; c; A; B; C] =>
    if Rltb 0 (x_area a b c A B C)
    then Some (3 * r / at_least (sqrt (x_area a b c A B C) / 24 / at_least V))
    else None
  | _ => None
  end.
(** skew_line_dist, heal_mesh.py lines 122-128; None: parallel edges, the division of line 126 gives no numbers. *)
Definition skew_line_dist (n : nat -> vec) : option (R * vec) :=
  let N := cross (minus (n 1%nat) (n 0%nat)) (minus (n 3%nat) (n 2%nat)) in
  if Reqb (norm N) 0 then None
  else let u := over N (norm N) in Some (dot u (minus (n 0%nat) (n 2%nat)), u).
