(** Words of the statements about intersections of spline surfaces. *)
From Coq Require Import List ZArith Reals.
From Verif Require Import Spline_Model Spline_Spec Spline_Proofs.
Import ListNotations.
Local Open Scope R_scope.

(** A basis of degree 2 made by the constructor none of whose intervals is empty. *)
Record cells_basis (b : basis) : Prop := {
  cb_valid : valid_basis b; cb_deg : degree b = 2%nat;
  cb_strict : forall i, (i < n_intervals b)%nat -> kn (knots b) (i + 2) < kn (knots b) (i + 3) }.
(** t lies in the closed interval number i. *)
Definition in_cell (b : basis) (i : nat) (t : R) : Prop :=
  (i < n_intervals b)%nat /\ kn (knots b) (i + 2) <= t <= kn (knots b) (i + 3).
(** t lies in the domain. *)
Definition in_dom (b : basis) (t : R) : Prop := dom0 b <= t <= dom1 b.
(** The array of poles has the shape that the bases want, with d columns. *)
Definition shaped (s : surface) (d : nat) : Prop :=
  length (s_poles s) = size (u_basis s) /\
  forall r, In r (s_poles s) -> length r = size (v_basis s) /\ forall p, In p r -> length p = d.
Definition shaped_curve (c : curve) (d : nat) : Prop :=
  length (c_poles c) = size (c_basis c) /\ forall p, In p (c_poles c) -> length p = d.
(** A surface, a curve of degree 2 in d-dimensional space. *)
Definition plain (s : surface) (d : nat) : Prop :=
  cells_basis (u_basis s) /\ cells_basis (v_basis s) /\ s_rational s = false /\ shaped s d.
Definition plain_curve (c : curve) (d : nat) : Prop :=
  cells_basis (c_basis c) /\ c_rational c = false /\ shaped_curve c d.
(** Coordinate j of a computed point, only used where the computation succeeds. *)
Definition coord (o : option (list R)) (j : nat) : R := match o with Some x => nth j x 0 | None => 0 end.
(** The distance of two points. *)
Definition distance (x y : list R) : R := sqrt (rsum (length x) (fun j => (nth j x 0 - nth j y 0) ^ 2)).
(** The point in the middle. *)
Definition middle_of (x y m : list R) : Prop :=
  length m = length x /\ forall j, nth j m 0 = (nth j x 0 + nth j y 0) / 2.
(** The determinant of a matrix of three columns. *)
Definition det (J : list (list R)) : R :=
  let a i j := nth j (nth i J []) 0 in
  a 0%nat 0%nat * (a 1%nat 1%nat * a 2%nat 2%nat - a 1%nat 2%nat * a 2%nat 1%nat) - a 1%nat 0%nat * (a 0%nat 1%nat * a 2%nat 2%nat - a 0%nat 2%nat * a 2%nat 1%nat) +
  a 2%nat 0%nat * (a 0%nat 1%nat * a 1%nat 2%nat - a 0%nat 2%nat * a 1%nat 1%nat).
(** Coordinate j of the product of a matrix of three columns and a vector. *)
Definition product (J : list (list R)) (x y z : R) (j : nat) : R := nth j (nth 0 J []) 0 * x + nth j (nth 1 J []) 0 * y + nth j (nth 2 J []) 0 * z.
(** A solver of systems that only fails for singular matrices. *)
Definition exact_solver (solve : list (list R) -> list R -> option (R * R * R)) : Prop :=
  forall J d, det J <> 0 -> exists x y z, solve J d = Some (x, y, z) /\ forall j, (j < 3)%nat -> product J x y z j = nth j d 0.
(** Coordinates of surface and curve are affine functions of the parameters in the cells. *)
Definition flat (s : surface) (iu iv : nat) (a p q : nat -> R) : Prop :=
  forall u v, in_cell (u_basis s) iu u -> in_cell (v_basis s) iv v -> forall j, (j < 3)%nat -> coord (surface_eval s u v) j = a j + p j * u + q j * v.
Definition straight (c : curve) (it : nat) (e r : nat -> R) : Prop :=
  forall t, in_cell (c_basis c) it t -> forall j, (j < 3)%nat -> coord (curve_eval c t) j = e j + r j * t.
