(** Vocabulary of C39: affine and bilinear combinations of points given by lists of
    coordinates, and what a BREP record of a spline means. *)
From Coq Require Import List Arith Reals.
From Verif Require Import Spline_Model Approx_Model.
Import ListNotations.
Open Scope R_scope.

Definition coord (p : list R) (j : nat) : R := nth j p 0.
(** q is the point of dimension d with the coordinates f. *)
Definition is_point (d : nat) (f : nat -> R) (q : list R) : Prop :=
  length q = d /\ forall j, (j < d)%nat -> coord q j = f j.

Definition on_line (a c : list R) (t : R) (j : nat) : R :=
  coord a j + t * (coord c j - coord a j).
Definition bilin (v0 v1 v2 v3 : list R) (u v : R) (j : nat) : R :=
  (1 - u) * (1 - v) * coord v0 j + u * (1 - v) * coord v1 j +
  u * v * coord v2 j + (1 - u) * v * coord v3 j.
Definition twist (v0 v1 v2 v3 : list R) (j : nat) : R :=
  coord v0 j - coord v1 j + coord v2 j - coord v3 j.

(** The spline with the data of a BREP record. *)
Definition spline_of (c : bcurve) : option curve :=
  match make_from_packed_knots (bc_degree c) (bc_knots c) with
  | Some b => make_curve b (bc_poles c) (bc_rational c)
  | None => None
  end.
Definition surface_of (s : bsurf) : option surface :=
  match make_from_packed_knots (fst (bs_degree s)) (bs_uknots s),
        make_from_packed_knots (snd (bs_degree s)) (bs_vknots s) with
  | Some ub, Some vb => make_surface ub vb (bs_poles s) (bs_rational s)
  | _, _ => None
  end.
