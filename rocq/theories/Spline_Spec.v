(** Specification vocabulary for the B-spline properties: sums, multiplicities,
    one-sided derivatives; none of it refers to the model. *)
From Coq Require Import List Arith Reals.
Import ListNotations.
Open Scope R_scope.

(** f 0 + ... + f (n-1). *)
Fixpoint rsum (n : nat) (f : nat -> R) : R :=
  match n with O => 0 | S m => rsum m f + f m end.

(** Non-decreasing sequence of numbers. *)
Definition nondecreasing (l : list R) : Prop :=
  forall i j, (i <= j)%nat -> (j < length l)%nat -> nth i l 0 <= nth j l 0.

(** Number of occurrences of a value. *)
Definition multiplicity (l : list R) (t : R) : nat := count_occ Req_EM_T l t.

(** Derivative of f at x when only arguments in D are used. *)
Definition deriv_within (D : R -> Prop) (f : R -> R) (x d : R) : Prop :=
  forall eps, 0 < eps -> exists delta, 0 < delta /\
    forall y, D y -> y <> x -> Rabs (y - x) < delta ->
      Rabs ((f y - f x) / (y - x) - d) < eps.

(** Value of a partial computation, only used where the computation succeeds. *)
Definition value_of (o : option R) : R := match o with Some x => x | None => 0 end.
Definition succeeds {A} (o : option A) : Prop := exists x, o = Some x.
