(** Words of the properties of SurfaceApprox: places in a parallelogram, sums of squares. Nothing of the model. *)
From Coq Require Import List Reals Sorted.
From Coquelicot Require Import Coquelicot.
From Verif Require Import Spline_Spec.
Import ListNotations.
Local Open Scope R_scope.

(** c1 + u (c2 - c1) + v (c0 - c1): u is counted along the side from c1 to c2, v along the side from c1 to c0. *)
Definition place (c0 c1 c2 : R * R) (u v : R) : R * R :=
  (fst c1 + u * (fst c2 - fst c1) + v * (fst c0 - fst c1), snd c1 + u * (snd c2 - snd c1) + v * (snd c0 - snd c1)).
(** The number is between 0 and 1, or misses it by less than e below, by at most e above. *)
Definition about_unit (e x : R) : Prop := - e < x <= 1 + e.
(** The point is in the parallelogram up to e. *)
Definition near (e : R) (c0 c1 c2 p : R * R) : Prop := exists u v, p = place c0 c1 c2 u v /\ about_unit e u /\ about_unit e v.
(** Nearest number between 0 and 1. *)
Definition nearest_unit (x y : R) : Prop := 0 <= y <= 1 /\ forall t, 0 <= t <= 1 -> Rabs (x - y) <= Rabs (x - t).
(** The rows of l with the numbers js. *)
Definition rows {A} (d : A) (l : list A) (js : list nat) : list A := map (fun j => nth j l d) js.
(** The numbers of exactly the rows with P, in order. *)
Definition chosen {A} (P : A -> Prop) (l : list A) (d : A) (js : list nat) : Prop :=
  StronglySorted lt js /\ forall j, In j js <-> (j < length l)%nat /\ P (nth j l d).

(** Numbers between 0 and 1. *)
Definition unit_range (t : R) : Prop := 0 <= t <= 1.
(** Du and Dv are the partial derivatives of f on the unit square (one-sided on its sides). *)
Definition gradient (f Du Dv : R -> R -> R) : Prop := forall u v, unit_range u -> unit_range v ->
  deriv_within unit_range (fun t => f t v) u (Du u v) /\ deriv_within unit_range (fun t => f u t) v (Dv u v).
(** r is the integral of the squared length of the gradient of f over the unit square. *)
Definition roughness (f : R -> R -> R) (r : R) : Prop := exists Du Dv rows, gradient f Du Dv /\
  (forall v, unit_range v -> is_RInt (fun u => Du u v * Du u v + Dv u v * Dv u v) 0 1 (rows v)) /\ is_RInt rows 0 1 r.
(** Sum of the squared differences of f and the data. *)
Fixpoint misfit (f : R -> R -> R) (uv : list (R * R)) (g : list R) : R :=
  match uv, g with
  | p :: uv, z :: g => (f (fst p) (snd p) - z) * (f (fst p) (snd p) - z) + misfit f uv g
  | _, _ => 0
  end.
(** x is the misfit of f plus lam times its roughness. *)
Definition penalised (lam : R) (uv : list (R * R)) (g : list R) (f : R -> R -> R) (x : R) : Prop :=
  exists r, roughness f r /\ x = misfit f uv g + lam * r.
