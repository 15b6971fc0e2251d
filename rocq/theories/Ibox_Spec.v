(** Words for boxes of pieces and patches. *)
From Coq Require Import List Arith Reals.
From Verif Require Import Spline_Model.
Import ListNotations.
Local Open Scope R_scope.

(** The poles that a piece of a curve and a patch of a surface depend on. *)
Definition piece_pole (c : curve) (it : nat) (p : list R) : Prop := exists r, (r < 3)%nat /\ p = nth (it + r) (c_poles c) [].
Definition patch_pole (s : surface) (iu iv : nat) (p : list R) : Prop := exists i k, (i < 3)%nat /\ (k < 3)%nat /\ p = nth (iv + k) (nth (iu + i) (s_poles s) []) [].
(** Point between two corners. *)
Definition inside (d : nat) (lo hi x : list R) : Prop := forall j, (j < d)%nat -> nth j lo 0 <= nth j x 0 <= nth j hi 0.
(** The smallest box around points. *)
Definition smallest (d : nat) (Q : list R -> Prop) (lo hi : list R) : Prop :=
  (forall p, Q p -> inside d lo hi p) /\ forall j, (j < d)%nat -> (exists p, Q p /\ nth j p 0 = nth j lo 0) /\ (exists p, Q p /\ nth j p 0 = nth j hi 0).
(** In each coordinate some point of Q is not above one of Q', and some not below. *)
Definition overlap (d : nat) (Q Q' : list R -> Prop) : Prop := forall j, (j < d)%nat ->
  (exists p p', Q p /\ Q' p' /\ nth j p 0 <= nth j p' 0) /\ (exists p p', Q p /\ Q' p' /\ nth j p' 0 <= nth j p 0).
