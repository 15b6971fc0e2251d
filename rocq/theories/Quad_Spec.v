(** A point with rational coordinates as a point of the real plane, for the properties of the quad. *)
From Coq Require Import QArith Reals Qreals.

Definition at_real (p : Q * Q) : R * R := (Q2R (fst p), Q2R (snd p)).
