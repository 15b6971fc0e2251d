(** Specification of the box lookup: live objects of a history, geometry of
    boxes, Euclidean distance. *)
From Coq Require Import List QArith Qminmax.
From Verif Require Import Aabb_Model.
Import ListNotations.
Open Scope Q_scope.

(** Box of object id after a history (the last call about the id decides). *)
Fixpoint live (ops : list lop) (cur : nat -> option box) (id : nat) : option box :=
  match ops with
  | [] => cur id
  | LAdd i b :: ops' => live ops' (fun j => if Nat.eqb j i then Some b else cur j) id
  | LRm i :: ops' => live ops' (fun j => if Nat.eqb j i then None else cur j) id
  end.
Definition live_box (ops : list lop) (id : nat) : option box := live ops (fun _ => None) id.

(** Point in closed box. *)
Definition in_box (p : pt) (b : box) : Prop :=
  bx0 b <= fst p <= bx1 b /\ by0 b <= snd p <= by1 b.
(** A box with min <= max. *)
Definition proper (b : box) : Prop := bx0 b <= bx1 b /\ by0 b <= by1 b.
(** Two closed boxes have a common point. *)
Definition boxes_meet (a b : box) : Prop := exists p, in_box p a /\ in_box p b.
(** Box with some extent. *)
Definition fat (b : box) : Prop := bx0 b < bx1 b \/ by0 b < by1 b.
(** All coordinates bounded by m. *)
Definition bounded (m : Q) (b : box) : Prop :=
  (- m <= bx0 b /\ bx1 b <= m) /\ (- m <= by0 b /\ by1 b <= m).
Definition pt_bounded (m : Q) (p : pt) : Prop :=
  - m <= fst p <= m /\ - m <= snd p <= m.
(** Square of the Euclidean distance. *)
Definition dist2 (p q : pt) : Q :=
  (fst p - fst q) * (fst p - fst q) + (snd p - snd q) * (snd p - snd q).
(** The box contains the point with a margin m on every side. *)
Definition covers (b : box) (m : Q) (p : pt) : Prop :=
  bx0 b + m <= fst p <= bx1 b - m /\ by0 b + m <= snd p <= by1 b - m.
(** Margin asked for: non-positive values mean none. *)
Definition eff_margin (m : Q) : Q := Qmax 0 m.
