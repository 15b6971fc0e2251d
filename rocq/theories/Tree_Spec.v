(** What is claimed about reading the tree of wires. *)
From stdpp Require Import gmap list relations.
From Verif Require Import Decomp_Model.
Local Open Scope nat_scope.

(** Polygon [g] lies directly in polygon [g']: its outer wire lies in a hole of [g']. *)
Definition lies_in (s : st) (g g' : nat) : Prop := exists p o x h y, polys s !! g = Some p /\ outer p = o /\ wires s !! o = Some x /\ parent x = Some h /\
  wires s !! h = Some y /\ w_poly y = Some g'.
(** [x] is below [w] in the tree of wires, or is [w]. *)
Definition below (s : st) (x w : nat) : Prop := rtc (fun c q => exists y, wires s !! c = Some y /\ parent y = Some q) x w.
(** Points one after the other are joined by a segment, the last with the first: side [S i] of [hs] goes from point [i] of [l] to point [S i]. *)
Definition closed_walk (s : st) (hs : list he) (l : list nat) : Prop := length l = length hs /\ forall i, i < length l -> exists p q h,
  l !! i = Some p /\ l !! (S i mod length l) = Some q /\ hs !! (S i mod length l) = Some h /\ vtx s !! flip h = Some p /\ vtx s !! h = Some q.
(** Each side of [hs] is followed by its next side, the last by the first; the first is the one at which the wire [w] is held. *)
Definition round (s : st) (w : nat) (hs : list he) : Prop := (exists x, wires s !! w = Some x /\ w_seg x = head hs) /\
  forall i h, hs !! i = Some h -> exists h', nxt s !! h = Some h' /\ hs !! (S i mod length hs) = Some h'.
