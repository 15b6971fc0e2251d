(** Model of what is read from the tree of wires: src/bgem/polygons/polygon.py lines 19-52, 172-177, 217-228 and polygons.py
    lines 258-297. Nothing is changed but the marks of child_wires, which get_childs resets; they are the set [passed].
    Walks over sets come in the order [order]. *)
From stdpp Require Import gmap list.
From Verif Require Import Decomp_Model.
Local Open Scope nat_scope.

(** The loop of Polygon.depth, polygon.py lines 28-33. *)
Fixpoint depth_from (n : nat) (w : nat) (s : st) : res nat :=
  match wires s !! w with
  | None => Raise
  | Some x =>
    match parent x with
    | None => Ok 0
    | Some q =>
      match n with
      | 0 => Loop
      | S n => match depth_from n q s with Ok k => Ok (S k) | r => r end
      end
    end
  end.
(** Polygon.depth, polygon.py lines 22-33. *)
Definition depth (g : nat) (s : st) : res nat :=
  match polys s !! g with None => Raise | Some p => depth_from (size (wires s)) (outer p) s end.
(** A list comprehension, polygon.py lines 43, 177. *)
Fixpoint each_of {A B} (f : A -> M B) (l : list A) : M (list B) :=
  match l with [] => ret [] | x :: l => b <~ f x ; r <~ each_of f l ; ret (b :: r) end.
(** Polygon.vertices, polygon.py lines 35-43; for the root [wire_segments] answers no sides, as the test in line 41 does. *)
Definition vertices (g : nat) : M (list nat) :=
  p <~ get_poly g ; l <~ wire_segments (outer p) None None ; each_of get_vtx l.
(** Wire.neighbors, polygon.py lines 172-177. *)
Definition neighbors (w : nat) : M (list nat) :=
  l <~ wire_segments w None None ; each_of (fun h => get_label (flip h)) l.

Section Order.
Context (order : gset nat -> list nat).
(** The loop of child_wires over the childs, polygon.py lines 227-228. *)
Fixpoint walk_childs (f : nat -> gset nat -> res (list nat * gset nat)) (l : list nat) (passed : gset nat) : res (list nat * gset nat) :=
  match l with
  | [] => Ok ([], passed)
  | c :: l =>
    match f c passed with
    | Ok (a, passed) => match walk_childs f l passed with Ok (b, passed) => Ok (a ++ b, passed) | r => r end
    | r => r
    end
  end.
(** Wire.child_wires, polygon.py lines 217-228; a wire that was passed fails the assertion. *)
Fixpoint child_wires (n : nat) (s : st) (w : nat) (passed : gset nat) : res (list nat * gset nat) :=
  match wires s !! w with
  | None => Raise
  | Some x =>
    if decide (w ∈ passed) then Raise else
    match n with
    | 0 => Loop
    | S n =>
      match walk_childs (child_wires n s) (order (childs x)) ({[w]} ∪ passed) with
      | Ok (l, passed) => Ok (w :: l, passed)
      | r => r
      end
    end
  end.
(** The polygon of a wire if it is its outer wire, polygon.py lines 51-52. *)
Definition outer_here (s : st) (w : nat) : option nat :=
  g ← wires s !! w ≫= w_poly; p ← polys s !! g; if decide (outer p = w) then Some g else None.
(** get_childs, polygons.py lines 282-297, with Polygon.child_polygons, polygon.py lines 45-52. *)
Definition get_childs (g : nat) (s : st) : res (gset nat) :=
  match polys s !! g with
  | None => Raise
  | Some p =>
    match child_wires (size (wires s)) s (outer p) ∅ with
    | Ok (l, _) => Ok ({[g]} ∪ list_to_set (omap (outer_here s) l))
    | Raise => Raise
    | Loop => Loop
    end
  end.
End Order.
