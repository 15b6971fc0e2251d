(** Model of the operations of PolygonDecomposition that change its state, src/bgem/polygons/polygons.py lines 61-68,
    246-255, 504-531, 609-683: the decomposition together with its two tables of boxes, and the undo part of
    each operation.

    Points, segments and polygons are their ids, as in Decomp_Model. An operation that returns appends its undo part to
    the stack; what the undo part needs from objects that are no longer in the decomposition is kept with it: the
    coordinates and the polygon of a removed point, the list vtxs of a removed segment (a cell, since merge_points
    writes to it). Redo and groups of actions are in Undo_Model. Attributes (set_attr) are not modelled; the test of
    merge_points whether the point can move, which reads them, is a parameter. *)
From stdpp Require Import gmap list.
From Coq Require Import QArith.
From Verif Require Import Decomp_Model Aabb_Model.
Local Open Scope nat_scope.

(** What is left to do of a generator after its yield, polygons.py lines 632, 642, 651, 660, 672, 683. *)
Inductive undo_part :=
  | UnAddPoint (p : nat) | UnAddSegment (g : nat) | UnRmPoint (v : vect) (g : nat) | UnRmSegment (cell : nat)
  | UnSplit (mid e n : nat) | UnJoin (mid e : nat).
(** PolygonDecomposition, polygons.py lines 61-68, with the stack of undo.py line 198 (last action first) and the lists
    vtxs of removed segments (segment.py line 13). *)
Record ed := Ed { dec : st; p_boxes : lookup; s_boxes : lookup; tolerance : Q; stack : list undo_part; cells : list (nat * nat) }.
(** __init__, polygons.py lines 61-68; aabb_lookup.py line 29. *)
Definition ed_init (tol : Q) : ed := Ed init (lookup_init (inject_Z (10 ^ 50)) 128) (lookup_init (inject_Z (10 ^ 50)) 128) tol [] [].
(** Assignments: to the decomposition, polygons.py lines 628, 638, 648, 657, 666, 680. *)
Definition set_dec x d := Ed x (p_boxes d) (s_boxes d) (tolerance d) (stack d) (cells d).
(** polygons.py lines 629, 647. *)
Definition set_p_boxes x d := Ed (dec d) x (s_boxes d) (tolerance d) (stack d) (cells d).
(** polygons.py lines 639, 656, 667, 679. *)
Definition set_s_boxes x d := Ed (dec d) (p_boxes d) x (tolerance d) (stack d) (cells d).
(** undo.py lines 83-92. *)
Definition set_stack x d := Ed (dec d) (p_boxes d) (s_boxes d) (tolerance d) x (cells d).
(** polygons.py line 525. *)
Definition set_cells x d := Ed (dec d) (p_boxes d) (s_boxes d) (tolerance d) (stack d) x.

(** A call (polygons.py lines 246-702). *)
Definition E (A : Type) : Type := ed -> Decomp_Model.res A * ed.
(** return (polygons.py lines 246-702). *)
Definition eret {A} (a : A) : E A := fun d => (Ok a, d).
(** An exception (polygons.py lines 246-702). *)
Definition eraise {A} : E A := fun d => (Raise, d).
(** Statements in sequence (polygons.py lines 246-702). *)
Definition ebind {A B} (m : E A) (f : A -> E B) : E B := fun d =>
  match m d with
  | (Ok a, d) => f a d
  | (Raise, d) => (Raise, d)
  | (Loop, d) => (Loop, d)
  end.
Notation "x <% m ; f" := (ebind m (fun x => f)) (at level 100, m at next level, right associativity).
Notation "m ;% f" := (ebind m (fun _ => f)) (at level 100, right associativity).
(** An operation of the decomposition (polygons.py lines 628, 638, 648, 657, 666, 680). *)
Definition on_dec {A} (m : M A) : E A := fun d => let '(r, s) := m (dec d) in (r, set_dec s d).
(** An item of an IdMap, KeyError if it is not there (polygons.py lines 627, 636, 637, 646, 655, 664, 665, 676-678). *)
Definition item {A} (f : st -> option A) : E A := fun d => match f (dec d) with Some a => (Ok a, d) | None => (Raise, d) end.
(** make_aabb and add_object for points, polygons.py line 629. *)
Definition add_p_box (i : nat) (l : list pt) : E unit := fun d =>
  match make_aabb l (tolerance d) with
  | Some b => match add_object (p_boxes d) i b with Some t => (Ok tt, set_p_boxes t d) | None => (Loop, d) end
  | None => (Raise, d)
  end.
(** The same for segments, polygons.py lines 639, 667-669. *)
Definition add_s_box (i : nat) (l : list pt) : E unit := fun d =>
  match make_aabb l (tolerance d) with
  | Some b => match add_object (s_boxes d) i b with Some t => (Ok tt, set_s_boxes t d) | None => (Loop, d) end
  | None => (Raise, d)
  end.
(** rm_object, polygons.py line 647. *)
Definition rm_p_box (i : nat) : E unit := fun d => match rm_object (p_boxes d) i with Some t => (Ok tt, set_p_boxes t d) | None => (Raise, d) end.
(** rm_object, polygons.py lines 656, 679. *)
Definition rm_s_box (i : nat) : E unit := fun d => match rm_object (s_boxes d) i with Some t => (Ok tt, set_s_boxes t d) | None => (Raise, d) end.
(** The action is done, undo.py lines 83-92. *)
Definition push (u : undo_part) : E unit := fun d => (Ok tt, set_stack (u :: stack d) d).
(** Coordinates of a point (polygons.py lines 629, 639, 668). *)
Definition xy_at (p : nat) : E vect := item (fun s => xy <$> points s !! p).
(** seg.vtxs[side] (polygons.py lines 660, 668). *)
Definition end_at (h : he) : E nat := item (fun s => vtx s !! h).

(** * The operations *)
Section Editor.
Context (K : geometry).
(** _add_point, polygons.py lines 625-632, up to the yield. *)
Definition add_point (v : vect) (g : nat) : E nat :=
  item (fun s => polys s !! g) ;%
  (p <% on_dec (add_free_point v g) ; x <% xy_at p ; add_p_box p [x] ;% push (UnAddPoint p) ;% eret p).
(** _add_segment, polygons.py lines 634-642, up to the yield. *)
Definition add_segment (a b : nat) : E nat :=
  item (fun s => points s !! a) ;% (item (fun s => points s !! b) ;%
  (g <% on_dec (new_segment K a b) ; x <% xy_at a ; y <% xy_at b ; add_s_box g [x; y] ;% push (UnAddSegment g) ;% eret g)).
(** _rm_point, polygons.py lines 644-651, up to the yield. *)
Definition rm_point (p : nat) : E unit :=
  x <% item (fun s => points s !! p) ; rm_p_box p ;% on_dec (remove_free_point p) ;%
  (g <% item (fun _ => p_poly x) ; push (UnRmPoint (xy x) g)).
(** _rm_segment, polygons.py lines 653-660, up to the yield; the number of the cell with its vtxs. *)
Definition rm_segment (g : nat) : E nat :=
  a <% end_at (g, false) ; b <% end_at (g, true) ; rm_s_box g ;% on_dec (delete_segment K g) ;%
  (fun d => (Ok (length (cells d)), set_stack (UnRmSegment (length (cells d)) :: stack d) (set_cells (cells d ++ [(a, b)]) d))).
(** _split_segment, polygons.py lines 662-672, up to the yield. *)
Definition split_seg (e mid : nat) : E nat :=
  item (fun s => vec s !! e) ;% (item (fun s => points s !! mid) ;%
  (n <% on_dec (split_segment e mid) ; a <% end_at (n, false) ; b <% end_at (n, true) ; x <% xy_at a ; y <% xy_at b ;
   add_s_box n [x; y] ;% push (UnSplit mid e n) ;% eret n)).
(** _join_segments, polygons.py lines 674-683, up to the yield. *)
Definition join_seg (mid e n : nat) : E nat :=
  item (fun s => points s !! mid) ;% (item (fun s => vec s !! e) ;% (item (fun s => vec s !! n) ;% (rm_s_box n ;%
  (on_dec (join_segments mid e n) ;% push (UnJoin mid e) ;% eret mid)))).
(** The rest of a generator; what it calls is not put on the stack (undo.py lines 58-65, 231-243). *)
Definition undo_of (u : undo_part) : E unit :=
  fun d =>
  let call {A} (m : E A) : Decomp_Model.res unit * ed :=
    let '(r, d') := m d in ((match r with Ok _ => Ok tt | Raise => Raise | Loop => Loop end), set_stack (stack d) d') in
  match u with
  | UnAddPoint p => call (rm_point p)
  | UnAddSegment g => call (rm_segment g)
  | UnRmPoint v g => call (add_point v g)
  | UnRmSegment c => match cells d !! c with Some (a, b) => call (add_segment a b) | None => (Raise, d) end
  | UnSplit mid e n => call (join_seg mid e n)
  | UnJoin mid e => call (split_seg e mid)
  end.
(** Stack.undo, undo.py lines 231-243, for a single action; an exception clears the stack (lines 238-240). *)
Definition undo : E unit := fun d =>
  match stack d with
  | u :: l => match undo_of u (set_stack l d) with (Raise, d') => (Raise, set_stack [] d') | x => x end
  | [] => (Ok tt, d)
  end.

(** * What is built of them *)
(** move_points, polygons.py lines 246-255. *)
Fixpoint move_points (l : list nat) (v : vect) : E unit :=
  match l with [] => eret tt | p :: l => on_dec (move p v) ;% move_points l v end.
(** delete_point, polygons.py lines 609-618. *)
Fixpoint rm_all (l : list he) : E unit := match l with [] => eret tt | h :: l => rm_segment (fst h) ;% rm_all l end.
(** delete_point, polygons.py lines 609-618. *)
Definition delete_point (p : nat) : E unit := l <% on_dec (point_segments p) ; rm_all l ;% rm_point p.
(** Writing to the list vtxs of a removed segment, polygons.py line 525. *)
Definition put_cell (c : nat) (side : bool) (a : nat) : E unit := fun d =>
  match cells d !! c with
  | Some (x, y) => (Ok tt, set_cells (<[c := if side then (x, a) else (a, y)]> (cells d)) d)
  | None => (Raise, d)
  end.
(** The loop of merge_points, polygons.py lines 522-526: segments at [b] go to [a]. *)
Fixpoint reattach (a : nat) (l : list he) : E unit :=
  match l with
  | [] => eret tt
  | h :: l => c <% rm_segment (fst h) ; put_cell c (snd h) a ;%
              (fun d => match cells d !! c with Some (x, y) => (add_segment x y ;% reattach a l) d | None => (Raise, d) end)
  end.
(** merge_points, polygons.py lines 504-531; [can] is the test of lines 518-519, which reads attributes and lengths. *)
Definition merge_points (can : ed -> nat -> vect -> bool) (a b : nat) : E nat :=
  let '(x, y) := if b <? a then (b, a) else (a, b) in
  vx <% xy_at x ; vy <% xy_at y ;
  (fun d => if can d y (vminus vx vy) then (l <% on_dec (point_segments y) ; reattach x l ;% rm_point y ;% eret x) d else (Ok b, d)).
End Editor.
