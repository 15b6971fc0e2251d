(** Model of adding a line to a PolygonDecomposition: src/bgem/polygons/polygons.py lines 443-502, 563-605.

    The new line is led through vertices that are close to it (a recursive call for each of both parts), otherwise it is
    cut where it crosses segments, and the segments there are split. The order in which Python walks through a set of
    points is a parameter, as is the test of merge_points whether a point can move (Editor_Model). The depth of
    recursion is a number: 0 stands for RecursionError. *)
From stdpp Require Import gmap list.
From Coq Require Import QArith Qminmax.
From Verif Require Import Decomp_Model Aabb_Model Geom_Model Editor_Model Snap_Model.
Local Open Scope nat_scope.

(** The call of seg_intersection, polygons.py lines 578-579; lines 722-753 are Geom_Model.seg_intersection. *)
Definition crossing (g : nat) (xa xb : vect) : E (option (Q * Q)) :=
  v <% item (fun s => vec s !! g) ; a <% end_at (g, false) ; o <% xy_at a ; eret (seg_intersection v o xa xb).
(** line_division[t1] = ..., polygons.py line 584: the dictionary as the list of its items in the order of line 592. *)
Fixpoint put (t : Q) (m : nat) (l : list (Q * nat)) : list (Q * nat) :=
  match l with
  | [] => [(t, m)]
  | (u, k) :: r => if Qeq_bool t u then (u, m) :: r else if Qle_bool t u then (t, m) :: (u, k) :: r else (u, k) :: put t m r
  end.
(** The loop of _add_line_seg_intersections, polygons.py lines 577-584. *)
Fixpoint cut_all (xa xb : vect) (l : list nat) (div : list (Q * nat)) : E (list (Q * nat)) :=
  match l with
  | [] => eret div
  | g :: l =>
    c <% crossing g xa xb ;
    match c with
    | None => cut_all xa xb l div
    | Some (t0, t1) => m <% point_on_segment g t0 ; cut_all xa xb l (put t1 m div)
    end
  end.
(** The query of the table of boxes, polygons.py lines 480-481, 575-576. *)
Definition around (xa xb : vect) : E (list nat) := fun d =>
  match make_aabb [xa; xb] (tolerance d) with Some q => (Ok (intersect_candidates (s_boxes d) q), d) | None => (Raise, d) end.
(** _add_line_seg_intersections, polygons.py lines 563-585. *)
Definition line_isecs (a b : nat) : E (list (Q * nat)) :=
  xa <% xy_at a ; xb <% xy_at b ; l <% around xa xb ; cut_all xa xb l [].
(** vtxs of the candidates, polygons.py line 482. *)
Fixpoint seg_ends (l : list nat) : E (list nat) :=
  match l with
  | [] => eret []
  | g :: l => p <% end_at (g, false) ; q <% end_at (g, true) ; r <% seg_ends l ; eret (p :: q :: r)
  end.
(** The loop over vertices, polygons.py lines 485-490. *)
Fixpoint first_near (tol : Q) (xa xb : vect) (l : list nat) (s : st) : Decomp_Model.res (option nat) :=
  match l with
  | [] => Ok None
  | p :: l =>
    match points s !! p, project (vminus xb xa) xa (match points s !! p with Some x => xy x | None => xa end) with
    | Some x, Some t => if below (norm2 (vminus (xy x) (parametric (vminus xb xa) xa t))) tol then Ok (Some p) else first_near tol xa xb l s
    | _, _ => Raise
    end
  end.

Section Line.
Context (K : geometry) (can : ed -> nat -> vect -> bool) (order : list nat -> list nat).
(** _add_line_new_segments, polygons.py lines 587-605; the segments that line 502 takes. *)
Fixpoint new_segs (start b : nat) (div : list (Q * nat)) : E (list nat) :=
  match div with
  | [] => if start =? b then eret [] else (g <% add_segment K start b ; eret [g])
  | (_, m) :: r =>
    if start =? m then new_segs start b r
    else
      x <% xy_at start ; y <% xy_at m ;
      (fun d => if below (norm2 (vminus x y)) (tolerance d) then (p <% merge_points K can start m ; new_segs p b r) d
                else (g <% add_segment K start m ; l <% new_segs m b r ; eret (g :: l)) d)
  end.
(** add_line_for_points, polygons.py lines 464-502. *)
Fixpoint line_for_points (n : nat) (omit : list nat) (a b : nat) : E (list nat) :=
  match n with
  | 0 => eraise
  | S n =>
    if a =? b then eret [] else
    xa <% xy_at a ; xb <% xy_at b ; l <% around xa xb ; ps <% seg_ends l ;
    (fun d =>
     match first_near (tolerance d) xa xb (order (List.filter (fun p => negb (existsb (Nat.eqb p) omit)) ps)) (dec d) with
     | Ok (Some p) => (l1 <% line_for_points n (p :: omit) a p ; l2 <% line_for_points n (p :: omit) p b ; eret (l1 ++ l2)) d
     | Ok None => (div <% line_isecs a b ; new_segs a b div) d
     | Raise => (Raise, d)
     | Loop => (Loop, d)
     end)
  end.
(** What add_line returns: the point of lines 458-459, or a list of segments (polygons.py lines 458-461). *)
Inductive line_result := OnePoint (p : nat) | Segments (l : list nat).
(** add_line, polygons.py lines 443-461. *)
Definition add_line (inside : st -> nat -> vect -> bool) (root : Q -> Q) (n : nat) (xa xb : vect) : E line_result :=
  a <% add_point_impl K inside root xa ; b <% add_point_impl K inside root xb ;
  if a =? b then eret (OnePoint a) else (l <% line_for_points n [a; b] a b ; eret (Segments l)).
End Line.
