(** Model of snapping in PolygonDecomposition: src/bgem/polygons/polygons.py lines 320-347, 353-440, 541-560, 707-719.

    Lengths are square roots: a length is compared with the tolerance, or with another length, by comparing squares.
    The square root of line 400 is a parameter, as is the answer whether a wire that is not the root contains a place
    (polygon.py lines 188-194). Division by zero is an exception (numpy goes on with infinite values in line 403). *)
From stdpp Require Import gmap list.
From Coq Require Import QArith Qminmax.
From Verif Require Import Decomp_Model Aabb_Model Editor_Model.
Local Open Scope nat_scope.

(** Array.dot (polygons.py lines 716, 718). *)
Definition dot (a b : vect) : Q := (fst a * fst b + snd a * snd b)%Q.
(** Square of la.norm (polygons.py lines 354, 384). *)
Definition norm2 (a : vect) : Q := dot a a.
(** x < tolerance for a length x of square [q], polygons.py lines 373, 388. *)
Definition below (q tol : Q) : bool := negb (Qle_bool tol 0) && negb (Qle_bool (tol * tol) q).
(** t * x < tolerance for a length x of square [q], polygons.py lines 549, 552. *)
Definition below_part (t q tol : Q) : bool :=
  if Qle_bool tol 0 then negb (Qle_bool 0 t) && negb (Qle_bool (t * t * q) (tol * tol))
  else Qle_bool t 0 || negb (Qle_bool (tol * tol) (t * t * q)).
(** seg_project_point, polygons.py lines 707-719. *)
Definition project (v o z : vect) : option Q :=
  if Qeq_bool (norm2 v) 0 then None else Some (Qmin (Qmax (dot (vminus z o) v / norm2 v) 0) 1).
(** Segment.parametric, segment.py lines 74-76. *)
Definition parametric (v o : vect) (t : Q) : vect := (fst v * t + fst o, snd v * t + snd o)%Q.
(** What _snap_point returns, polygons.py lines 360-364. *)
Inductive snap := SPoint (p : nat) | SSegment (g : nat) (t : Q) | SPolygon (g : nat).
(** An entry of close_segments, polygons.py line 385; the square of the distance. *)
Record close := Close { c_d2 : Q; c_seg : nat; c_t : Q }.
(** close_segments.sort, polygons.py line 386 (equal distances stay in order). *)
Fixpoint insert_close (c : close) (l : list close) : list close :=
  match l with [] => [c] | x :: l => if Qle_bool (c_d2 c) (c_d2 x) then c :: x :: l else x :: insert_close c l end.
(** polygons.py line 386. *)
Fixpoint sort_close (l : list close) : list close := match l with [] => [] | c :: l => insert_close c (sort_close l) end.

Section Snap.
Context (K : geometry) (inside : st -> nat -> vect -> bool) (root : Q -> Q).
(** The loop over points, polygons.py lines 371-374. *)
Fixpoint first_point (tol : Q) (z : vect) (l : list nat) (s : st) : Decomp_Model.res (option nat) :=
  match l with
  | [] => Ok None
  | p :: l =>
    match points s !! p with
    | None => Raise
    | Some x => if below (norm2 (vminus (xy x) z)) tol then Ok (Some p) else first_point tol z l s
    end
  end.
(** One step of the loop over segments, polygons.py lines 382-385. *)
Definition close_to (z : vect) (g : nat) (s : st) : option close :=
  v ← vec s !! g; a ← vtx s !! (g, false); o ← xy <$> points s !! a; t ← project v o z;
  Some (Close (norm2 (vminus z (parametric v o t))) g t).
(** The loop over segments, polygons.py lines 381-385. *)
Fixpoint all_close (z : vect) (l : list nat) (s : st) : option (list close) :=
  match l with [] => Some [] | g :: l => c ← close_to z g s; r ← all_close z l s; Some (c :: r) end.
(** Polygon.contains_point, polygon.py lines 54-65; Wire.contains_point, lines 179-194. *)
Definition wire_holds (s : st) (w : nat) (z : vect) : bool :=
  match wires s !! w with Some x => match parent x with None => true | Some _ => inside s w z end | None => false end.
(** polygon.py lines 54-65. *)
Definition poly_holds (s : st) (g : nat) (z : vect) : bool :=
  match polys s !! g with
  | Some p => wire_holds s (outer p) z && match wires s !! outer p with Some x => forallb (fun w => negb (wire_holds s w z)) (elements (childs x)) | None => false end
  | None => false
  end.
(** The polygon next to the closest segment, polygons.py lines 414-434. *)
Definition next_to (c : close) (z : vect) : M nat :=
  let at_end p := x <~ get_pt p ; i <~ insert_vector K p (vminus z (xy x)) ; i <~ need (fun _ => i) ; wire_poly (snd i) in
  if Qeq_bool (c_t c) 0 then (p <~ get_vtx (c_seg c, false) ; at_end p)
  else if Qeq_bool (c_t c) 1 then (p <~ get_vtx (c_seg c, true) ; at_end p)
  else v <~ need (fun s => vec s !! c_seg c) ; a <~ get_vtx (c_seg c, false) ; x <~ get_pt a ;
       let n := dot (vminus z (xy x)) (snd v, - fst v)%Q in
       check (negb (Qeq_bool n 0)) ;~ (w <~ get_label (c_seg c, Qle_bool n 0) ; wire_poly w).
(** The last part of _snap_point, polygons.py lines 410-440; lines 436-439 end with an exception. *)
Definition snap_polygon (c : option close) (z : vect) : M snap :=
  match c with
  | None => fun s => (if bool_decide (vec s = ∅) then Ok (SPolygon 0) else Raise, s)
  | Some c => g <~ next_to c z ; (fun s => (if poly_holds s g z then Ok (SPolygon g) else Raise, s))
  end.
(** Start and vector of a segment (polygons.py lines 397-398). *)
Definition line_of (s : st) (g : nat) : option (vect * vect) := v ← vec s !! g; a ← vtx s !! (g, false); o ← xy <$> points s !! a; Some (o, v).
(** The parameter on the closest of two close segments, polygons.py lines 395-406. *)
Definition two (tol : Q) (a b : close) (z : vect) (s : st) : option Q :=
  '(xa, ua) ← line_of s (c_seg a); '(xb, ub) ← line_of s (c_seg b);
  let n := root (norm2 ub) in let nb : vect := (snd ub / n, - fst ub / n)%Q in
  let nb : vect := if Qle_bool 0 (dot nb (vminus z xb)) then nb else (- fst nb, - snd nb)%Q in
  if Qeq_bool (dot ua nb) 0 then None else
  let t := ((tol - dot (vminus xa xb) nb) / dot ua nb)%Q in
  let xt := parametric ua xa t in
  t' ← project ub xb xt;
  let far := (tol * (99 # 100))%Q in
  if Qle_bool (norm2 (vminus xt (parametric ub xb t'))) (far * far) then None else Some t.
(** _snap_point from the loop over segments on, polygons.py lines 376-440. *)
Definition snap_segment (z : vect) : E snap := fun d =>
  match closest_candidates (s_boxes d) z with
  | None => (Raise, d)
  | Some l =>
    match all_close z l (dec d) with
    | None => (Raise, d)
    | Some cs =>
      match List.filter (fun c => below (c_d2 c) (tolerance d)) (sort_close cs) with
      | [] => on_dec (snap_polygon (head (sort_close cs)) z) d
      | [c] => (Ok (SSegment (c_seg c) (c_t c)), d)
      | a :: b :: _ => match two (tolerance d) a b z (dec d) with Some t => (Ok (SSegment (c_seg a) t), d) | None => (Raise, d) end
      end
    end
  end.
(** _snap_point, polygons.py lines 356-440. *)
Definition snap_point (z : vect) : E snap := fun d =>
  match closest_candidates (p_boxes d) z with
  | None => (Raise, d)
  | Some l =>
    match first_point (tolerance d) z l (dec d) with
    | Ok (Some p) => (Ok (SPoint p), d)
    | Ok None => snap_segment z d
    | Raise => (Raise, d)
    | Loop => (Loop, d)
    end
  end.
(** _point_on_segment, polygons.py lines 541-560; the point. *)
Definition point_on_segment (g : nat) (t : Q) : E nat :=
  v <% item (fun s => vec s !! g) ; a <% end_at (g, false) ; b <% end_at (g, true) ; o <% xy_at a ;
  fun d =>
  if below_part t (norm2 v) (tolerance d) then (Ok a, d)
  else if below_part (1 - t) (norm2 v) (tolerance d) then (Ok b, d)
  else (m <% Editor_Model.add_point (parametric v o t) 0 ; split_seg g m ;% eret m) d.
(** _add_point_impl, polygons.py lines 324-347. *)
Definition add_point_impl (z : vect) : E nat :=
  r <% snap_point z ;
  match r with
  | SPoint p => eret p
  | SSegment g t => point_on_segment g t
  | SPolygon g => Editor_Model.add_point z g
  end.
End Snap.
