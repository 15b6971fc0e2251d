(** Model of the planar geometry used by the polygon decomposition:
    src/bgem/polygons/polygons.py (seg_project_point, seg_intersection),
    segment.py (is_on_x_line), polygon.py (Wire.contains_point, contains_wire).
    Coordinates are exact rationals; rounding is not modelled. *)
From Coq Require Import List QArith Qminmax Bool Arith.
From Verif Require Import Aabb_Model.
Import ListNotations.
Open Scope Q_scope.

(** Differences of points, polygons.py lines 714-715, 732-733. *)
Definition vsub (a b : pt) : pt := (fst a - fst b, snd a - snd b).
(** np.dot of vectors, polygons.py lines 716, 718. *)
Definition vdot (a b : pt) : Q := fst a * fst b + snd a * snd b.

(** PolygonDecomposition.seg_project_point, polygons.py lines 707-719. None is
    the AssertionError of line 717. *)
Definition seg_project_point (seg_vec seg_out_xy p : pt) : option Q :=
  let ax := vsub p seg_out_xy in
  let dxy2 := vdot seg_vec seg_vec in
  if Qeq_bool dxy2 0 then None
  else let t := vdot ax seg_vec / dxy2 in
       Some (Qmin (Qmax t 0) 1).

(** eps of polygons.py line 743. *)
Definition isec_eps : Q := 1 # 10000000000.
(** The comparison < of polygons.py line 749. *)
Definition Qlt_bool (a b : Q) : bool := negb (Qle_bool b a).
(** polygons.py line 749. *)
Definition inner_param (t : Q) : bool :=
  Qlt_bool (0 + isec_eps) t && Qlt_bool t (1 - isec_eps).

(** PolygonDecomposition.seg_intersection, polygons.py lines 722-753; vector and
    vtx0 are those of the segment. numpy's solve of the 2x2 system is Cramer's
    rule; LinAlgError (determinant 0) gives (None, None), here None. *)
Definition seg_intersection (vector vtx0 a b : pt) : option (Q * Q) :=
  let w := vsub a b in
  let r := vsub a vtx0 in
  let det := fst vector * snd w - snd vector * fst w in
  if Qeq_bool det 0 then None
  else
    let t0 := (fst r * snd w - snd r * fst w) / det in
    let t1 := (fst vector * snd r - snd vector * fst r) / det in
    if inner_param t0 && inner_param t1 then Some (t0, t1) else None.

(** min_max of segment.py lines 213-217. *)
Definition min_max (a b : Q) : Q * Q := if Qlt_bool b a then (b, a) else (a, b).

(** Segment.is_on_x_line, segment.py lines 185-237; v0, v1 are vtxs[out_vtx].xy
    and vtxs[in_vtx].xy. *)
Definition is_on_x_line (v0 v1 : pt) (xy : pt) : bool :=
  let (min_y, max_y) := min_max (snd v0) (snd v1) in
  let (x, y) := xy in
  if Qle_bool min_y y && Qlt_bool y max_y then
    let (min_x, max_x) := min_max (fst v0) (fst v1) in
    if Qlt_bool x min_x then true
    else if Qlt_bool max_x x then false
    else
      let is_on_line := Qlt_bool ((x - fst v0) * (snd v1 - snd v0))
                                 ((y - snd v0) * (fst v1 - fst v0)) in
      if Qlt_bool (snd v1) (snd v0) then negb is_on_line else is_on_line
  else false.

(** A segment given by its end points (vtxs[out_vtx].xy, vtxs[in_vtx].xy). *)
(** segment.py lines 11-20. *)
Definition gseg := (pt * pt)%type.

(** Number of crossings, polygon.py lines 188-190; the list holds the segment of
    each (segment, side) yielded by Wire.segments. *)
Fixpoint n_isec (segs : list gseg) (xy : pt) : nat :=
  match segs with
  | [] => 0%nat
  | s :: segs' => ((if is_on_x_line (fst s) (snd s) xy then 1 else 0) + n_isec segs' xy)%nat
  end.

(** Wire.contains_point, polygon.py lines 179-194, of a non-root wire. *)
Definition contains_point (segs : list gseg) (xy : pt) : bool := Nat.odd (n_isec segs xy).

(** The test point of Wire.contains_wire, polygon.py lines 206-214: middle of the
    segment of the other wire moved by eps * normal to the given side (side 0 is
    right_side). *)
Definition inner_point (s : gseg) (side : nat) : pt :=
  let tang := vsub (snd s) (fst s) in
  let norm := (- snd tang, fst tang) in
  let norm := if Nat.eqb side 0 then (- fst norm, - snd norm) else norm in
  (fst (fst s) + (1 # 2) * fst tang + isec_eps * fst norm,
   snd (fst s) + (1 # 2) * snd tang + isec_eps * snd norm).

(** Wire.contains_wire, polygon.py lines 196-215, both wires not root. *)
Definition contains_wire (segs : list gseg) (other : gseg) (side : nat) : bool :=
  contains_point segs (inner_point other side).
