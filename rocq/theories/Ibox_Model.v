(** Model of the boxes of pieces of curves and patches of surfaces: src/bgem/bspline/bspline.py lines 439-457, 591-629, and of the
    candidates that isec_surf_surf.py line 117 takes from them.

    bih.AABB is the smallest box around points, tree.find_box lists the boxes that meet the given one: the package bih is not part of the source. *)
From Coq Require Import List Arith Bool Reals.
From Verif Require Import Spline_Model Isec_Model.
Import ListNotations.
Local Open Scope R_scope.

(** A box: lower and upper corner; bih.AABB, bspline.py lines 446, 612. *)
Definition box : Type := list R * list R.
(** bih.AABB of points with d coordinates, bspline.py lines 446, 612. *)
Definition point_box (d : nat) (ps : list (list R)) : option box :=
  match all_some (map (fun j => amin (column j ps)) (seq 0 d)), all_some (map (fun j => amax (column j ps)) (seq 0 d)) with
  | Some lo, Some hi => Some (lo, hi)
  | _, _ => None
  end.
(** Curve.bounding_boxes, bspline.py lines 439-451. *)
Definition curve_boxes (c : curve) : option (list box) :=
  all_some (map (fun it => point_box (length (nth 0 (c_poles c) [])) (slice it 3 (c_poles c))) (seq 0 (n_intervals (c_basis c)))).
(** The poles of a patch, bspline.py lines 604-608. *)
Definition patch_poles (s : surface) (iu iv : nat) : list (list R) := concat (map (fun row => slice iv 3 row) (slice iu 3 (s_poles s))).
(** Surface.bounding_boxes, bspline.py lines 591-617; the array of line 600 takes poles of three columns and would repeat a single column, which is left out here. *)
Definition surface_boxes (s : surface) : option (list box) :=
  if (s_cols s =? 3)%nat
  then all_some (flat_map (fun iu => map (fun iv => point_box 3 (patch_poles s iu iv)) (seq 0 (n_intervals (v_basis s)))) (seq 0 (n_intervals (u_basis s))))
  else None.
(** Boxes meet in each of three coordinates; tree.find_box, isec_surf_surf.py line 117. *)
Definition meet (a b : box) : bool :=
  forallb (fun j => Rleb (nth j (fst a) 0) (nth j (snd b) 0) && Rleb (nth j (fst b) 0) (nth j (snd a) 0)) (seq 0 3).
(** tree2.find_box(curve.boxes[it]), isec_surf_surf.py line 117: the numbers of the boxes of the surface that meet the box of the piece. *)
Definition candidates (s : surface) (c : curve) (it : nat) : option (list nat) :=
  match curve_boxes c, surface_boxes s with
  | Some cb, Some sb =>
    match nth_error cb it with
    | Some b => Some (filter (fun id => match nth_error sb id with Some b' => meet b b' | None => false end) (seq 0 (length sb)))
    | None => None
    end
  | _, _ => None
  end.
