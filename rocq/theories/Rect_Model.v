(** Model of min_bounding_rect: src/bgem/bspline/bspline_approx.py lines 172-238, over the reals. No coordinate is NaN. *)
From Coq Require Import List Reals.
Import ListNotations.
Local Open Scope R_scope.

(** Rows of hull, bspline_approx.py line 178. *)
Definition rpt : Type := R * R.
(** hull[1:] - hull[:-1], bspline_approx.py line 181. *)
Fixpoint edges (hull : list rpt) : list rpt :=
  match hull with
  | a :: (b :: _) as l => (fst b - fst a, snd b - snd a) :: edges l
  | _ => []
  end.
(** np.arctan2(y, x), bspline_approx.py line 184. *)
Definition arctan2 (y x : R) : R :=
  if Rlt_dec 0 x then atan (y / x)
  else if Rlt_dec x 0 then (if Rle_dec 0 y then atan (y / x) + PI else atan (y / x) - PI)
  else if Rlt_dec 0 y then PI / 2 else if Rlt_dec y 0 then - (PI / 2) else 0.
(** a % b of floats for b > 0, bspline_approx.py line 187. *)
Definition fmod (a b : R) : R := a - IZR (Int_part (a / b)) * b.
(** np.unique, bspline_approx.py line 190: sorted, each value once. *)
Fixpoint insert_unique (x : R) (l : list R) : list R :=
  match l with
  | [] => [x]
  | y :: l' => if Rlt_dec x y then x :: l else if Req_EM_T x y then l else y :: insert_unique x l'
  end.
(** np.unique, bspline_approx.py line 190. *)
Definition unique (l : list R) : list R := fold_right insert_unique [] l.
(** edge_angles, bspline_approx.py lines 184-190. *)
Definition edge_angles (hull : list rpt) : list R := unique (map (fun e => Rabs (fmod (arctan2 (snd e) (fst e)) (PI / 2))) (edges hull)).
(** A column of np.dot(R, hull.T), bspline_approx.py lines 200-204. *)
Definition rot (angle : R) (p : rpt) : rpt :=
  (cos angle * fst p + cos (angle - PI / 2) * snd p, cos (angle + PI / 2) * fst p + cos angle * snd p).
(** np.dot(p, R), bspline_approx.py lines 221-222, 233-236. *)
Definition rot_back (angle : R) (p : rpt) : rpt :=
  (fst p * cos angle + snd p * cos (angle + PI / 2), fst p * cos (angle - PI / 2) + snd p * cos angle).
(** np.nanmin and np.nanmax of a row, bspline_approx.py lines 207-210; None is the ValueError for no points. *)
Definition least (f : R -> R -> R) (l : list R) : option R := match l with [] => None | x :: l => Some (fold_left f l x) end.
(** min_bbox, bspline_approx.py lines 193, 217: angle, area (None is inf), min_x, max_x, min_y, max_y. *)
Record bbox := BBox { b_angle : R; b_area : option R; min_x : R; max_x : R; min_y : R; max_y : R }.
(** Body of the loop, bspline_approx.py lines 199-217. *)
Definition try_angle (hull : list rpt) (b : bbox) (angle : R) : option bbox :=
  let l := map (rot angle) hull in
  match least Rmin (map fst l), least Rmax (map fst l), least Rmin (map snd l), least Rmax (map snd l) with
  | Some x0, Some x1, Some y0, Some y1 =>
    let area := (x1 - x0) * (y1 - y0) in
    let new := BBox angle (Some area) x0 x1 y0 y1 in
    match b_area b with
    | None => Some new
    | Some old => if Rlt_dec area old then Some new else Some b
    end
  | _, _, _, _ => None
  end.
(** The loop, bspline_approx.py lines 194-217. *)
Fixpoint try_angles (hull : list rpt) (b : bbox) (l : list R) : option bbox :=
  match l with
  | [] => Some b
  | a :: l => match try_angle hull b a with Some b => try_angles hull b l | None => None end
  end.
(** min_bounding_rect, bspline_approx.py lines 172-238. *)
Definition min_bounding_rect (hull : list rpt) : option (rpt * rpt * rpt * rpt) :=
  match try_angles hull (BBox 0 None 0 0 0 0) (edge_angles hull) with
  | None => None
  | Some b => let back := rot_back (b_angle b) in
    Some (back (min_x b, max_y b), back (min_x b, min_y b), back (max_x b, min_y b), back (max_x b, max_y b))
  end.
