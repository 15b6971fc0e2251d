(** Model of SurfaceApprox.compute_default_quad: src/bgem/bspline/bspline_approx.py lines 338-346. Points are rational, as in
    convex_hull_2d; the corners are real numbers. *)
From Coq Require Import List QArith Reals Qreals.
From Verif Require Import Aabb_Model Hull_Model Rect_Model.
Import ListNotations.

(** A point of the sample as a pair of reals, bspline_approx.py line 345. *)
Definition real_point (p : pt) : rpt := (Q2R (fst p), Q2R (snd p)).
(** compute_default_quad, bspline_approx.py lines 338-346. *)
Definition default_quad (sample : list pt) : option (rpt * rpt * rpt * rpt) :=
  match convex_hull_2d sample with Some hull => min_bounding_rect (map real_point hull) | None => None end.
