(** Model of the grid of points on the graph of a function: src/bgem/bspline/bspline.py lines 1174-1190.

    Numbers are reals. The array of nu x nv points is listed row by row, as its reshape to nu * nv rows has it. *)
From Coq Require Import List Arith Reals.
From Verif Require Import Spline_Model ZSurf_Model.
Import ListNotations.
Local Open Scope R_scope.

(** Entry i of np.linspace(0, 1.0, n), bspline.py lines 1182-1183. *)
Definition linspace (n i : nat) : R := if (n <=? 1)%nat then 0 else INR i * (1 / INR (n - 1)).
(** make_function_grid, bspline.py lines 1174-1190; apply_along_axis of line 1187 raises for no points. *)
Definition function_grid (fn : pt -> R) (nu nv : nat) : option (list (pt * R)) :=
  if (nu * nv =? 0)%nat then None
  else Some (flat_map (fun i => map (fun j => let p := (linspace nu i, linspace nv j) in (p, fn p)) (seq 0 nv)) (seq 0 nu)).
