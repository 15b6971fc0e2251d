(** Model of SurfaceApprox.approx_from_grid_surface, src/bgem/bspline/bspline_approx.py lines 269-288.

    The object made has no weights; of its fields the points and the quad are kept, the others do not depend on the grid. *)
From Coq Require Import List Reals.
From Verif Require Import Spline_Model Spline_Curve ZSurf_Model.
Import ListNotations.
Local Open Scope R_scope.

(** np.meshgrid(u_coord, v_coord) and ravel, bspline_approx.py lines 282-283: rows of v, u runs first. *)
Definition mesh (us vs : list R) : list pt := flat_map (fun j => map (fun i => (nth i us 0, nth j vs 0)) (seq 0 (length us))) (seq 0 (length vs)).
(** bspline_approx.py lines 269-288: points and quad of the object made. *)
Definition approx_from_grid_surface (h : heap) (g : grid) : option (list (pt * R) * quad) :=
  match nth_error h (g_z g) with
  | None => None
  | Some o =>
    match make_linear_poles (u_basis (z_base o)), make_linear_poles (v_basis (z_base o)) with
    | Some us, Some vs => match all_some (map (grid_eval h g) (mesh us vs)) with Some l => Some (l, g_quad g) | None => None end
    | _, _ => None
    end
  end.
