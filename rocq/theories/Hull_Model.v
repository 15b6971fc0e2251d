(** Model of convex_hull_2d: src/bgem/bspline/bspline_approx.py lines 138-169. Coordinates are exact rationals; the limit of
    the depth of recursion in Python is not modelled. *)
From Coq Require Import List QArith Bool.
From Verif Require Import Aabb_Model Geom_Model.
Import ListNotations.
Open Scope Q_scope.

(** Entry of dists for a point, bspline_approx.py lines 151-153; the matrix product gives (- dy, dx). *)
Definition dist_from (h t p : pt) : Q := let d := vsub t h in vdot (vsub p h) (- snd d, fst d).
(** sample[np.argmax(f)], the first of the points with greatest value, bspline_approx.py lines 157, 166. *)
Fixpoint arg_max (f : pt -> Q) (best : pt) (l : list pt) : pt :=
  match l with
  | [] => best
  | p :: l => arg_max f (if Qlt_bool (f best) (f p) then p else best) l
  end.
(** link, bspline_approx.py line 139. *)
Definition link (a b : list pt) : list pt := a ++ tl b.
(** dome, bspline_approx.py lines 142-161; None is a recursion without end. *)
Fixpoint dome (n : nat) (sample : list pt) (h t : pt) : option (list pt) :=
  match n with
  | O => None
  | S n =>
    let outer := filter (fun p => Qlt_bool 0 (dist_from h t p)) sample in
    match outer, sample with
    | _ :: _, s0 :: rest =>
      let pivot := arg_max (dist_from h t) s0 rest in
      match dome n outer h pivot, dome n outer pivot t with
      | Some a, Some b => Some (link a b)
      | _, _ => None
      end
    | _, _ => Some [h; t]
    end
  end.
(** convex_hull_2d, bspline_approx.py lines 163-169; np.argmin(x) is the first greatest - x. *)
Definition convex_hull_2d (sample : list pt) : option (list pt) :=
  match sample with
  | s0 :: rest =>
    if Nat.ltb 2 (length sample) then
      let l := arg_max (fun p => - fst p) s0 rest in
      let r := arg_max fst s0 rest in
      match dome (S (length sample)) sample l r, dome (S (length sample)) sample r l with
      | Some a, Some b => Some (link a b)
      | _, _ => None
      end
    else Some sample
  | [] => Some []
  end.
