(** Model of SurfaceApprox: src/bgem/bspline/bspline_approx.py lines 290-669, over the reals (no rounding). An exception is None.
    Points without weights, except for the choice of points in the quad; np.dot(W, ...) of lines 433-435 with a sparse matrix W
    is not modelled. The calls of scipy.sparse.linalg are parameters. *)
From Coq Require Import List Arith ZArith QArith Bool Reals.
From Verif Require Import Spline_Model ZSurf_Model Rect_Model Quad_Model.
From Verif Require Aabb_Model.
Import ListNotations.
Local Open Scope R_scope.

(** eps, bspline_approx.py line 513. *)
Definition uv_eps : R := / 10 ^ 15.
(** mat_xy_to_uv, bspline_approx.py lines 506-509. *)
Definition mat_xy_to_uv (q : quad) : option mat := inv (column_stack (psub (q2 q) (q1 q)) (psub (q0 q) (q1 q))).
(** A row of points_uv, bspline_approx.py line 510. *)
Definition point_uv (q : quad) (m : mat) (p : pt) : pt := mapply m (psub p (q1 q)).
(** An entry of in_idx, bspline_approx.py lines 513-516. *)
Definition in_cut (p : pt) : bool :=
  (Rltb (- uv_eps) (fst p) && Rleb (fst p) (1 + uv_eps)) && (Rltb (- uv_eps) (snd p) && Rleb (snd p) (1 + uv_eps)).
(** a[in_idx], bspline_approx.py lines 517, 524, 526. *)
Fixpoint mask {A} (idx : list bool) (l : list A) : list A :=
  match idx, l with
  | b :: idx, x :: l => if b then x :: mask idx l else mask idx l
  | _, _ => []
  end.
(** A row of self._uv_quad_points, bspline_approx.py lines 522-523. *)
Definition snap (p : pt) : pt := (Rmin (Rmax (fst p) 0) 1, Rmin (Rmax (snd p) 0) 1).
(** _compute_uv_points, bspline_approx.py lines 499-526: uv, z and w of the points in the quad; None is LinAlgError. *)
Definition compute_uv_points (q : quad) (xy : list pt) (z : list R) (w : option (list R)) : option (list pt * list R * option (list R)) :=
  match mat_xy_to_uv q with
  | None => None
  | Some m =>
    let points_uv := map (point_uv q m) xy in
    let in_idx := map in_cut points_uv in
    Some (map snap (mask in_idx points_uv), mask in_idx z, option_map (mask in_idx) w)
  end.

(** la.norm, bspline_approx.py lines 486-487. *)
Definition norm (p : pt) : R := sqrt (fst p * fst p + snd p * snd p).
(** One of the entries of nuv, bspline_approx.py lines 493-494, after astype(int) of line 377. *)
Definition clamp_n (x : R) : nat := Z.to_nat (Z.max 1 (Int_part (x / 3) - 2)).
(** _compute_default_nuv, bspline_approx.py lines 479-495, with n_points the number of points in the quad; a division by zero is
    None, but line 374 has raised LinAlgError before. The exception of lines 378-379 is that of entries below 1. *)
Definition default_nuv (q : quad) (n_points : nat) : option (nat * nat) :=
  let dv := norm (psub (q0 q) (q1 q)) in
  let du := norm (psub (q2 q) (q1 q)) in
  match ndiv (INR n_points * dv) du with
  | None => None
  | Some r => let nv := sqrt r in
    match ndiv (nv * du) dv with
    | None => None
    | Some nu => if (clamp_n nu <? 1)%nat || (clamp_n nv <? 1)%nat then None else Some (clamp_n nu, clamp_n nv)
    end
  end.

(** A sparse matrix given by (row, column, value), bspline_approx.py lines 574, 667; values of the same place are added. *)
Definition coo : Type := list (nat * nat * R).
(** Value of the matrix in a place, bspline_approx.py lines 574, 667. *)
Definition entry (m : coo) (r c : nat) : R :=
  fold_right (fun e s => if (fst (fst e) =? r)%nat && (snd (fst e) =? c)%nat then snd e + s else s) 0 m.
(** The ValueError for an index out of shape, bspline_approx.py lines 574, 667-668. *)
Definition sparse (m : coo) (rows cols : nat) : option coo :=
  if forallb (fun e => (fst (fst e) <? rows)%nat && (snd (fst e) <? cols)%nat) m then Some m else None.
(** basis.eval_base_vector, bspline.py lines 91-93, 255. *)
Definition base_vector (b : basis) (i : nat) (t : R) : option (list R) :=
  if (degree b =? 2)%nat then eval_vector_deg_2 b i t else eval_vector b i t.
(** basis.eval_diff_base_vector, bspline.py lines 91-93, 268. *)
Definition diff_base_vector (b : basis) (i : nat) (t : R) : option (list R) :=
  if (degree b =? 2)%nat then eval_diff_vector_deg_2 b i t else eval_diff_vector b i t.

(** Body of the loop over points, bspline_approx.py lines 557-569. *)
Definition ls_row (ub vb : basis) (idx : nat) (p : pt) : option coo :=
  match find_knot_interval ub (fst p), find_knot_interval vb (snd p) with
  | Some iu, Some iv =>
    match base_vector ub iu (fst p), base_vector vb iv (snd p) with
    | Some u, Some v =>
      Some (flat_map (fun n => map (fun m => (idx, ((iv + n) * size ub + iu + m)%nat, nth n v 0 * nth m u 0)) (seq 0 3)) (seq 0 3))
    | _, _ => None
    end
  | _, _ => None
  end.
(** The loop over points, bspline_approx.py line 556. *)
Fixpoint ls_rows (ub vb : basis) (idx : nat) (l : list pt) : option coo :=
  match l with
  | [] => Some []
  | p :: l => match ls_row ub vb idx p, ls_rows ub vb (S idx) l with Some a, Some b => Some (a ++ b) | _, _ => None end
  end.
(** _build_ls_matrix, bspline_approx.py lines 533-576. *)
Definition ls_matrix (ub vb : basis) (uv : list pt) : option coo :=
  match ls_rows ub vb 0 uv with Some m => sparse m (length uv) (size ub * size vb) | None => None end.

(** self._q_points, bspline_approx.py line 627. *)
Definition q_points : list R := [0; 1 / 2 - 1 / sqrt 20; 1 / 2 + 1 / sqrt 20; 1].
(** self._q_weights, bspline_approx.py line 628. *)
Definition q_weights : list R := [1 / 6; 5 / 6; 5 / 6; 1 / 6].
(** Base vectors in the quadrature points of an interval, bspline_approx.py lines 587-594; f is the vector of values or of
    derivatives. *)
Definition q_vectors (f : basis -> nat -> R -> option (list R)) (b : basis) (i : nat) : option (list (list R)) :=
  let us := kn (knots b) (i + 2) in
  let uil := kn (knots b) (i + 3) - kn (knots b) (i + 2) in
  all_some (map (fun q => f b i (us + uil * q)) q_points).
(** point_val_outer[m, n, i], d_point_val_outer[m, n, i], bspline_approx.py lines 595-596. *)
Definition outer_sum (l : list (list R)) (m n : nat) : R := inner q_weights (map (fun v => nth m v 0 * nth n v 0) l).
(** Body of the loops, bspline_approx.py lines 646-665. The entry (3 a + b, 3 c + d) of np.kron(X, Y) is X[a, c] Y[b, d]; column
    and row are entries 3 a + b and 3 c + d of colv. *)
Definition reg_block (ub vb : basis) (iu iv : nat) : option coo :=
  match q_vectors base_vector ub iu, q_vectors diff_base_vector ub iu, q_vectors base_vector vb iv, q_vectors diff_base_vector vb iv with
  | Some u, Some du, Some v, Some dv =>
    let jac := 1 / INR (n_intervals ub) / INR (n_intervals vb) in
    let colv a b := ((iu + iv * size ub) + (size ub * a + b))%nat in
    Some (flat_map (fun a => flat_map (fun b => flat_map (fun c => map (fun d =>
      (colv c d, colv a b, jac * (outer_sum v a c * outer_sum du b d + outer_sum dv a c * outer_sum u b d)))
      (seq 0 3)) (seq 0 3)) (seq 0 3)) (seq 0 3))
  | _, _, _, _ => None
  end.
(** _build_sparse_reg_matrix, bspline_approx.py lines 601-669. *)
Definition reg_matrix (ub vb : basis) : option coo :=
  match all_some (flat_map (fun iv => map (fun iu => reg_block ub vb iu iv) (seq 0 (n_intervals ub))) (seq 0 (n_intervals vb))) with
  | Some l => sparse (concat l) (size ub * size vb) (size ub * size vb)
  | None => None
  end.

(** f 0 + ... + f (n - 1), the sums in the products of matrices, bspline_approx.py lines 439-440, 463. *)
Fixpoint sum_to (n : nat) (f : nat -> R) : R := match n with O => 0 | S m => sum_to m f + f m end.
(** b_vec for weights None, bspline_approx.py lines 437-439. *)
Definition right_side (b : coo) (g : list R) (c : nat) : R := sum_to (length g) (fun k => entry b k c * nth k g 0).
(** bb_mat and c_mat, bspline_approx.py lines 440, 450; lam is the factor of a_mat. *)
Definition system (b a : coo) (rows : nat) (lam : R) (r c : nat) : R := sum_to rows (fun k => entry b k r * entry b k c) + lam * entry a r c.
(** Results of scipy.sparse.linalg, bspline_approx.py lines 446-449 and 456: bb_norm[0], a_norm[0] and the solution (None is a
    solution with NaN and the AssertionError of line 457). *)
Record linalg := LinAlg { bb_norm : R; a_norm : R; spsolve : nat -> (nat -> nat -> R) -> (nat -> R) -> option (list R) }.
(** diff, bspline_approx.py line 463. *)
Definition diff (b : coo) (z g : list R) : list R :=
  map (fun k => sum_to (length z) (fun c => entry b k c * nth c z 0) - nth k g 0) (seq 0 (length g)).
(** poles_z[:, :, None], bspline_approx.py lines 470-473. *)
Definition poles_of (ub vb : basis) (z : list R) : list (list (list R)) :=
  map (fun iu => map (fun iv => [nth (iv * size ub + iu) z 0]) (seq 0 (size vb))) (seq 0 (size ub)).
(** compute_approximation with quad and nuv known, bspline_approx.py lines 406-476: the heap with the new Z_Surface, and
    self.error. *)
Definition approximate (la : linalg) (h : heap) (q : quad) (nu nv : nat) (weight : R) (xy : list pt) (z : list R) : option (heap * R) :=
  match compute_uv_points q xy z None, make_equidistant 2 nu 0 1, make_equidistant 2 nv 0 1 with
  | Some (uv, g, _), Some ub, Some vb =>
    match ls_matrix ub vb uv, reg_matrix ub vb, ndiv (bb_norm la) (a_norm la) with
    | Some b, Some a, Some ratio =>
      let n := (size ub * size vb)%nat in
      match spsolve la n (system b a (length uv) (weight * ratio)) (right_side b g) with
      | Some z_vec =>
        match amax (diff b z_vec g), make_surface ub vb (poles_of ub vb z_vec) false with
        | Some error, Some s => match znew h [q0 q; q1 q; q2 q] s with Some h => Some (h, error) | None => None end
        | _, _ => None
        end
      | None => None
      end
    | _, _, _ => None
    end
  | _, _, _ => None
  end.
(** compute_approximation, bspline_approx.py lines 385-476, of an object with points of rational coordinates: quad and nuv are
    None when neither set before nor given. *)
Definition compute_approximation (la : linalg) (h : heap) (points : list (Aabb_Model.pt * R)) (q : option quad) (nuv : option (nat * nat)) (weight : R)
  : option (heap * R) :=
  let xy := map (fun p => real_point (fst p)) points in
  let z := map snd points in
  let used := match q with
    | Some q => Some q
    | None => match default_quad (map fst points) with Some (c0, c1, c2, c3) => Some (Quad c0 c1 c2 c3) | None => None end
    end in
  match used with
  | None => None
  | Some q =>
    let n := match nuv with
      | Some n => Some n
      | None => match compute_uv_points q xy z None with Some (_, g, _) => default_nuv q (length g) | None => None end
      end in
    match n with Some (nu, nv) => approximate la h q nu nv weight xy z | None => None end
  end.
