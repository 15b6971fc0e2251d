(** Model of src/bgem/bspline/bspline.py: Z_Surface (lines 641-930) and
    GridSurface (941-1171). Numbers are reals, rounding is not modelled. Raised
    exceptions are [None] (what an object looks like after an exception is not
    modelled). Arrays of points are handled row by row in the code, the model
    works on one row.

    Objects are numbered; the heap lists their attributes. The instance
    attributes xy_to_uv and uv_to_xy are bound methods: they remember the object
    they were bound to. *)
From Coq Require Import List Arith ZArith Bool Reals.
From Verif Require Import Spline_Model.
Import ListNotations.
Open Scope R_scope.

(** Rows of N x 2 arrays, 2 x 2 matrices. *)
Definition pt : Type := R * R.
(** bspline.py lines 737-738. *)
Record mat := Mat { m00 : R; m01 : R; m10 : R; m11 : R }.
(** bspline.py lines 768, 825. *)
Definition padd (p q : pt) : pt := (fst p + fst q, snd p + snd q).
(** bspline.py lines 771, 846. *)
Definition psub (p q : pt) : pt := (fst p - fst q, snd p - snd q).
(** np.dot(M, p). *)
(** bspline.py lines 768, 825, 846. *)
Definition mapply (m : mat) (p : pt) : pt :=
  (m00 m * fst p + m01 m * snd p, m10 m * fst p + m11 m * snd p).
(** np.dot(A, B). *)
(** bspline.py line 766. *)
Definition mmul (a b : mat) : mat :=
  Mat (m00 a * m00 b + m01 a * m10 b) (m00 a * m01 b + m01 a * m11 b)
      (m10 a * m00 b + m11 a * m10 b) (m10 a * m01 b + m11 a * m11 b).
(** Singularity test of la.inv, bspline.py lines 738, 769. *)
Definition det (m : mat) : R := m00 m * m11 m - m01 m * m10 m.
(** la.inv; None is LinAlgError. *)
(** bspline.py lines 738, 769. *)
Definition inv (m : mat) : option mat :=
  if Reqb (det m) 0 then None
  else Some (Mat (m11 m / det m) (- m01 m / det m) (- m10 m / det m) (m00 m / det m)).
(** np.column_stack((a, b)). *)
(** bspline.py line 737. *)
Definition column_stack (a b : pt) : mat := Mat (fst a) (fst b) (snd a) (snd b).

(** np.allclose with its default rtol and atol. *)
(** bspline.py lines 731, 1075. *)
Definition isclose (a b : R) : bool :=
  Rleb (Rabs (a - b)) (/ 10 ^ 8 + / 10 ^ 5 * Rabs b).
(** bspline.py lines 731, 1075. *)
Definition allclose (p q : pt) : bool := isclose (fst p) (fst q) && isclose (snd p) (snd q).

(** The 4 x 2 array quad. *)
Record quad := Quad { q0 : pt; q1 : pt; q2 : pt; q3 : pt }.

(** Attributes of a Z_Surface (__init__ 645-675 and the methods it calls).
    [lin] is (_xy_shift, _mat_uv_to_xy, _mat_xy_to_uv), which exist only for linear
    maps; [bound] is the object and the kind (true = linear) of the methods in
    xy_to_uv and uv_to_xy; [z_raw] is z_mat, [z_mat] is _z_mat. The object of
    z_surface is never modified (apply_z_transform copies it first), so its value
    is stored; u_basis and v_basis are those of the first z_surface and do not
    differ from those of the present one. *)
Record zsurf := ZS { z_base : surface; orig_quad : quad; cur_quad : quad;
                     lin : option (pt * mat * mat); bound : nat * bool;
                     xy_mat : mat * pt; z_raw : R * R; z_mat : R * R; have_z : bool }.
(** Objects of class Z_Surface, bspline.py line 641. *)
Definition heap := list zsurf.
(** Assignment to attributes of an object, bspline.py lines 645-815. *)
Definition upd (h : heap) (i : nat) (o : zsurf) : heap := firstn i h ++ o :: skipn (S i) h.

(** Lines 721-729: the list of points given by the user. *)
Definition v11_of (a b c : pt) : pt := psub (padd a c) b.
(** bspline.py lines 721-729. *)
Definition quad_of (l : list pt) : option quad :=
  match l with
  | [a; b; c] => Some (Quad a b c (v11_of a b c))
  | [a; b; c; d] => Some (Quad a b c d)
  | _ => None
  end.
(** bspline.py line 731. *)
Definition is_linear (q : quad) : bool := allclose (q3 q) (v11_of (q0 q) (q1 q) (q2 q)).

(** _reset_transform_xy, lines 706-747, on the attributes of the object [self]. *)
Definition reset_xy (self : nat) (o : zsurf) (q : quad) : option zsurf :=
  let one := (Mat 1 0 0 1, (0, 0)) in
  if is_linear q then
    let m := column_stack (psub (q2 q) (q1 q)) (psub (q0 q) (q1 q)) in
    match inv m with
    | Some im => Some (ZS (z_base o) (orig_quad o) q (Some (q1 q, m, im)) (self, true)
                          one (z_raw o) (z_mat o) (have_z o))
    | None => None
    end
  else Some (ZS (z_base o) (orig_quad o) q (lin o) (self, false) one
                (z_raw o) (z_mat o) (have_z o)).

(** _reset_transform_z, lines 698-704. *)
Definition reset_z (o : zsurf) : zsurf :=
  ZS (z_base o) (orig_quad o) (cur_quad o) (lin o) (bound o) (xy_mat o) (1, 0) (1, 0) false.

(** __init__, lines 645-675; the new object gets the next number. None: assertions
    of lines 657, 721, 722 or LinAlgError. *)
Definition znew (h : heap) (l : list pt) (s : surface) : option heap :=
  if (s_dim s =? 1)%nat then
    match quad_of l with
    | Some q =>
      match reset_xy (length h)
              (ZS s q q None (length h, true) (Mat 1 0 0 1, (0, 0)) (1, 0) (1, 0) false) q with
      | Some o => Some (h ++ [reset_z o])
      | None => None
      end
    | None => None
    end
  else None.

(** _linear_uv_to_xy 823-826, _bilinear_uv_to_xy 828-835. *)
Definition linear_uv_to_xy (sh : pt) (m : mat) (p : pt) : pt := padd (mapply m p) sh.
(** bspline.py lines 828-835. *)
Definition bilinear_uv_to_xy (q : quad) (p : pt) : pt :=
  let u := fst p in let v := snd p in
  let w0 := (1 - u) * v in let w1 := (1 - u) * (1 - v) in
  let w2 := u * (1 - v) in let w3 := u * v in
  (fst (q0 q) * w0 + fst (q1 q) * w1 + fst (q2 q) * w2 + fst (q3 q) * w3,
   snd (q0 q) * w0 + snd (q1 q) * w1 + snd (q2 q) * w2 + snd (q3 q) * w3).
(** _linear_xy_to_uv 843-846. *)
Definition linear_xy_to_uv (sh : pt) (im : mat) (x : pt) : pt := mapply im (psub x sh).

(** Calls self.uv_to_xy(..), self.xy_to_uv(..) through the bound methods;
    _bilinear_xy_to_uv (848-850) raises. *)
Definition uv_to_xy (h : heap) (i : nat) (p : pt) : option pt :=
  match nth_error h i with
  | None => None
  | Some o =>
    match nth_error h (fst (bound o)) with
    | None => None
    | Some t =>
      if snd (bound o) then
        match lin t with Some (sh, m, _) => Some (linear_uv_to_xy sh m p) | None => None end
      else Some (bilinear_uv_to_xy (cur_quad t) p)
    end
  end.
(** bspline.py lines 837-852. *)
Definition xy_to_uv (h : heap) (i : nat) (x : pt) : option pt :=
  match nth_error h i with
  | None => None
  | Some o =>
    match nth_error h (fst (bound o)) with
    | None => None
    | Some t =>
      if snd (bound o) then
        match lin t with Some (sh, _, im) => Some (linear_xy_to_uv sh im x) | None => None end
      else None
    end
  end.

(** z_eval_array, lines 893-904; the value of the 1-d surface is its one
    coordinate. *)
Definition base_z (s : surface) (u v : R) : option R :=
  option_map (fun l => nth 0 l 0) (surface_eval s u v).
(** bspline.py lines 893-904. *)
Definition obj_z (o : zsurf) (u v : R) : option R :=
  option_map (fun z => if have_z o then fst (z_mat o) * z + snd (z_mat o) else z)
             (base_z (z_base o) u v).
(** bspline.py lines 893-904. *)
Definition z_eval (h : heap) (i : nat) (uv : pt) : option R :=
  match nth_error h i with Some o => obj_z o (fst uv) (snd uv) | None => None end.

(** eval_array, lines 867-880 (the row of uv). Z_Surface.eval (854-864), which
    builds an array of two floats and a one-element array, is not modelled. *)
Definition eval_pt (h : heap) (i : nat) (uv : pt) : option (pt * R) :=
  match uv_to_xy h i uv, z_eval h i uv with
  | Some p, Some z => Some (p, z)
  | _, _ => None
  end.

(** eval_xy_array 883-890, z_eval_xy_array 907-914. *)
Definition eval_xy (h : heap) (i : nat) (x : pt) : option (pt * R) :=
  match xy_to_uv h i x with Some uv => eval_pt h i uv | None => None end.
(** bspline.py lines 907-914. *)
Definition z_eval_xy (h : heap) (i : nat) (x : pt) : option R :=
  match xy_to_uv h i x with Some uv => z_eval h i uv | None => None end.

(** center, lines 917-922. *)
Definition center (h : heap) (i : nat) : option (pt * R) := eval_pt h i (1/2, 1/2).

(** transform, first half, lines 759-773. A surface with a bilinear map raises
    AttributeError in line 767. *)
Definition transform_xy (h : heap) (i : nat) (A : mat) (b : pt) : option heap :=
  match nth_error h i with
  | None => None
  | Some o =>
    match reset_xy i o (orig_quad o) with
    | None => None
    | Some o1 =>
      let h1 := upd h i o1 in
      match center h1 i, lin o1 with
      | Some (c, _), Some (sh, m, _) =>
        let m' := mmul A m in
        let sh' := padd (padd b (mapply A (psub sh c))) c in
        match inv m' with
        | None => None
        | Some im' =>
          let tr p := padd (padd (mapply A (psub p c)) b) c in
          let q := cur_quad o1 in
          Some (upd h1 i
            (ZS (z_base o1) (orig_quad o1) (Quad (tr (q0 q)) (tr (q1 q)) (tr (q2 q)) (tr (q3 q)))
                (Some (sh', m', im')) (bound o1) (A, b) (z_raw o1) (z_mat o1) (have_z o1)))
        end
      | _, _ => None
      end
    end
  end.

(** transform, second half, lines 776-784. *)
Definition transform_z (h : heap) (i : nat) (s t : R) : option heap :=
  match nth_error h i with
  | None => None
  | Some o =>
    let o1 := reset_z o in
    let h1 := upd h i o1 in
    match center h1 i with
    | Some (_, zc) =>
      Some (upd h1 i (ZS (z_base o1) (orig_quad o1) (cur_quad o1) (lin o1) (bound o1) (xy_mat o1)
                         (s, t) (s, t + (1 - s) * zc) true))
    | None => None
    end
  end.

(** transform, lines 750-784. *)
Definition transform (h : heap) (i : nat) (xy : option (mat * pt)) (z : option (R * R))
  : option heap :=
  match match xy with Some (A, b) => transform_xy h i A b | None => Some h end with
  | None => None
  | Some h1 => match z with Some (s, t) => transform_z h1 i s t | None => Some h1 end
  end.

(** get_transform, lines 786-791. *)
Definition get_transform (h : heap) (i : nat) : option ((mat * pt) * (R * R)) :=
  match nth_error h i with Some o => Some (xy_mat o, z_raw o) | None => None end.

(** apply_z_transform, lines 793-805. Surface.deep_copy (567-571) makes a surface
    that is not rational; the public attribute z_mat (here z_raw) is not reset. *)
Definition scale_poles (s : surface) (a b : R) : surface :=
  Surface (u_basis s) (v_basis s) (map (map (map (fun x => x * a + b))) (s_poles s)) false.
(** bspline.py lines 793-805. *)
Definition apply_z (h : heap) (i : nat) : option heap :=
  match nth_error h i with
  | None => None
  | Some o =>
    if have_z o then
      Some (upd h i (ZS (scale_poles (z_base o) (fst (z_mat o)) (snd (z_mat o)))
                        (orig_quad o) (cur_quad o) (lin o) (bound o) (xy_mat o)
                        (z_raw o) (1, 0) false))
    else Some h
  end.

(** get_copy, lines 807-814: copy.copy copies the attribute dictionary, the bound
    methods in it included. *)
Definition get_copy (h : heap) (i : nat) : option heap :=
  match nth_error h i with Some o => Some (h ++ [o]) | None => None end.

(** aabb, lines 925-930: ((xmin, ymin), zmin), ((xmax, ymax), zmax) where the z
    entries are the images of the least and greatest pole. *)
Definition aabb (h : heap) (i : nat) : option ((pt * R) * (pt * R)) :=
  match nth_error h i with
  | None => None
  | Some o =>
    let q := cur_quad o in
    let xs := [fst (q0 q); fst (q1 q); fst (q2 q); fst (q3 q)] in
    let ys := [snd (q0 q); snd (q1 q); snd (q2 q); snd (q3 q)] in
    match amin xs, amin ys, amax xs, amax ys, surface_aabb (z_base o) with
    | Some x0, Some y0, Some x1, Some y1, Some (lo, hi) =>
      let f z := fst (z_mat o) * z + snd (z_mat o) in
      Some (((x0, y0), f (nth 0 lo 0)), ((x1, y1), f (nth 0 hi 0)))
    | _, _, _, _, _ => None
    end
  end.

(** make_full_surface, lines 677-696: poles (x, y, z) at the grid of linear poles
    (meshgrid gives U[i][k] = u[i], V[i][k] = v[k]). *)
Definition make_full_surface (h : heap) (i : nat) : option surface :=
  match nth_error h i with
  | None => None
  | Some o =>
    let s := z_base o in
    match make_linear_poles (u_basis s), make_linear_poles (v_basis s) with
    | Some us, Some vs =>
      match all_some (map (fun iu => all_some (map (fun iv =>
              match uv_to_xy h i (nth iu us 0, nth iv vs 0) with
              | None => None
              | Some p =>
                let z := nth 0 (nth iv (nth iu (s_poles s) []) []) 0 in
                Some [fst p; snd p;
                      if have_z o then z * fst (z_mat o) + snd (z_mat o) else z]
              end) (seq 0 (length vs)))) (seq 0 (length us))) with
      | Some poles => make_surface (u_basis s) (v_basis s) poles false
      | None => None
      end
    | _, _ => None
    end
  end.

(** A program using Z-surfaces. *)
(** Calls of bspline.py lines 645, 750, 793, 807. *)
Inductive op :=
| ONew (l : list pt) (s : surface)
| OCopy (i : nat)
| OTransform (i : nat) (xy : option (mat * pt)) (z : option (R * R))
| OApply (i : nat).
(** One call of bspline.py lines 645, 750, 793, 807. *)
Definition step (h : heap) (e : op) : option heap :=
  match e with
  | ONew l s => znew h l s
  | OCopy i => get_copy h i
  | OTransform i xy z => transform h i xy z
  | OApply i => apply_z h i
  end.
(** A sequence of calls of bspline.py lines 645, 750, 793, 807. *)
Fixpoint run (h : heap) (es : list op) : option heap :=
  match es with
  | [] => Some h
  | e :: r => match step h e with Some h' => run h' r | None => None end
  end.

(** * GridSurface *)

(** la.norm(x, np.inf), la.norm(x). *)
(** bspline.py lines 1008, 1011. *)
Definition norm_inf (p : pt) : R := Rmax (Rabs (fst p)) (Rabs (snd p)).
(** bspline.py lines 1030-1034, 1047-1049. *)
Definition norm2 (p : pt) : R := sqrt (fst p * fst p + snd p * snd p).
(** step_tolerance, line 943. *)
Definition step_tolerance : R := / 10 ^ 5.

(** The attributes of a GridSurface: the number of its Z_Surface, shape, quad,
    the z column of grid_uvz (nu x nv, stored in the order of the points) and its
    uv columns. z_scale = 1 and z_shift = 0 are never changed. *)
Record grid := Grid { g_z : nat; g_nu : nat; g_nv : nat; g_quad : quad;
                      g_data : list R; g_uv : list pt }.

(** Loop of lines 1010-1017; [n] counts the remaining points, None is
    GridNotInShapeExc. *)
Fixpoint row_end (l : list pt) (vstep : pt) (tol : R) (i n : nat) : option nat :=
  match n with
  | O => None
  | S m =>
    let stp := psub (nth i l (0, 0)) (nth (i - 1) l (0, 0)) in
    if Rltb tol (norm_inf (psub vstep stp)) then Some i else row_end l vstep tol (S i) m
  end.

(** _get_grid_corners, lines 1001-1036: shape, quad, _point_tol, _u_step, _v_step. *)
Definition grid_corners (l : list pt) (tol : R)
  : option ((nat * nat) * quad * R * pt * pt) :=
  let n := length l in
  if (n <? 2)%nat then None
  else
    let vstep := psub (nth 1 l (0, 0)) (nth 0 l (0, 0)) in
    match row_end l vstep (tol * norm_inf vstep) 2 (n - 2) with
    | None => None
    | Some nv =>
      let nu := (n / nv)%nat in
      if (n =? nu * nv)%nat then
        let q := Quad (nth (nv - 1) l (0, 0)) (nth 0 l (0, 0))
                      (nth (n - nv) l (0, 0)) (nth (n - 1) l (0, 0)) in
        let d0 := psub (q1 q) (q0 q) in let d1 := psub (q2 q) (q1 q) in
        let d2 := psub (q3 q) (q2 q) in let d3 := psub (q0 q) (q3 q) in
        if negb (Rltb (norm2 (padd d0 d2)) (tol * norm2 d0)) ||
           negb (Rltb (norm2 (padd d1 d3)) (step_tolerance * norm2 d1))
        then None
        else Some ((nu, nv), q,
                   tol * Rmax (norm2 d0) (Rmax (norm2 d1) (Rmax (norm2 d2) (norm2 d3))),
                   (fst d1 / INR (nu - 1), snd d1 / INR (nu - 1)),
                   (fst d2 / INR (nv - 1), snd d2 / INR (nv - 1)))
      else None
    end.

(** _check_grid_regularity, lines 1039-1050, for point i; false is
    IrregularGridExc. Note the tests [pred > 0]. *)
Definition regular_at (l : list pt) (nv : nat) (ptol : R) (ustep vstep : pt) (i : nat) : bool :=
  let p k := nth k l (0, 0) in
  (negb (nv <? i)%nat ||
   Rltb (norm2 (psub (psub (p i) (p (i - nv)%nat)) ustep)) ptol) &&
  ((i mod nv =? 0)%nat || negb (1 <? i)%nat ||
   Rltb (norm2 (psub (psub (p i) (p (i - 1)%nat)) vstep)) ptol).

(** reshape(nu, nv, 1) of the z column. *)
Fixpoint reshape (nu nv : nat) (l : list R) : list (list (list R)) :=
  match nu with
  | O => []
  | S m => map (fun z => [z]) (firstn nv l) :: reshape m nv (skipn nv l)
  end.

(** __init__ 965-998, _make_z_surface 1052-1068, _check_map 1071-1076. *)
Definition grid_new (h : heap) (pts : list (pt * R)) (tol : R) : option (heap * grid) :=
  let l := map fst pts in
  match grid_corners l tol with
  | None => None
  | Some ((nu, nv), q, ptol, ustep, vstep) =>
    if forallb (regular_at l nv ptol ustep vstep) (seq 0 (nu * nv)) then
      match make_equidistant 1 (nu - 1) 0 1, make_equidistant 1 (nv - 1) 0 1 with
      | Some ub, Some vb =>
        match make_surface ub vb (reshape nu nv (map snd pts)) false with
        | None => None
        | Some s =>
          match znew h [q0 q; q1 q; q2 q] s with
          | None => None
          | Some h' =>
            let i := length h in
            match all_some (map (xy_to_uv h' i) l),
                  xy_to_uv h' i (q0 q), xy_to_uv h' i (q1 q),
                  xy_to_uv h' i (q2 q), xy_to_uv h' i (q3 q) with
            | Some uvs, Some a, Some b, Some c, Some d =>
              if allclose a (0, 1) && allclose b (0, 0) && allclose c (1, 0) && allclose d (1, 1)
              then Some (h', Grid i nu nv q (map snd pts) uvs)
              else None
            | _, _, _, _, _ => None
            end
          end
        end
      | _, _ => None
      end
    else None
  end.

(** transform, lines 1092-1102. *)
Definition grid_transform (h : heap) (g : grid) (xy : option (mat * pt)) (z : option (R * R))
  : option (heap * grid) :=
  match transform h (g_z g) xy z with
  | None => None
  | Some h' =>
    match uv_to_xy h' (g_z g) (0, 1), uv_to_xy h' (g_z g) (0, 0),
          uv_to_xy h' (g_z g) (1, 0), uv_to_xy h' (g_z g) (1, 1) with
    | Some a, Some b, Some c, Some d =>
      Some (h', Grid (g_z g) (g_nu g) (g_nv g) (Quad a b c d) (g_data g) (g_uv g))
    | _, _, _, _ => None
    end
  end.

(** eval_array, lines 1121-1125, with z_scale = 1 and z_shift = 0. *)
Definition grid_eval (h : heap) (g : grid) (uv : pt) : option (pt * R) :=
  match eval_pt h (g_z g) uv with Some (p, z) => Some (p, z * 1 + 0) | None => None end.

(** z_eval_array, lines 1138-1160. np.floor is Int_part; _uv_step (line 990) is
    1 / (shape - 1). *)
Definition clamp_cell (n : nat) (x : R) : nat :=
  Z.to_nat (Z.max 0 (Z.min (Z.of_nat n - 2) (Int_part x))).
(** bspline.py lines 1138-1160. *)
Definition grid_z_eval (h : heap) (g : grid) (uv : pt) : option R :=
  match nth_error h (g_z g) with
  | None => None
  | Some o =>
    let x := fst uv / (1 / INR (g_nu g - 1)) in
    let y := snd uv / (1 / INR (g_nv g - 1)) in
    let iu := clamp_cell (g_nu g) x in
    let iv := clamp_cell (g_nv g) y in
    let a := x - INR iu in let b := y - INR iv in
    let Z i k := nth ((iu + i) * g_nv g + (iv + k)) (g_data g) 0 in
    let val := ((1 - a) * Z 0%nat 0%nat + a * Z 1%nat 0%nat) * (1 - b) +
               ((1 - a) * Z 0%nat 1%nat + a * Z 1%nat 1%nat) * b in
    Some (fst (z_raw o) * val + snd (z_raw o))
  end.

(** z_eval_xy_array, lines 1127-1136. *)
Definition grid_z_eval_xy (h : heap) (g : grid) (x : pt) : option R :=
  match xy_to_uv h (g_z g) x with Some uv => grid_z_eval h g uv | None => None end.

(** aabb, lines 1166-1170. *)
Definition grid_aabb (h : heap) (g : grid) : option ((pt * R) * (pt * R)) :=
  match aabb h (g_z g) with
  | Some ((a, z0), (b, z1)) => Some ((a, z0 * 1 + 0), (b, z1 * 1 + 0))
  | None => None
  end.
