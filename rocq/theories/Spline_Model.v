(** Model of src/bgem/bspline/bspline.py: SplineBasis (lines 23-339), Curve
    (342-466), Surface (468-639). Numbers are reals; rounding is not modelled.
    A division by zero (nan or inf in numpy), an AssertionError, an IndexError or
    a RecursionError is [None]. *)
From Coq Require Import List Arith Bool Reals.
Import ListNotations.
Open Scope R_scope.

(** The comparison <= of bspline.py lines 96-98 and others. *)
Definition Rleb (a b : R) : bool := if Rle_dec a b then true else false.
(** The comparison < of bspline.py lines 116-132 and others. *)
Definition Rltb (a b : R) : bool := if Rlt_dec a b then true else false.
(** The comparison == of bspline.py lines 159-190 and others. *)
Definition Reqb (a b : R) : bool := if Req_EM_T a b then true else false.

(** knots[i]; all indices used below are in range for a basis function index
    below [size] (size = len(knots) - degree - 1, line 74). *)
Definition kn (l : list R) (i : nat) : R := nth i l 0.

(** Fields of SplineBasis set in lines 66-88; the others are computed below. *)
Record basis := Basis { degree : nat; knots : list R }.

(** Lines 69-71: the assertions on the free ends; the length test is the
    IndexError of lines 70, 71, 82. knots[-i-1] is knots[len-1-i]. *)
Definition free_ends (deg : nat) (l : list R) : bool :=
  (deg + 1 <=? length l)%nat &&
  forallb (fun i => Reqb (kn l i) (kn l (i + 1)) &&
                    Reqb (kn l (length l - 1 - i)) (kn l (length l - 2 - i)))
          (seq 0 deg).

(** SplineBasis.__init__, lines 60-94. *)
Definition make_basis (deg : nat) (l : list R) : option basis :=
  if free_ends deg l then Some (Basis deg l) else None.

(** Line 74. *)
Definition size (b : basis) : nat := length (knots b) - degree b - 1.
(** Lines 78-82: self.domain = knots[degree], knots[len-degree-1]. *)
Definition dom0 (b : basis) : R := kn (knots b) (degree b).
(** bspline.py lines 78-82. *)
Definition dom1 (b : basis) : R := kn (knots b) (length (knots b) - degree b - 1).
(** Line 88. *)
Definition n_intervals (b : basis) : nat := size b - degree b.

(** make_equidistant, lines 29-45; None is the ZeroDivisionError of line 41. The
    loop of lines 42-43 runs over degree+1 <= i < n-degree, line 44 overwrites
    the last degree+1 knots. (A knot_range of integers makes an integer array
    in line 40 and truncates the knots; the model is of float ranges.) *)
Definition equidistant_knots (deg n_int : nat) (r0 r1 : R) : list R :=
  let n := (n_int + 2 * deg + 1)%nat in
  let diff := (r1 - r0) / INR n_int in
  map (fun i =>
         if (n - deg - 1 <=? i)%nat then r1
         else if (deg + 1 <=? i)%nat then INR (i - deg) * diff + r0
         else r0) (seq 0 n).
(** bspline.py lines 29-45. *)
Definition make_equidistant (deg n_int : nat) (r0 r1 : R) : option basis :=
  if (n_int =? 0)%nat then None else make_basis deg (equidistant_knots deg n_int r0 r1).

(** make_from_packed_knots, lines 48-57. *)
Definition unpack (l : list (R * nat)) : list R :=
  flat_map (fun qm => repeat (fst qm) (snd qm)) l.
(** bspline.py lines 48-57. *)
Definition make_from_packed_knots (deg : nat) (l : list (R * nat)) : option basis :=
  make_basis deg (unpack l).

(** pack_knots, lines 100-113: the loop with the variables last, mult and the
    list packed_knots; None is the IndexError of line 104 for an empty vector. *)
Fixpoint pack_loop (last : R) (mult : nat) (packed : list (R * nat)) (l : list R)
  : list (R * nat) :=
  match l with
  | [] => packed ++ [(last, mult)]
  | q :: r => if Reqb q last then pack_loop last (S mult) packed r
              else pack_loop q 1 (packed ++ [(last, mult)]) r
  end.
(** bspline.py lines 100-113. *)
Definition pack_knots (b : basis) : option (list (R * nat)) :=
  match knots b with
  | [] => None
  | q :: r => Some (pack_loop q 0 [] (q :: r))
  end.

(** in_domain, lines 96-98. *)
Definition in_domain (b : basis) (t : R) : bool := Rleb (dom0 b) t && Rleb t (dom1 b).

(** check, lines 116-132, default rtol; None is the IndexError of line 126. *)
Definition rtol : R := / 10 ^ 10.
(** bspline.py lines 116-132. *)
Definition check_tol (t : R) : R := (Rabs t + / 10 ^ 4) * rtol.
(** bspline.py lines 116-132. *)
Definition check (b : basis) (t : R) : option R :=
  if Rleb (dom0 b) t && Rleb t (dom1 b) then Some t
  else let tol := check_tol t in
       if negb (Rleb (dom0 b - tol) t && Rleb t (dom1 b + tol)) then None
       else if Rltb t (dom0 b) then Some (dom0 b) else Some (dom1 b).

(** find_knot_interval, lines 136-148. knots[degree:-degree-1] has the indices
    degree .. len-degree-2. np.searchsorted(a, t, side='right') of a sorted array
    is the number of entries <= t (for arrays that are not sorted numpy gives no
    meaning). None is the AssertionError of line 147. *)
Definition interval_knots (b : basis) : list R :=
  firstn (length (knots b) - degree b - 1 - degree b) (skipn (degree b) (knots b)).
(** bspline.py lines 136-148. *)
Definition searchsorted_right (l : list R) (t : R) : nat :=
  length (filter (fun k => Rleb k t) l).
(** bspline.py lines 136-148. *)
Definition find_knot_interval (b : basis) (t : R) : option nat :=
  let c := searchsorted_right (interval_knots b) t in
  if (c =? 0)%nat then None
  else if (c - 1 <=? n_intervals b)%nat then Some (Nat.min (c - 1) (n_intervals b - 1))
  else None.

(** knot_interval_bounds, lines 150-156. *)
Definition knot_interval_bounds (b : basis) (i : nat) : R * R :=
  (kn (knots b) (i + degree b), kn (knots b) (i + degree b + 1)).

(** _basis, lines 159-191. *)
Fixpoint bas (l : list R) (deg idx : nat) (t : R) : R :=
  match deg with
  | O => if Rleb (kn l idx) t && Rltb t (kn l (idx + 1)) then 1 else 0
  | S d =>
      let bottom := kn l (idx + deg) - kn l idx in
      let v := if negb (Reqb bottom 0)
               then (t - kn l idx) / bottom * bas l d idx t else 0 in
      let bottom' := kn l (idx + deg + 1) - kn l (idx + 1) in
      if negb (Reqb bottom' 0)
      then v + (kn l (idx + deg + 1) - t) / bottom' * bas l d (idx + 1) t else v
  end.

(** fn_supp, lines 193-199. *)
Definition fn_supp (b : basis) (i : nat) : R * R :=
  (kn (knots b) i, kn (knots b) (i + degree b + 1)).

(** eval, lines 202-211; None is the AssertionError of line 208. *)
Definition eval (b : basis) (i : nat) (t : R) : option R :=
  if (i <? size b)%nat then
    if (i + 1 =? size b)%nat && Reqb t (dom1 b) then Some 1
    else Some (bas (knots b) (degree b) i t)
  else None.

(** Division of numpy floats; None stands for nan or inf. *)
(** bspline.py lines 159-190, 213-230, 278-339, 405, 545. *)
Definition ndiv (a c : R) : option R := if Reqb c 0 then None else Some (a / c).
(** bspline.py lines 159-190, 213-230. *)
Definition oplus (f : R -> R -> R) (x y : option R) : option R :=
  match x, y with Some a, Some c => Some (f a c) | _, _ => None end.

(** eval_diff, lines 213-231. For degree 0 _basis(-1, ...) does not return. *)
Definition eval_diff (b : basis) (i : nat) (t : R) : option R :=
  let k := kn (knots b) in
  if (i <? size b)%nat then
    match degree b with
    | O => None
    | S d =>
      let deg := INR (S d) in
      if (i + 2 =? size b)%nat && Reqb t (dom1 b)
      then ndiv (- deg) (k (i + S d + 1)%nat - k (i + 1)%nat)
      else if (i + 1 =? size b)%nat && Reqb t (dom1 b)
      then ndiv deg (k (i + S d)%nat - k i)
      else
        let diff1 := if (0 <? i)%nat
                     then ndiv (deg * bas (knots b) d i t) (k (i + S d)%nat - k i)
                     else Some 0 in
        let diff2 := if (i + 1 <? size b)%nat
                     then ndiv (deg * bas (knots b) d (i + 1) t)
                               (k (i + S d + 1)%nat - k (i + 1)%nat)
                     else Some 0 in
        oplus Rminus diff1 diff2
    end
  else None.

(** make_linear_poles, lines 233-242: the loop appends pole i+1 for
    i = 0 .. size-2; None is the division by float(0) for degree 0. *)
Fixpoint linear_poles_loop (b : basis) (n : nat) : list R :=
  match n with
  | O => [0]
  | S i => let poles := linear_poles_loop b i in
           poles ++ [last poles 0 +
                     (kn (knots b) (i + degree b + 1) - kn (knots b) (i + 1)) /
                     INR (degree b)]
  end.
(** bspline.py lines 233-242. *)
Definition make_linear_poles (b : basis) : option (list R) :=
  if (degree b =? 0)%nat && (1 <? size b)%nat then None
  else Some (linear_poles_loop b (size b - 1)).

(** List of results or the first exception. *)
(** List of results of bspline.py lines 245-275. *)
Fixpoint all_some {A} (l : list (option A)) : option (list A) :=
  match l with
  | [] => Some []
  | None :: _ => None
  | Some x :: r => match all_some r with Some y => Some (x :: y) | None => None end
  end.

(** eval_vector, lines 245-255; eval_diff_vector, lines 258-268. *)
Definition eval_vector (b : basis) (i_base : nat) (t : R) : option (list R) :=
  all_some (map (fun ib => eval b ib t) (seq i_base (degree b + 1))).
(** bspline.py lines 258-275. *)
Definition eval_diff_vector (b : basis) (i_base : nat) (t : R) : option (list R) :=
  all_some (map (fun ib => eval_diff b ib t) (seq i_base (degree b + 1))).

(** _eval_vector_deg_2, lines 278-307; the unpacking of line 290 raises
    ValueError when there are not four knots. *)
Definition eval_vector_deg_2 (b : basis) (i_int : nat) (t : R) : option (list R) :=
  if (i_int + 5 <=? length (knots b))%nat then
    let tk1 := kn (knots b) (i_int + 1) in let tk2 := kn (knots b) (i_int + 2) in
    let tk3 := kn (knots b) (i_int + 3) in let tk4 := kn (knots b) (i_int + 4) in
    let d31 := tk3 - tk1 in let d32 := tk3 - tk2 in let d42 := tk4 - tk2 in
    let dt1 := t - tk1 in let dt2 := t - tk2 in
    let d3t := tk3 - t in let d4t := tk4 - t in
    let d31_d32 := d31 * d32 in let d42_d32 := d42 * d32 in
    all_some [ndiv (d3t * d3t) d31_d32;
              oplus Rplus (ndiv (dt1 * d3t) d31_d32) (ndiv (dt2 * d4t) d42_d32);
              ndiv (dt2 * dt2) d42_d32]
  else None.

(** _eval_diff_vector_deg_2, lines 310-339. *)
Definition eval_diff_vector_deg_2 (b : basis) (i_int : nat) (t : R) : option (list R) :=
  if (i_int + 5 <=? length (knots b))%nat then
    let tk1 := kn (knots b) (i_int + 1) in let tk2 := kn (knots b) (i_int + 2) in
    let tk3 := kn (knots b) (i_int + 3) in let tk4 := kn (knots b) (i_int + 4) in
    let d31 := tk3 - tk1 in let d32 := tk3 - tk2 in let d42 := tk4 - tk2 in
    let dt1 := t - tk1 in let dt2 := t - tk2 in
    let d3t := tk3 - t in let d4t := tk4 - t in
    let d31_d32 := d31 * d32 in let d42_d32 := d42 * d32 in
    all_some [ndiv (-2 * d3t) d31_d32;
              oplus Rplus (ndiv (d3t - dt1) d31_d32) (ndiv (d4t - dt2) d42_d32);
              ndiv (2 * dt2) d42_d32]
  else None.

(** np.inner of two vectors. *)
(** bspline.py lines 403-407, 541-551. *)
Fixpoint inner (a c : list R) : R :=
  match a, c with x :: a', y :: c' => x * y + inner a' c' | _, _ => 0 end.
(** a[i:i+n]. *)
(** bspline.py lines 403-407, 541-551. *)
Definition slice {A} (i n : nat) (l : list A) : list A := firstn n (skipn i l).
(** Column c of a matrix given by rows, l[:, c]. *)
(** bspline.py lines 384-385, 403-407. *)
Definition column (c : nat) (l : list (list R)) : list R := map (fun p => nth c p 0) l.

(** Curve, lines 342-391; poles are the rows of the array. The weights of a
    rational curve are the last column. *)
Record curve := Curve { c_basis : basis; c_poles : list (list R); c_rational : bool }.
(** bspline.py lines 369-385. *)
Definition rat_cols (r : bool) : nat := if r then 1%nat else 0%nat.
(** Lines 369-376 (shape assertion of line 373; a numpy array is rectangular). *)
Definition c_dim (c : curve) : nat := length (nth 0 (c_poles c) []) - rat_cols (c_rational c).
(** bspline.py lines 360-385. *)
Definition make_curve (b : basis) (poles : list (list R)) (rational : bool) : option curve :=
  if (length poles =? size b)%nat then Some (Curve b poles rational) else None.
(** Lines 383-384: self._weights and self._poles. *)
Definition weights_of (dim : nat) (poles : list (list R)) : list R := column dim poles.
(** bspline.py lines 384-385, 516-517. *)
Definition weighted_of (dim : nat) (poles : list (list R)) : list (list R) :=
  map (fun p => map (fun x => x * nth dim p 0) (firstn dim p)) poles.

(** Curve.eval_local, lines 392-407. *)
Definition curve_eval_local (c : curve) (t : R) (it : nat) : option (list R) :=
  let dt := (degree (c_basis c) + 1)%nat in
  match eval_vector (c_basis c) it t with
  | None => None
  | Some bv =>
    if c_rational c then
      let bot := inner bv (slice it dt (weights_of (c_dim c) (c_poles c))) in
      all_some (map (fun j =>
         ndiv (inner bv (column j (slice it dt (weighted_of (c_dim c) (c_poles c))))) bot)
         (seq 0 (c_dim c)))
    else Some (map (fun j => inner bv (column j (slice it dt (c_poles c)))) (seq 0 (c_dim c)))
  end.

(** Curve.eval, lines 410-420. *)
Definition curve_eval (c : curve) (t : R) : option (list R) :=
  match check (c_basis c) t with
  | None => None
  | Some t' => match find_knot_interval (c_basis c) t' with
               | None => None
               | Some it => curve_eval_local c t' it
               end
  end.

(** np.amin / np.amax along the poles; None is numpy's ValueError for an empty
    array. *)
(** bspline.py lines 437, 588. *)
Fixpoint amin (l : list R) : option R :=
  match l with
  | [] => None
  | x :: r => match amin r with None => Some x | Some m => Some (Rmin x m) end
  end.
(** bspline.py lines 437, 588. *)
Fixpoint amax (l : list R) : option R :=
  match l with
  | [] => None
  | x :: r => match amax r with None => Some x | Some m => Some (Rmax x m) end
  end.

(** Curve.aabb, lines 432-437; one entry per column of the poles, so a rational
    curve has an extra one for the weights. *)
Definition curve_aabb (c : curve) : option (list R * list R) :=
  let cols := seq 0 (length (nth 0 (c_poles c) [])) in
  match all_some (map (fun j => amin (column j (c_poles c))) cols),
        all_some (map (fun j => amax (column j (c_poles c))) cols) with
  | Some lo, Some hi => Some (lo, hi)
  | _, _ => None
  end.

(** Surface, lines 468-522; poles[iu][iv] is a row of coordinates. *)
Record surface := Surface { u_basis : basis; v_basis : basis;
                            s_poles : list (list (list R)); s_rational : bool }.
(** bspline.py lines 487-517. *)
Definition s_dim (s : surface) : nat :=
  length (nth 0 (nth 0 (s_poles s) []) []) - rat_cols (s_rational s).
(** Shape assertion of line 510. *)
Definition make_surface (ub vb : basis) (poles : list (list (list R))) (rational : bool)
  : option surface :=
  if (length poles =? size ub)%nat && forallb (fun r => (length r =? size vb)%nat) poles
  then Some (Surface ub vb poles rational) else None.

(** One coordinate of Surface.eval_local, lines 541-544 and 549-551 (the array P
    is poles[iu:iu+du, iv:iv+dv, j]): inner(inner(u_base_vec, P.T), v_base_vec). *)
Definition inner2 (ubv vbv : list R) (P : list (list R)) : R :=
  inner (map (fun jv => inner ubv (column jv P)) (seq 0 (length vbv))) vbv.
(** bspline.py lines 541-551. *)
Definition sub_array (iu du iv dv : nat) (f : list R -> R) (poles : list (list (list R)))
  : list (list R) :=
  map (fun row => map f (slice iv dv row)) (slice iu du poles).

(** Surface.eval_local, lines 528-551. *)
Definition surface_eval_local (s : surface) (u v : R) (iu iv : nat) : option (list R) :=
  let du := (degree (u_basis s) + 1)%nat in
  let dv := (degree (v_basis s) + 1)%nat in
  let dim := s_dim s in
  match eval_vector (u_basis s) iu u, eval_vector (v_basis s) iv v with
  | Some ubv, Some vbv =>
    if s_rational s then
      let bot := inner2 ubv vbv (sub_array iu du iv dv (fun p => nth dim p 0) (s_poles s)) in
      all_some (map (fun j =>
        ndiv (inner2 ubv vbv
               (sub_array iu du iv dv (fun p => nth j p 0 * nth dim p 0) (s_poles s))) bot)
        (seq 0 dim))
    else Some (map (fun j =>
        inner2 ubv vbv (sub_array iu du iv dv (fun p => nth j p 0) (s_poles s)))
        (seq 0 dim))
  | _, _ => None
  end.

(** Surface.eval, lines 553-565. *)
Definition surface_eval (s : surface) (u v : R) : option (list R) :=
  match check (u_basis s) u, check (v_basis s) v with
  | Some u', Some v' =>
    match find_knot_interval (u_basis s) u', find_knot_interval (v_basis s) v' with
    | Some iu, Some iv => surface_eval_local s u' v' iu iv
    | _, _ => None
    end
  | _, _ => None
  end.

(** Surface.aabb, lines 582-588. *)
Definition surface_aabb (s : surface) : option (list R * list R) :=
  let cols := seq 0 (length (nth 0 (nth 0 (s_poles s) []) [])) in
  let all := concat (s_poles s) in
  match all_some (map (fun j => amin (column j all)) cols),
        all_some (map (fun j => amax (column j all)) cols) with
  | Some lo, Some hi => Some (lo, hi)
  | _, _ => None
  end.

(** Surface.patch_pos2id, patch_id2pos, lines 631-639; the quotient of Python 3
    is the exact one, floor of it the integer quotient. *)
Definition patch_pos2id (s : surface) (iu iv : nat) : nat :=
  iu * n_intervals (v_basis s) + iv.
(** bspline.py lines 635-639. *)
Definition patch_id2pos (s : surface) (id : nat) : nat * nat :=
  let iu := (id / n_intervals (v_basis s))%nat in
  (iu, (id - iu * n_intervals (v_basis s))%nat).
