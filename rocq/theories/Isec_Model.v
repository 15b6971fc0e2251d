(** Model of points of intersections of spline surfaces: src/bgem/bspline/surface_point.py (all), isec_curve_surf.py lines 17-94,
    isec_surf_surf.py lines 50-171, isec_point.py lines 11-33.

    Numbers are reals. numpy.linalg.solve is a parameter; None is its LinAlgError. The tree of boxes is a parameter too. Vectors and columns of matrices are lists. *)
From Coq Require Import List ZArith Arith Bool Reals.
From Verif Require Import Spline_Model.
Import ListNotations.
Local Open Scope R_scope.

(** * SurfacePoint *)
(** interface_flag of one axis, surface_point.py lines 74-81; abs(a - b) == 0 is a == b. *)
Definition face_flag (l : list R) (i : nat) (t : R) : Z :=
  if Reqb (kn l (i + 2)) t then (-1)%Z else if Reqb (kn l (i + 3)) t then 1%Z else 0%Z.
(** boundary_flag of one axis, surface_point.py lines 83-85. *)
Definition bound_flag (t : R) : bool := Reqb t 0 || Reqb t 1.
(** The fields of SurfacePoint, surface_point.py lines 15-29; sp_bound is surface_boundary_flag. *)
Record spoint := Spoint { sp_iuv : list (Z * Z); sp_uv : R * R; sp_face : Z * Z; sp_bound : bool }.
(** A neighbour is added, surface_point.py lines 39, 46. *)
Definition beside (l : list R) (i : nat) (t : R) : bool := negb (bound_flag t) && negb (face_flag l i t =? 0)%Z.
(** extend_patches, surface_point.py lines 31-57. *)
Definition extend (s : surface) (iu iv : nat) (u v : R) : list (Z * Z) :=
  let a := Z.of_nat iu in let b := Z.of_nat iv in
  let fu := face_flag (knots (u_basis s)) iu u in let fv := face_flag (knots (v_basis s)) iv v in
  let gu := beside (knots (u_basis s)) iu u in let gv := beside (knots (v_basis s)) iv v in
  (a, b) :: (if gu then [((a + fu)%Z, b)] else []) ++ (if gv then [(a, (b + fv)%Z)] else []) ++
  (if gu && gv then [((a + fu)%Z, (b + fv)%Z)] else []).
(** SurfacePoint.__init__, surface_point.py lines 8-29. *)
Definition surface_point (s : surface) (iu iv : nat) (u v : R) : spoint :=
  Spoint (extend s iu iv u v) (u, v) (face_flag (knots (u_basis s)) iu u, face_flag (knots (v_basis s)) iv v) (bound_flag u || bound_flag v).
(** patch_id, surface_point.py lines 108-117; patch_pos2id, bspline.py lines 631-633. *)
Definition patch_ids (s : surface) (p : spoint) : list Z :=
  map (fun q => (fst q * Z.of_nat (n_intervals (v_basis s)) + snd q)%Z) (sp_iuv p).

(** * Main curves *)
(** Axis, isec_point.py lines 4-9. *)
Inductive axis := AxU | AxV.
(** The entries of the list patch, isec_surf_surf.py lines 71-75: 0, 0, 1, ... *)
Definition main_patch (iw : nat) : nat := (iw - 1)%nat.
(** All columns of the poles, isec_surf_surf.py lines 60, 81. *)
Definition s_cols (s : surface) : nat := length (nth 0 (nth 0 (s_poles s) []) []).
(** surf_pol and curv_pol, isec_surf_surf.py lines 81-84. *)
Definition thread_poles (s : surface) (ax : axis) (p : nat) (w : list R) : list (list R) :=
  match ax with
  | AxU => map (fun kv => map (fun j => inner w (map (fun row => nth j (nth kv row []) 0) (slice p 3 (s_poles s)))) (seq 0 (s_cols s))) (seq 0 (size (v_basis s)))
  | AxV => map (fun row => map (fun j => inner w (map (fun q => nth j q 0) (slice p 3 row))) (seq 0 (s_cols s))) (s_poles s)
  end.
(** fix_basis, isec_surf_surf.py lines 62-67. *)
Definition fix_basis (s : surface) (ax : axis) : basis := match ax with AxU => u_basis s | AxV => v_basis s end.
(** curv_basis, isec_surf_surf.py lines 62-67. *)
Definition run_basis (s : surface) (ax : axis) : basis := match ax with AxU => v_basis s | AxV => u_basis s end.
(** One turn of the loop of _main_curves, isec_surf_surf.py lines 77-87: the curve and its parameter. *)
Definition main_curve (s : surface) (ax : axis) (iw : nat) : option (curve * R) :=
  let b := fix_basis s ax in let t := kn (knots b) (iw + 2) in
  match eval_vector b (main_patch iw) t with
  | Some w => match make_curve (run_basis s ax) (thread_poles s ax (main_patch iw) w) false with
              | Some c => Some (c, t) | None => None end
  | None => None
  end.
(** _main_curves, isec_surf_surf.py lines 50-89. *)
Definition main_curves (s : surface) (ax : axis) : option (list (curve * R)) :=
  all_some (map (main_curve s ax) (seq 0 (n_intervals (fix_basis s ax) + 1))).

(** * Newton's method *)
(** Parameters u, v, t; isec_curve_surf.py line 21. *)
Definition param : Type := R * R * R.
(** Differences, isec_curve_surf.py line 81. *)
Definition vsub (x y : list R) : list R := map (fun p => fst p - snd p) (combine x y).
(** The point between, isec_curve_surf.py line 91. *)
Definition vmid (x y : list R) : list R := map (fun p => (fst p + snd p) / 2) (combine x y).
(** la.norm, isec_curve_surf.py lines 82-83. *)
Definition norm (x : list R) : R := sqrt (fold_right (fun a r => a * a + r) 0 x).
(** _compute_jacobian_and_coordinates, isec_curve_surf.py lines 17-47: the columns of J and both points. *)
Definition jacobian (s : surface) (c : curve) (iu iv it : nat) (x : param) : option (list (list R) * list R * list R) :=
  let '(u, v, t) := x in
  match eval_vector (u_basis s) iu u, eval_vector (v_basis s) iv v, eval_diff_vector (u_basis s) iu u, eval_diff_vector (v_basis s) iv v,
        eval_vector (c_basis c) it t, eval_diff_vector (c_basis c) it t with
  | Some uf, Some vf, Some ufd, Some vfd, Some tf, Some tfd =>
    let S a b := map (fun j => inner2 a b (sub_array iu 3 iv 3 (fun p => nth j p 0) (s_poles s))) (seq 0 (s_cols s)) in
    let C a := map (fun j => inner a (column j (slice it 3 (c_poles c)))) (seq 0 (length (nth 0 (c_poles c) []))) in
    Some ([S ufd vf; S uf vfd; map Ropp (C tfd)], S uf vf, C tf)
  | _, _, _, _, _, _ => None
  end.
(** One coordinate of np.maximum and np.minimum, isec_curve_surf.py lines 88-89. *)
Definition clip (lo hi x : R) : R := Rmin (Rmax x lo) hi.

Section Newton.
(** np.linalg.solve, isec_curve_surf.py line 87. *)
Variable solve : list (list R) -> list R -> option param.
(** The loop, isec_curve_surf.py lines 79-91; [last] holds conv, xyz1 and xyz2 of the turn before; None at the end is the UnboundLocalError
    of line 91 without turns. *)
Fixpoint newton (s : surface) (c : curve) (iu iv it : nat) (tol : R) (n : nat) (x : param) (last : option (bool * list R * list R)) : option (param * bool * list R) :=
  match n with
  | O => match last with Some (b, x1, x2) => Some (x, b, vmid x1 x2) | None => None end
  | S n =>
    match jacobian s c iu iv it x with
    | Some (J, x1, x2) =>
      let d := norm (vsub x1 x2) in
      if Rltb d tol then Some (x, Rleb d tol, vmid x1 x2)
      else match solve J (vsub x1 x2) with
           | Some (du, dv, dt) =>
             let '(u, v, t) := x in
             newton s c iu iv it tol n
               (clip (kn (knots (u_basis s)) (iu + 2)) (kn (knots (u_basis s)) (iu + 3)) (u - du),
                clip (kn (knots (v_basis s)) (iv + 2)) (kn (knots (v_basis s)) (iv + 3)) (v - dv),
                clip (kn (knots (c_basis c)) (it + 2)) (kn (knots (c_basis c)) (it + 3)) (t - dt))
               (Some (Rleb d tol, x1, x2))
           | None => None
           end
    | None => None
    end
  end.
(** The middle of an interval, isec_curve_surf.py lines 69-71. *)
Definition middle (b : basis) (i : nat) : R := (kn (knots b) (i + 2) + kn (knots b) (i + 3)) / 2.
(** get_intersection, isec_curve_surf.py lines 49-93; rel_tol is not used. *)
Definition get_intersection (s : surface) (c : curve) (iu iv it max_it : nat) (tol : R) : option (param * bool * list R) :=
  newton s c iu iv it tol max_it (middle (u_basis s) iu, middle (v_basis s) iv, middle (c_basis c) it) None.

(** * Threads of one surface against patches of the other *)
(** IsecPoint, isec_point.py lines 16-33: own and other point of a surface, the place. *)
Record ipoint := Ipoint { own : spoint; other : spoint; place : list R }.
(** Positions in the array crossing with entry 1, isec_surf_surf.py lines 104, 153. *)
Definition marks : Type := list (nat * nat).
(** The list ind with one entry replaced, isec_surf_surf.py lines 151-152, 163-166. *)
Definition mark_of (ax : axis) (cid q : nat) : nat * nat := match ax with AxU => (cid, q) | AxV => (q, cid) end.
(** Membership of a position, isec_surf_surf.py line 168. *)
Definition marked (m : marks) (p : nat * nat) : bool := existsb (fun q => (fst q =? fst p)%nat && (snd q =? snd p)%nat) m.
(** _already_found, isec_surf_surf.py lines 159-171. *)
Definition already_found (m : marks) (it cid : nat) (ax : axis) : bool := marked m (mark_of ax cid it) || marked m (mark_of ax cid (it + 1)).
(** uv_a and iuv_a, isec_surf_surf.py lines 125-131. *)
Definition point_a (s1 : surface) (ax : axis) (cid it : nat) (w t : R) : spoint :=
  match ax with AxU => surface_point s1 (main_patch cid) it w t | AxV => surface_point s1 it (main_patch cid) t w end.
(** direction, isec_surf_surf.py line 149. *)
Definition direction (ax : axis) (p : spoint) : Z := match ax with AxU => snd (sp_face p) | AxV => fst (sp_face p) end.
(** The index it + int(0.5 * (direction + 1)), isec_surf_surf.py line 152. *)
Definition mark_index (it : nat) (d : Z) : nat := if (d =? 1)%Z then (it + 1)%nat else it.
(** One candidate patch, isec_surf_surf.py lines 118-153. *)
Definition try_patch (s1 s2 : surface) (max_it : nat) (tol : R) (ax : axis) (cid : nat) (c : curve) (w : R) (it : nat) (st : option (list ipoint * marks)) (id : nat) : option (list ipoint * marks) :=
  match st with
  | Some (l, m) =>
    let '(iu, iv) := patch_id2pos s2 id in
    match get_intersection s2 c iu iv it max_it tol with
    | Some ((u, v, t), true, xyz) =>
      let a := point_a s1 ax cid it w t in
      let d := direction ax a in
      Some (l ++ [Ipoint a (surface_point s2 iu iv u v) xyz], if (d =? 0)%Z then m else m ++ [mark_of ax cid (mark_index it d)])
    | Some (_, false, _) => Some (l, m)
    | None => None
    end
  | None => None
  end.
(** tree2.find_box(curve.boxes[it]), isec_surf_surf.py line 117. *)
Variable find_box : curve -> nat -> list nat.
(** One interval of a thread, isec_surf_surf.py lines 112-153. *)
Definition try_interval (s1 s2 : surface) (max_it : nat) (tol : R) (ax : axis) (cid : nat) (c : curve) (w : R) (st : option (list ipoint * marks)) (it : nat) : option (list ipoint * marks) :=
  match st with
  | Some (l, m) => if already_found m it cid ax then st else fold_left (try_patch s1 s2 max_it tol ax cid c w it) (find_box c it) st
  | None => None
  end.
(** One thread, isec_surf_surf.py lines 109-153. *)
Definition try_curve (s1 s2 : surface) (max_it : nat) (tol : R) (ax : axis) (st : option (list ipoint * marks)) (q : nat * (curve * R)) : option (list ipoint * marks) :=
  let '(cid, (c, w)) := q in fold_left (try_interval s1 s2 max_it tol ax cid c w) (seq 0 (n_intervals (c_basis c))) st.
(** One axis, isec_surf_surf.py lines 106-153. *)
Definition try_axis (s1 s2 : surface) (max_it : nat) (tol : R) (st : option (list ipoint * marks)) (ax : axis) : option (list ipoint * marks) :=
  match main_curves s1 ax with
  | Some cs => fold_left (try_curve s1 s2 max_it tol ax) (combine (seq 0 (length cs)) cs) st
  | None => None
  end.
(** IsecSurfSurf.get_intersections, isec_surf_surf.py lines 91-157. *)
Definition get_intersections (s1 s2 : surface) (max_it : nat) (tol : R) : option (list ipoint) :=
  match fold_left (try_axis s1 s2 max_it tol) [AxU; AxV] (Some ([], [])) with Some (l, _) => Some l | None => None end.
End Newton.
