(** Model of the spline constructors of lines, planes and bilinear surfaces:
    src/bgem/bspline/bspline_approx.py lines 24-90 and the class Approx of
    src/bgem/bspline/brep_writer.py lines 364-440. Numbers are reals; rounding is
    not modelled. An exception is [None]. *)
From Coq Require Import List Arith Bool Reals.
From Verif Require Import Spline_Model.
Import ListNotations.
Open Scope R_scope.

(** np.array of points: rows of equal length (numpy refuses the arithmetic on
    ragged arrays). *)
(** bspline_approx.py lines 24-90. *)
Definition rect (l : list (list R)) : bool :=
  forallb (fun p => (length p =? length (nth 0 l []))%nat) l.
(** Sum, difference and multiple of rows. *)
(** bspline_approx.py lines 24-90. *)
Definition vadd (a c : list R) : list R := map (fun p => fst p + snd p) (combine a c).
(** bspline_approx.py lines 24-90. *)
Definition vsub (a c : list R) : list R := map (fun p => fst p - snd p) (combine a c).
(** bspline_approx.py lines 24-90. *)
Definition vscale (x : R) (a : list R) : list R := map (fun y => x * y) a.
(** np.mean(rows, axis=0). *)
Definition mean (l : list (list R)) : list R :=
  map (fun j => fold_right Rplus 0 (column j l) / INR (length l)) (seq 0 (length (nth 0 l []))).

(** bspline_approx.py lines 65-66 and 87-88. *)
Definition overhang_basis (o : R) : option basis :=
  make_basis 2 (repeat (0 - o) 3 ++ repeat (1 + o) 3).

(** line, lines 74-90. [ints]: all given coordinates are Python ints, so that
    numpy makes an integer array and the in-place operations of lines 84, 85 with
    a float array raise UFuncTypeError. *)
Definition line (ints : bool) (vtxs : list (list R)) (o : R) : option curve :=
  match vtxs with
  | [a; c] =>
    if negb (rect vtxs) then None
    else if Rltb 0 o && ints then None
    else
      let dv := vscale o (vsub c a) in
      let a' := if Rltb 0 o then vsub a dv else a in
      let c' := if Rltb 0 o then vadd c dv else c in
      match overhang_basis o with
      | None => None
      | Some b => make_curve b [a'; mean [a'; c']; c'] false
      end
  | _ => None
  end.

(** The nine poles of bilinear_surface (lines 55-64) and of Approx.bilinear
    (brep_writer.py lines 396-404). *)
Definition nine_poles (v0 v1 v2 v3 : list R) : list (list (list R)) :=
  [ [v0; mean [v0; v3]; v3];
    [mean [v0; v1]; mean [v0; v1; v2; v3]; mean [v2; v3]];
    [v1; mean [v1; v2]; v2] ].

(** bilinear_surface, lines 42-69; np.roll(x, -1)[i] = x[i+1], np.roll(x, 1)[i] =
    x[i-1]. [ints] as above (lines 52, 53). *)
Definition bilinear_surface (ints : bool) (vtxs : list (list R)) (o : R) : option surface :=
  match vtxs with
  | [v0; v1; v2; v3] =>
    if negb (rect vtxs) then None
    else if Rltb 0 o && ints then None
    else
      let d0 := vscale o (vsub v1 v0) in let d1 := vscale o (vsub v2 v1) in
      let d2 := vscale o (vsub v3 v2) in let d3 := vscale o (vsub v0 v3) in
      let mv v p d := if Rltb 0 o then vadd v (vsub p d) else v in
      match overhang_basis o with
      | None => None
      | Some b => make_surface b b (nine_poles (mv v0 d3 d0) (mv v1 d0 d1)
                                               (mv v2 d1 d2) (mv v3 d2 d3)) false
      end
  | _ => None
  end.

(** plane_surface, lines 24-38. *)
Definition plane_surface (ints : bool) (vtxs : list (list R)) (o : R) : option surface :=
  match vtxs with
  | [v0; v1; v2] =>
    if negb (rect vtxs) then None
    else bilinear_surface ints [v0; v1; vsub (vadd v1 v2) v0; v2] o
  | _ => None
  end.

(** * brep_writer.py *)

(** Curve2D / Curve3D 154-246 and Surface 264-318: poles, packed knots, rational,
    degree. *)
Record bcurve := BCurve { bc_poles : list (list R); bc_knots : list (R * nat);
                          bc_rational : bool; bc_degree : nat }.
(** Attributes of Surface, brep_writer.py lines 288-324. *)
Record bsurf := BSurf { bs_poles : list (list (list R)); bs_uknots : list (R * nat);
                        bs_vknots : list (R * nat); bs_rational : bool;
                        bs_degree : nat * nat }.
(** check_knots, lines 129-135. *)
Definition check_knots (deg : nat) (knots : list (R * nat)) (n : nat) : bool :=
  (list_sum (map snd knots) =? deg + n + 1)%nat.
(** check_matrix(poles, [None, d]) of lines 172-175, 222-225: each pole has d
    coordinates (the types are floats here). *)
Definition check_poles (d : nat) (poles : list (list R)) : bool :=
  forallb (fun p => (length p =? d)%nat) poles.
(** Curve3D.__init__ 159-182 (d = 3), Curve2D.__init__ 208-231 (d = 2). *)
Definition make_bcurve (d : nat) (poles : list (list R)) (knots : list (R * nat))
  (rational : bool) (deg : nat) : option bcurve :=
  if check_poles (if rational then d + 1 else d) poles && check_knots deg knots (length poles)
  then Some (BCurve poles knots rational deg) else None.
(** Surface.__init__ 269-312. *)
Definition make_bsurf (poles : list (list (list R))) (uk vk : list (R * nat))
  (rational : bool) (deg : nat * nat) : option bsurf :=
  if forallb (check_poles (if rational then 4 else 3)) poles &&
     (0 <? length poles)%nat && (0 <? length (nth 0 poles []))%nat &&
     forallb (fun r => (length r =? length (nth 0 poles []))%nat) poles &&
     check_knots (fst deg) uk (length poles) &&
     check_knots (snd deg) vk (length (nth 0 poles []))
  then Some (BSurf poles uk vk rational deg) else None.

(** curve_from_bs, lines 142-152; surface_from_bs, lines 252-261. *)
Definition curve_from_bs (c : curve) : option bcurve :=
  match pack_knots (c_basis c) with
  | None => None
  | Some ks =>
    if (c_dim c =? 2)%nat || (c_dim c =? 3)%nat
    then make_bcurve (c_dim c) (c_poles c) ks (c_rational c) (degree (c_basis c)) else None
  end.
(** brep_writer.py lines 272-281. *)
Definition surface_from_bs (s : surface) : option bsurf :=
  match pack_knots (u_basis s), pack_knots (v_basis s) with
  | Some uk, Some vk => make_bsurf (s_poles s) uk vk (s_rational s)
                                   (degree (u_basis s), degree (v_basis s))
  | _, _ => None
  end.

(** Approx.bilinear, lines 386-408. *)
Definition approx_bilinear (vtxs : list (list R)) : option (bsurf * list (R * R)) :=
  match vtxs with
  | [v0; v1; v2; v3] =>
    if negb (rect vtxs) then None
    else match make_bsurf (nine_poles v0 v1 v2 v3) [(0, 3%nat); (1, 3%nat)] [(0, 3%nat); (1, 3%nat)]
                          false (2%nat, 2%nat) with
         | Some s => Some (s, [(0, 0); (1, 0); (1, 1); (0, 1)])
         | None => None
         end
  | _ => None
  end.

(** Approx.plane, lines 369-384. The list of the caller is changed in line 378;
    it is returned as the last component. The array of line 379 has four rows. *)
Definition approx_plane (vtxs : list (list R)) : option (bsurf * list (R * R)) * list (list R) :=
  match vtxs with
  | [v0; v1; v2] =>
    let vtxs' := vtxs ++ [[0; 0; 0]] in
    (if negb (rect vtxs') then None
     else match approx_bilinear [v0; v1; vsub (vadd v1 v2) v0; v2] with
          | Some (s, [a; c; _; e]) => Some (s, [a; c; e])
          | _ => None
          end, vtxs')
  | _ => (None, vtxs)
  end.

(** Approx._line 413-424 (called with overhang 0), line_2d 426-432 (d = 2),
    line_3d 434-440 (d = 3). *)
Definition approx_line (d : nat) (vtxs : list (list R)) : option bcurve :=
  match vtxs with
  | [a; c] =>
    if negb (rect vtxs) then None
    else make_bcurve d [a; mean [a; c]; c] [(0 + 0, 3%nat); (1 - 0, 3%nat)] false 2
  | _ => None
  end.
