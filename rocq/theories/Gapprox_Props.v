(** Property C116 (approximations of grids start from the points of the grid). *)
From Coq Require Import List ZArith Arith Lia Bool Reals Lra.
From Verif Require Import Spline_Model Spline_Piece Spline_Proofs Spline_Curve ZSurf_Spec ZSurf_Model ZSurf_Proofs ZSurf_Grid ZSurf_Props Ibox_Run Gapprox_Model.
Import ListNotations.
Local Open Scope R_scope.

(** Linear poles of a basis of degree 1 are its knots. *)
Lemma poles_equal n b : (0 < n)%nat -> make_equidistant 1 n 0 1 = Some b -> exists us, make_linear_poles b = Some us /\ length us = S n /\ forall i, (i <= n)%nat -> nth i us 0 = INR i / INR n.
Proof.
  intros N E. destruct (make_equidistant_l 1 n 0 1 N ltac:(lra)) as (b' & E' & V & D & NI & D0 & D1 & KN). rewrite E in E'. apply some_eq in E'. subst b'. unfold make_linear_poles. rewrite D. cbn [Nat.eqb andb].
  assert (SZ : (size b - 1 = n)%nat) by (unfold n_intervals in NI; rewrite D in NI; lia). rewrite SZ. eexists. split; [reflexivity|]. destruct (linear_poles_l b n ltac:(rewrite D; lia)) as [L H]. split; [exact L|]. intros i I. rewrite H by exact I. rewrite D. unfold ksum. cbn [INR]. assert (0 < INR n) by now apply lt_0_INR.
  replace (i + 1)%nat with (1 + i)%nat by lia. rewrite (KN i I). change (kn (knots b) (0 + 1)) with (kn (knots b) (1 + 0)). rewrite (KN 0%nat ltac:(lia)). cbn [INR]. field. lra.
Qed.
(** The point of the grid over place (i, j) of the parallelogram of its first three corners. *)
Lemma made h pts tol h1 g : 0 < tol -> grid_new h pts tol = Some (h1, g) -> exists l, approx_from_grid_surface h1 g = Some (l, g_quad g) /\ length l = (g_nv g * g_nu g)%nat /\
  forall i j, (i < g_nu g)%nat -> (j < g_nv g)%nat -> exists p, nth_error l (j * g_nu g + i) = Some (p, nth (i * g_nv g + j) (map snd pts) 0) /\ uv_to_xy h1 (g_z g) (INR i / INR (g_nu g - 1), INR j / INR (g_nv g - 1)) = Some p.
Proof.
  intros T G. destruct (grid_new_l _ _ _ _ _ T G) as [GZ (GU & GV & GL) _ (s & ub & vb & GS & ZN & EU & EV & BU & BV & _) _].
  destruct (znew_l _ _ _ _ ZN) as (q & o & _ & EH & _ & ZB & _). unfold approx_from_grid_surface. assert (NO : nth_error h1 (g_z g) = Some o) by (rewrite GZ, EH; apply nth_app_new). rewrite NO, ZB, BU, BV.
  destruct (poles_equal (g_nu g - 1) ub ltac:(lia) EU) as (us & -> & LU & HU). destruct (poles_equal (g_nv g - 1) vb ltac:(lia) EV) as (vs & -> & LV & HV).
  replace (S (g_nu g - 1)) with (g_nu g) in LU by lia. replace (S (g_nv g - 1)) with (g_nv g) in LV by lia. unfold mesh. rewrite LU, LV.
  assert (B : forall a n, (2 <= n)%nat -> (a < n)%nat -> 0 <= INR a / INR (n - 1) <= 1).
  { intros a n Hn Ha. assert (P : 0 < INR (n - 1)) by (apply lt_0_INR; lia). assert (Q : INR a <= INR (n - 1)) by (apply le_INR; lia). assert (Z := pos_INR a). split; [apply Rmult_le_pos; [exact Z|left; now apply Rinv_0_lt_compat]|]. apply Rmult_le_reg_r with (INR (n - 1)); [exact P|]. unfold Rdiv. rewrite Rmult_assoc, Rinv_l by lra. lra. }
  assert (EVL : forall i j, (i < g_nu g)%nat -> (j < g_nv g)%nat -> exists p, grid_eval h1 g (nth i us 0, nth j vs 0) = Some (p, nth (i * g_nv g + j) (map snd pts) 0) /\ uv_to_xy h1 (g_z g) (INR i / INR (g_nu g - 1), INR j / INR (g_nv g - 1)) = Some p).
  { intros i j I J. rewrite HU, HV by lia. destruct (grid_height_l h pts tol h1 g [] h1 g (INR i / INR (g_nu g - 1)) (INR j / INR (g_nv g - 1)) T G eq_refl (B _ _ GU I) (B _ _ GV J)) as (p & z & z' & p0 & zc & A & _ & _ & Z & Z'). exists p.
    unfold z_last in Z, Z'. cbn [map last_some fst snd] in Z, Z'. rewrite cell_value_node in Z' by assumption. split; [rewrite A; do 2 f_equal; lra|]. unfold grid_eval, eval_pt in A. destruct (uv_to_xy _ _ _) as [x|]; [|discriminate]. destruct (z_eval _ _ _); [|discriminate]. congruence. }
  set (f := fun j i : nat => (nth i us 0, nth j vs 0) : pt) in *. set (L := flat_map _ _). assert (LN : length L = (g_nv g * g_nu g)%nat) by apply (grid_length f).
  assert (NL : forall i j, (i < g_nu g)%nat -> (j < g_nv g)%nat -> @nth_error pt L (j * g_nu g + i) = Some (nth i us 0, nth j vs 0)) by (intros i j I J; unfold L; now rewrite (nth_error_grid f)).
  destruct (all_some_nth (map (grid_eval h1 g) L)) as (l & -> & Ll & Hl).
  - intros k x K. rewrite nth_error_map in K. destruct (@nth_error pt L k) as [c|] eqn:KE; [|discriminate K]. cbn [option_map] in K. apply some_eq in K. subst x.
    assert (KL : (k < g_nv g * g_nu g)%nat) by (rewrite <- LN; apply (proj1 (@nth_error_Some pt L k)); rewrite KE; discriminate). assert (KJ : (k / g_nu g < g_nv g)%nat) by (apply Nat.div_lt_upper_bound; lia). assert (KI : (k mod g_nu g < g_nu g)%nat) by (apply Nat.mod_upper_bound; lia).
    assert (KD : k = (k / g_nu g * g_nu g + k mod g_nu g)%nat) by (rewrite (Nat.div_mod k (g_nu g)) at 1 by lia; lia). rewrite KD, NL in KE by assumption. apply some_eq in KE. subst c. destruct (EVL _ _ KI KJ) as (p & -> & _). discriminate.
  - exists l. split; [reflexivity|]. split; [now rewrite Ll, map_length|]. intros i j I J. destruct (EVL i j I J) as (p & E & X). exists p. split; [|exact X]. apply Hl. rewrite nth_error_map, NL by assumption. cbn [option_map]. now rewrite E.
Qed.

(** * C116 *)
(** Heights are those of the grid, for all grids accepted. *)
Theorem C116_heights : forall h pts tol h1 g, 0 < tol -> grid_new h pts tol = Some (h1, g) -> exists l, approx_from_grid_surface h1 g = Some (l, g_quad g) /\ length l = length pts /\
  forall i j, (i < g_nu g)%nat -> (j < g_nv g)%nat -> option_map snd (nth_error l (j * g_nu g + i)) = option_map snd (nth_error pts (i * g_nv g + j)).
Proof.
  intros h pts tol h1 g T G. destruct (made h pts tol h1 g T G) as (l & E & L & H). destruct (grid_new_l _ _ _ _ _ T G) as [_ (GU & GV & GL) _ _ _]. exists l. split; [exact E|]. split; [rewrite L, GL; lia|].
  intros i j I J. destruct (H i j I J) as (p & -> & _). cbn [option_map snd]. rewrite <- nth_error_map. symmetry. apply nth_error_nth'. rewrite map_length, GL. nia.
Qed.
Print Assumptions C116_heights.
Lemma corners h pts tol h1 g : 0 < tol -> grid_new h pts tol = Some (h1, g) -> let l := map fst pts in
  g_quad g = Quad (nth (g_nv g - 1) l (0, 0)) (nth 0 l (0, 0)) (nth (g_nu g * g_nv g - g_nv g) l (0, 0)) (nth (g_nu g * g_nv g - 1) l (0, 0)).
Proof.
  intros T G l. unfold grid_new in G. fold l in G. destruct (grid_corners l tol) as [[[[[[nu' nv'] q] ptol] us] vs]|] eqn:C; [|discriminate]. destruct (forallb _ _); [|discriminate].
  destruct (make_equidistant _ _ _ _); [|discriminate]. destruct (make_equidistant _ _ _ _); [|discriminate]. destruct (make_surface _ _ _ _); [|discriminate]. destruct (znew _ _ _); [|discriminate]. destruct (all_some _); [|discriminate].
  do 4 (destruct (xy_to_uv _ _ _); [|discriminate]). destruct (_ && _); [|discriminate]. injection G as _ <-. cbn [g_nu g_nv g_quad]. destruct (grid_corners_l _ _ _ _ _ _ _ _ T C) as (_ & _ & _ & E & _). exact E.
Qed.
(** For a lattice the points are those of the grid, with rows and columns exchanged, and the quad is made of its corners. *)
Theorem C116_points : forall h (pts : list (pt * R)) tol o du dv nu nv, 0 < tol -> (2 <= nu)%nat -> (2 <= nv)%nat -> lattice o du dv nu nv (map fst pts) -> fst du * snd dv - snd du * fst dv <> 0 ->
  tol * norm_inf dv < norm_inf (psub du (INR nv * fst dv, INR nv * snd dv)) ->
  exists h1 g l q, grid_new h pts tol = Some (h1, g) /\ approx_from_grid_surface h1 g = Some (l, q) /\ length l = (nu * nv)%nat /\
    (forall i j, (i < nu)%nat -> (j < nv)%nat -> nth_error l (j * nu + i) = nth_error pts (i * nv + j)) /\
    option_map fst (nth_error pts (nv - 1)) = Some (q0 q) /\ option_map fst (nth_error pts 0) = Some (q1 q) /\ option_map fst (nth_error pts ((nu - 1) * nv)) = Some (q2 q) /\ option_map fst (nth_error pts (nu * nv - 1)) = Some (q3 q).
Proof.
  intros h pts tol o du dv nu nv T U W [LL LP] CR TR. destruct (C57_lattice_accepted h pts tol o du dv nu nv T U W (conj LL LP) CR TR) as (h1 & g & G & EU & EV & _).
  destruct (made h pts tol h1 g T G) as (l & E & L & H). exists h1, g, l, (g_quad g). split; [exact G|]. split; [exact E|]. rewrite EU, EV in *. split; [rewrite L; lia|].
  assert (LN : length pts = (nu * nv)%nat) by (rewrite map_length in LL; exact LL).
  assert (NP : forall k, (k < nu * nv)%nat -> option_map fst (nth_error pts k) = Some (nth k (map fst pts) (0, 0))) by (intros k K; rewrite <- nth_error_map; apply nth_error_nth'; rewrite map_length; lia).
  assert (Q := corners h pts tol h1 g T G). cbv zeta in Q. rewrite EU, EV in Q. split.
  - intros i j I J. destruct (H i j I J) as (p & -> & X). assert (K : (i * nv + j < nu * nv)%nat) by nia. destruct (nth_error pts (i * nv + j)) as [[p' z']|] eqn:N; [|apply nth_error_None in N; lia].
    assert (NZ : nth (i * nv + j) (map snd pts) 0 = z') by (apply nth_error_nth; rewrite nth_error_map, N; reflexivity). rewrite NZ. assert (P' := NP _ K). rewrite N in P'. cbn [option_map fst] in P'. apply some_eq in P'. f_equal. f_equal. rewrite P'.
    destruct (grid_new_l _ _ _ _ _ T G) as [GZ _ _ (s & ub & vb & GS & ZN & _) _]. rewrite Q in ZN. cbn [q0 q1 q2] in ZN.
    assert (A : forall a b k, (a < nu)%nat -> (b < nv)%nat -> k = (a * nv + b)%nat -> nth k (map fst pts) ((0, 0) : pt) = (fst o + INR a * fst du + INR b * fst dv, snd o + INR a * snd du + INR b * snd dv)) by (intros a b k HA HB ->; now apply LP).
    rewrite (A 0%nat (nv - 1)%nat) in ZN by lia. rewrite (A 0%nat 0%nat 0%nat) in ZN by lia. rewrite (A (nu - 1)%nat 0%nat) in ZN by nia. destruct GS as (_ & _ & _ & _ & D & _). rewrite (A i j _ I J eq_refl).
    assert (PU : 0 < INR (nu - 1)) by (apply lt_0_INR; lia). assert (PV : 0 < INR (nv - 1)) by (apply lt_0_INR; lia).
    match type of ZN with znew _ [?a; ?b; ?c] _ = _ => destruct (C35_constructor h a b c s D) as (h1' & ZN' & Y & _) end.
    + unfold cross, psub. cbn [fst snd INR]. intros F. apply CR. apply Rmult_eq_reg_l with (INR (nu - 1) * INR (nv - 1)); [|apply Rmult_integral_contrapositive; lra]. lra.
    + rewrite ZN in ZN'. apply some_eq in ZN'. subst h1'. rewrite GZ, Y in X. apply some_eq in X. subst p. unfold on_parallelogram. apply pt_eq; cbn [fst snd INR]; field; lra.
  - rewrite Q. cbn [q0 q1 q2 q3]. replace ((nu - 1) * nv)%nat with (nu * nv - nv)%nat by nia. repeat split; apply NP; nia.
Qed.
Print Assumptions C116_points.
(** Two by three points; the second point of the approximation is the fourth one of the grid. *)
Example C116_case : exists h1 g l q, grid_new [] gsamp (/ 10 ^ 6) = Some (h1, g) /\ approx_from_grid_surface h1 g = Some (l, q) /\
  l = [((0, 0), 1); ((3, 0), 2); ((0, 2), 3); ((3, 2), 6); ((0, 4), 4); ((3, 4), 0)] /\ q0 q = (0, 4) /\ q2 q = (3, 0).
Proof.
  destruct (C116_points [] gsamp (/ 10 ^ 6) (0, 0) (3, 0) (0, 2) 2 3) as (h1 & g & l & q & G & E & L & N & Q0 & _ & Q2 & _); try lia; try lra.
  - exact gsamp_lattice.
  - cbn [fst snd]. lra.
  - unfold norm_inf, psub. cbn. unfold Rmax, Rabs. repeat (destruct (Rcase_abs _); try (exfalso; lra)). repeat (destruct (Rle_dec _ _); try (exfalso; lra)); lra.
  - exists h1, g, l, q. split; [exact G|]. split; [exact E|]. split; [|cbn in Q0, Q2; split; congruence].
    assert (N00 := N 0%nat 0%nat ltac:(lia) ltac:(lia)). assert (N10 := N 1%nat 0%nat ltac:(lia) ltac:(lia)). assert (N01 := N 0%nat 1%nat ltac:(lia) ltac:(lia)). assert (N11 := N 1%nat 1%nat ltac:(lia) ltac:(lia)). assert (N02 := N 0%nat 2%nat ltac:(lia) ltac:(lia)). assert (N12 := N 1%nat 2%nat ltac:(lia) ltac:(lia)).
    clear - L N00 N10 N01 N11 N02 N12. do 7 (destruct l as [|? l]; [try discriminate L|]); [|discriminate L]. cbn in *. apply some_eq in N00, N10, N01, N11, N02, N12. now subst.
Qed.
