(** Property C114 (surfaces of grids on the graph of a function). *)
From Coq Require Import List ZArith Arith Lia Bool Reals Lra.
From Verif Require Import Spline_Model Spline_Curve ZSurf_Spec ZSurf_Model ZSurf_Proofs ZSurf_Grid ZSurf_Props Ibox_Run Fgrid_Model.
Import ListNotations.
Local Open Scope R_scope.

(** Place i of n equally distant ones in [0, 1]. *)
Definition at_share (i n : nat) (x : R) : Prop := (n = 1%nat /\ x = 0) \/ ((1 < n)%nat /\ x * INR (n - 1) = INR i).
Lemma linspace_at n i : (i < n)%nat -> at_share i n (linspace n i).
Proof.
  intros L. unfold at_share, linspace. destruct (Nat.leb_spec n 1); [left; split; [lia|reflexivity]|]. right. split; [lia|]. field. apply not_0_INR. lia.
Qed.
Lemma linspace_div n i : (1 < n)%nat -> linspace n i = INR i / INR (n - 1).
Proof. intros L. unfold linspace. destruct (Nat.leb_spec n 1); [lia|]. unfold Rdiv. ring. Qed.

(** * C114 *)
Theorem C114_points : forall fn nu nv, (1 <= nu)%nat -> (1 <= nv)%nat -> exists l, function_grid fn nu nv = Some l /\ length l = (nu * nv)%nat /\
  forall i j, (i < nu)%nat -> (j < nv)%nat -> exists x y, nth_error l (i * nv + j) = Some ((x, y), fn (x, y)) /\ at_share i nu x /\ at_share j nv y.
Proof.
  intros fn nu nv U W. unfold function_grid. destruct (Nat.eqb_spec (nu * nv) 0); [nia|]. eexists. split; [reflexivity|]. split; [apply (grid_length (fun i j => ((linspace nu i, linspace nv j), fn (linspace nu i, linspace nv j))))|].
  intros i j I J. exists (linspace nu i), (linspace nv j). split; [|split; now apply linspace_at]. now rewrite (nth_error_grid (fun i j => ((linspace nu i, linspace nv j), fn (linspace nu i, linspace nv j)))).
Qed.
Print Assumptions C114_points.

Section Made.
Variables (fn : pt -> R) (nu nv : nat) (l : list (pt * R)) (h : heap) (tol : R).
Hypotheses (U : (2 <= nu)%nat) (W : (2 <= nv)%nat) (E : function_grid fn nu nv = Some l) (T : 0 < tol <= 1).
Lemma made_nth i j : (i < nu)%nat -> (j < nv)%nat -> nth_error l (i * nv + j) = Some ((INR i / INR (nu - 1), INR j / INR (nv - 1)), fn (INR i / INR (nu - 1), INR j / INR (nv - 1))).
Proof.
  intros I J. unfold function_grid in E. destruct (Nat.eqb_spec (nu * nv) 0); [nia|]. apply some_eq in E. subst l. rewrite (nth_error_grid (fun i j => ((linspace nu i, linspace nv j), fn (linspace nu i, linspace nv j)))) by assumption. cbn [Nat.add]. now rewrite !linspace_div by lia.
Qed.
Lemma made_length : length l = (nu * nv)%nat.
Proof. unfold function_grid in E. destruct (Nat.eqb_spec (nu * nv) 0); [nia|]. apply some_eq in E. subst l. apply (grid_length (fun i j => ((linspace nu i, linspace nv j), fn (linspace nu i, linspace nv j)))). Qed.
Lemma made_xy i j : (i < nu)%nat -> (j < nv)%nat -> nth (i * nv + j) (map fst l) ((0, 0) : pt) = (INR i / INR (nu - 1), INR j / INR (nv - 1)).
Proof. intros I J. apply nth_error_nth. rewrite nth_error_map, made_nth by assumption. reflexivity. Qed.
Lemma made_z i j : (i < nu)%nat -> (j < nv)%nat -> nth (i * nv + j) (map snd l) 0 = fn (INR i / INR (nu - 1), INR j / INR (nv - 1)).
Proof. intros I J. apply nth_error_nth. rewrite nth_error_map, made_nth by assumption. reflexivity. Qed.
Lemma made_accepted : exists h1 g, grid_new h l tol = Some (h1, g) /\ g_nu g = nu /\ g_nv g = nv.
Proof.
  assert (PU : 0 < INR (nu - 1)) by (apply lt_0_INR; lia). assert (PV : 0 < INR (nv - 1)) by (apply lt_0_INR; lia). assert (IU := Rinv_0_lt_compat _ PU). assert (IV := Rinv_0_lt_compat _ PV).
  destruct (C57_lattice_accepted h l tol (0, 0) (/ INR (nu - 1), 0) (0, / INR (nv - 1)) nu nv) as (h1 & g & A & B & C & _); [lra|exact U|exact W| | | |now exists h1, g].
  - split; [rewrite map_length; apply made_length|]. intros i j I J. etransitivity; [exact (made_xy i j I J)|]. cbn [fst snd]. f_equal; unfold Rdiv; ring.
  - cbn [fst snd]. assert (X := Rmult_lt_0_compat _ _ IU IV). lra.
  - unfold norm_inf, psub. cbn [fst snd]. rewrite Rmult_0_r. rewrite Rabs_R0. rewrite (Rabs_pos_eq (/ INR (nv - 1))) by lra. rewrite Rmax_right by lra.
    apply Rlt_le_trans with (Rabs (0 - INR nv * / INR (nv - 1))); [|apply Rmax_r]. rewrite Rminus_0_l, Rabs_Ropp, Rabs_pos_eq by (apply Rmult_le_pos; [apply pos_INR|lra]). apply Rmult_lt_compat_r; [exact IV|]. apply Rle_lt_trans with 1; [lra|]. change 1 with (INR 1). apply lt_INR. lia.
Qed.
Lemma made_plane h1 g p : grid_new h l tol = Some (h1, g) -> g_nu g = nu -> g_nv g = nv -> uv_to_xy h1 (g_z g) p = Some p.
Proof.
  intros G EU EV. assert (PU : 0 < INR (nu - 1)) by (apply lt_0_INR; lia). assert (PV : 0 < INR (nv - 1)) by (apply lt_0_INR; lia). destruct (grid_new_l _ _ _ _ _ (proj1 T) G) as [GZ _ _ (s & ub & vb & GS & ZN & _) _].
  assert (Q : q0 (g_quad g) = (0, 1) /\ q1 (g_quad g) = (0, 0) /\ q2 (g_quad g) = (1, 0)).
  { clear GS ZN. assert (G' := G). unfold grid_new in G'. destruct (grid_corners (map fst l) tol) as [[[[[[nu' nv'] q] ptol] us] vs]|] eqn:C; [|discriminate]. destruct (forallb _ _); [|discriminate].
    destruct (make_equidistant _ _ _ _); [|discriminate]. destruct (make_equidistant _ _ _ _); [|discriminate]. destruct (make_surface _ _ _ _); [|discriminate]. destruct (znew _ _ _); [|discriminate]. destruct (all_some _); [|discriminate].
    do 4 (destruct (xy_to_uv _ _ _); [|discriminate]). destruct (_ && _); [|discriminate]. injection G' as _ <-. cbn [g_nu g_nv g_quad] in *. subst nu' nv'. destruct (grid_corners_l _ _ _ _ _ _ _ _ (proj1 T) C) as (_ & _ & _ & -> & _). cbn [q0 q1 q2].
    assert (N : forall i j k, (i < nu)%nat -> (j < nv)%nat -> k = (i * nv + j)%nat -> nth k (map fst l) ((0, 0) : pt) = (INR i / INR (nu - 1), INR j / INR (nv - 1))) by (intros i j k I J ->; now apply made_xy).
    rewrite (N 0%nat (nv - 1)%nat) by lia. rewrite (N 0%nat 0%nat 0%nat) by lia. rewrite (N (nu - 1)%nat 0%nat) by nia. split; [|split]; apply pt_eq; cbn [fst snd INR]; field; lra. }
  destruct Q as (Q0 & Q1 & Q2). rewrite Q0, Q1, Q2 in ZN. destruct GS as (_ & _ & _ & _ & D & _).
  destruct (C35_constructor h (0, 1) (0, 0) (1, 0) s D) as (h1' & ZN' & X & _); [unfold cross, psub; cbn; lra|]. rewrite ZN in ZN'. injection ZN' as <-. rewrite GZ, X. apply f_equal. destruct p as [a b]. apply pt_eq; unfold on_parallelogram; cbn [fst snd]; ring.
Qed.
End Made.
Theorem C114_surface : forall fn nu nv l h tol, (2 <= nu)%nat -> (2 <= nv)%nat -> function_grid fn nu nv = Some l -> 0 < tol <= 1 ->
  exists h1 g, grid_new h l tol = Some (h1, g) /\ g_nu g = nu /\ g_nv g = nv /\
    (forall u v, 0 <= u <= 1 -> 0 <= v <= 1 -> exists z, grid_eval h1 g (u, v) = Some ((u, v), z) /\ grid_z_eval h1 g (u, v) = Some z) /\
    (forall i j x y, (i < nu)%nat -> (j < nv)%nat -> at_share i nu x -> at_share j nv y -> grid_eval h1 g (x, y) = Some ((x, y), fn (x, y))) /\
    (forall a b c d, (forall x y, fn (x, y) = a + b * x + c * y + d * x * y) -> forall u v, 0 <= u <= 1 -> 0 <= v <= 1 -> grid_eval h1 g (u, v) = Some ((u, v), fn (u, v))).
Proof.
  intros fn nu nv l h tol U W E T. destruct (made_accepted fn nu nv l h tol U W E T) as (h1 & g & G & EU & EV). exists h1, g. split; [exact G|]. split; [exact EU|]. split; [exact EV|].
  assert (PU : 0 < INR (nu - 1)) by (apply lt_0_INR; lia). assert (PV : 0 < INR (nv - 1)) by (apply lt_0_INR; lia).
  assert (H : forall u v, 0 <= u <= 1 -> 0 <= v <= 1 -> grid_eval h1 g (u, v) = Some ((u, v), cell_value nu nv (map snd l) u v) /\ grid_z_eval h1 g (u, v) = Some (cell_value nu nv (map snd l) u v)).
  { intros u v HU HV. destruct (grid_height_l h l tol h1 g [] h1 g u v (proj1 T) G eq_refl HU HV) as (p & z & z' & p0 & zc & A & B & _ & D & F). unfold z_last in D, F. cbn [map last_some fst snd] in D, F. rewrite EU, EV in F.
    assert (PL := made_plane fn nu nv l h tol U W E T h1 g (u, v) G EU EV). assert (P : p = (u, v)). { unfold grid_eval, eval_pt in A. rewrite PL in A. destruct (z_eval h1 (g_z g) (u, v)); [|discriminate]. congruence. }
    subst p. rewrite A, B. split; f_equal; [f_equal|]; lra. }
  split; [|split].
  - intros u v HU HV. destruct (H u v HU HV) as [A B]. eexists. split; [exact A|exact B].
  - intros i j x y I J SX SY. assert (X : x = INR i / INR (nu - 1)). { destruct SX as [[X _]|[_ X]]; [lia|]. rewrite <- X. field. lra. } assert (Y : y = INR j / INR (nv - 1)). { destruct SY as [[Y _]|[_ Y]]; [lia|]. rewrite <- Y. field. lra. }
    assert (B : forall a n, (2 <= n)%nat -> (a < n)%nat -> 0 <= INR a / INR (n - 1) <= 1).
    { intros a n N A. assert (P : 0 < INR (n - 1)) by (apply lt_0_INR; lia). assert (Q : INR a <= INR (n - 1)) by (apply le_INR; lia). assert (S := pos_INR a). split.
      - apply Rmult_le_pos; [exact S|]. left. now apply Rinv_0_lt_compat.
      - apply Rmult_le_reg_r with (INR (n - 1)); [exact P|]. replace (INR a / INR (n - 1) * INR (n - 1)) with (INR a) by (field; lra). lra. }
    subst x y. destruct (H _ _ (B i nu U I) (B j nv W J)) as [A _]. rewrite A, cell_value_node by assumption. now rewrite (made_z fn nu nv l U W E i j I J).
  - intros a b c d F u v HU HV. destruct (H u v HU HV) as [A _]. rewrite A. f_equal. f_equal. unfold cell_value.
    assert (XU : u / (1 / INR (nu - 1)) = u * INR (nu - 1)) by (field; lra). assert (XV : v / (1 / INR (nv - 1)) = v * INR (nv - 1)) by (field; lra). rewrite XU, XV.
    assert (B : forall n t, (2 <= n)%nat -> 0 < INR (n - 1) -> 0 <= t <= 1 -> (clamp_cell n (t * INR (n - 1)) < n - 1)%nat).
    { intros n t N P [T0 T1]. refine (proj1 (clamp_cell_l n _ N _)). rewrite INR_sub1 in * by lia. split; [apply Rmult_le_pos; lra|]. rewrite <- (Rmult_1_l (INR n - 1)) at 2. apply Rmult_le_compat_r; lra. }
    assert (CU := B nu u U PU HU). assert (CV := B nv v W PV HV). set (iu := clamp_cell nu _) in *. set (iv := clamp_cell nv _) in *.
    rewrite !(made_z fn nu nv l U W E) by lia. rewrite !F. rewrite !plus_INR. cbn [INR]. field. lra.
Qed.
Print Assumptions C114_surface.
(** The values of x + 2 x y on three by two places. *)
Example C114_case : exists l h1 g, function_grid (fun p => fst p + 2 * fst p * snd p) 3 2 = Some l /\ nth_error l 3 = Some ((1/2, 1), 3/2) /\
  grid_new [] l (/ 10 ^ 6) = Some (h1, g) /\ grid_eval h1 g (1/4, 1/3) = Some ((1/4, 1/3), 5/12).
Proof.
  destruct (C114_points (fun p => fst p + 2 * fst p * snd p) 3 2 ltac:(lia) ltac:(lia)) as (l & E & _ & N).
  destruct (C114_surface _ 3 2 l [] (/ 10 ^ 6) ltac:(lia) ltac:(lia) E ltac:(lra)) as (h1 & g & G & _ & _ & _ & _ & A). exists l, h1, g. split; [exact E|]. split; [|split; [exact G|]].
  - destruct (N 1%nat 1%nat ltac:(lia) ltac:(lia)) as (x & y & X & [[F _]|[_ SX]] & [[F' _]|[_ SY]]); [discriminate|discriminate|discriminate|]. cbn in SX, SY. assert (x = 1/2) by lra. assert (y = 1) by lra. subst x y. change (1 * 2 + 1)%nat with 3%nat in X. rewrite X. f_equal. f_equal. cbn. lra.
  - rewrite (A 0 1 0 2) by (cbn; intros; lra). f_equal. f_equal. cbn. lra.
Qed.
