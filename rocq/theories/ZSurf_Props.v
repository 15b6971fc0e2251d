(** Properties C35-C38 and C56-C58 of Z_Surface and GridSurface. *)
From Coq Require Import List Arith ZArith Bool Reals Lra Lia.
From Verif Require Import Spline_Model Spline_Spec Spline_Piece Spline_Proofs Spline_Curve Spline_Props
  ZSurf_Spec ZSurf_Model ZSurf_Proofs ZSurf_Grid.
Import ListNotations.
Open Scope R_scope.

(** Sample: heights 1, 3, 2, 6 in the corners of the unit square. *)
Definition zb1 : basis := Basis 1 [0; 0; 1; 1].
Definition zsamp : surface := Surface zb1 zb1 [[[1]; [3]]; [[2]; [6]]] false.
Lemma zb1_valid : valid_basis zb1.
Proof. concrete_valid. Qed.
Lemma zsamp_good : good_surface zsamp.
Proof.
  split; [exact zb1_valid|]. split; [exact zb1_valid|]. split; [reflexivity|]. split; [reflexivity|].
  split; [reflexivity|]. intros r p Hr Hp. cbn in Hr.
  destruct Hr as [<-|[<-|[]]]; cbn in Hp; destruct Hp as [<-|[<-|[]]]; reflexivity.
Qed.
Lemma zsamp_val u v : 0 <= u <= 1 -> 0 <= v <= 1 ->
  base_z zsamp u v = Some ((1 - u) * (1 - v) * 1 + (1 - u) * v * 3 + u * (1 - v) * 2 + u * v * 6).
Proof.
  intros Hu Hv. rewrite base_z_in; [|exact zsamp_good|..]; try (unfold dom0, dom1, kn; cbn; lra).
  f_equal.
  assert (make_equidistant 1 1 0 1 = Some zb1) as E.
  { unfold make_equidistant, make_basis. cbn [Nat.eqb].
    replace (equidistant_knots 1 1 0 1) with [0; 0; 1; 1] by (unfold equidistant_knots; cbn; rlist).
    unfold free_ends. cbn. rcmp. reflexivity. }
  unfold dsum. cbn [zsamp v_basis u_basis].
  rewrite (hat_sum 1 zb1 (fun k => rsum (size zb1) (fun i => spole zsamp i k 0 * ev zb1 i u)) v 0)
    by (try lia; auto; cbn; lra).
  rewrite !(hat_sum 1 zb1 (fun i => spole zsamp i _ 0) u 0) by (try lia; auto; cbn; lra).
  unfold spole. cbn. ring.
Qed.

Lemma run_cons h e h1 es h2 : step h e = Some h1 -> run h1 es = Some h2 -> run h (e :: es) = Some h2.
Proof. intros H1 H2. cbn [run]. rewrite H1. exact H2. Qed.
Ltac run_by := repeat (eapply run_cons; [cbn [step]; eassumption|]); reflexivity.

(** C35 *)
Theorem C35_maps_inverse : forall es h i, run [] es = Some h ->
  (forall p x, xy_to_uv h i x = Some p -> uv_to_xy h i p = Some x) /\
  (forall p x, (exists y, xy_to_uv h i y <> None) -> uv_to_xy h i p = Some x -> xy_to_uv h i x = Some p).
Proof. exact inverse_l. Qed.
Print Assumptions C35_maps_inverse.

(** The constructor accepts three points not on a line, and then both maps exist. *)
Theorem C35_constructor : forall h a b c s, s_dim s = 1%nat ->
  cross (psub c b) (psub a b) <> 0 ->
  exists h1, znew h [a; b; c] s = Some h1 /\
    (forall p, uv_to_xy h1 (length h) p = Some (on_parallelogram b c a p)) /\
    (forall p, xy_to_uv h1 (length h) (on_parallelogram b c a p) = Some p).
Proof.
  intros h a b c s D Cr. destruct (znew_three h a b c s D Cr) as (o & m & im & E & _ & U & X & _).
  eauto.
Qed.
Print Assumptions C35_constructor.

(** After any program the surface is the original one transformed by the last
    xy transform about the image of the middle, with heights as specified. *)
Theorem C35_transform : forall h l s h1 es h2, good_surface s ->
  znew h l s = Some h1 -> run h1 es = Some h2 ->
  let i := length h in
  (forall p, exists x c, uv_to_xy h1 i p = Some x /\ uv_to_xy h1 i (1/2, 1/2) = Some c /\
     uv_to_xy h2 i p = Some (match last_some (map (xy_event i) es) with
                             | Some (A, b) => about (rows A) b c x
                             | None => x
                             end)) /\
  (forall u v, z_eval h1 i (u, v) = base_z s u v /\
     z_eval h2 i (u, v) = zheight (zrun (base_z s) (flat_map (z_events i) es)) u v).
Proof.
  intros h l s h1 es h2 G E1 E2 i.
  destruct (history_l _ _ _ _ _ _ G E1 E2) as (q & Q & (o & N & X & Zi)).
  destruct (history_l _ _ _ _ [] _ G E1 eq_refl) as (q' & Q' & (o1 & N1 & X1 & Zi1)).
  rewrite Q in Q'. injection Q' as <-. fold i in N, X, Zi, N1, X1, Zi1. split.
  - intros p. exists (map0 q p), (map0 q (1/2, 1/2)).
    split; [exact (xy_inv_map _ _ _ _ _ _ N1 X1)|]. split; [exact (xy_inv_map _ _ _ _ _ _ N1 X1)|].
    rewrite (xy_inv_map _ _ _ _ _ _ N X). reflexivity.
  - intros u v. unfold z_eval. rewrite N, N1. cbn [fst snd].
    rewrite (z_inv_height _ _ _ _ Zi), (z_inv_height _ _ _ _ Zi1). split; reflexivity.
Qed.
Print Assumptions C35_transform.

(** Transforms with a regular matrix are accepted. *)
Theorem C35_transform_succeeds : forall h a b c s h1 es h2 A t z, good_surface s ->
  cross (psub c b) (psub a b) <> 0 -> znew h [a; b; c] s = Some h1 -> run h1 es = Some h2 ->
  base_z s (1/2) (1/2) <> None -> det A <> 0 ->
  exists h3, transform h2 (length h) (Some (A, t)) z = Some h3.
Proof.
  intros h a b c s h1 es h2 A t z G Cr E1 E2 Hc Da.
  destruct (history_l _ _ _ _ _ _ G E1 E2) as (q & Q & I). cbn in Q. injection Q as <-.
  eapply transform_succeeds_l; eauto.
  - unfold is_linear. cbn [q0 q1 q2 q3]. apply allclose_refl.
  - apply zrun_center. exact Hc.
Qed.
Print Assumptions C35_transform_succeeds.

Example C35_case : exists h1 h2 h3,
  znew [] [(1, 3); (1, 1); (5, 1)] zsamp = Some h1 /\
  run h1 [OTransform 0 (Some (Mat 2 0 0 1, (7, 0))) None] = Some h2 /\
  run h1 [OTransform 0 (Some (Mat 2 0 0 1, (7, 0))) None;
          OTransform 0 (Some (Mat 0 (-1) 1 0, (0, 2))) (Some (3, 1)); OApply 0] = Some h3 /\
  uv_to_xy h3 0 (1, 1) = Some (3 - 1, 2 + 2 + 2) /\
  uv_to_xy h2 0 (1, 1) = Some (2 * 2 + 3 + 7, 3) /\
  z_eval h3 0 (1, 1) = Some (3 * (6 - 3) + 3 + 1).
Proof.
  assert (cross (psub (5, 1) (1, 1)) (psub (1, 3) (1, 1)) <> 0) as Cr by (unfold cross, psub; cbn; lra).
  destruct (C35_constructor [] (1, 3) (1, 1) (5, 1) zsamp eq_refl Cr) as (h1 & E1 & U1 & _).
  assert (base_z zsamp (1/2) (1/2) = Some 3) as Hc.
  { rewrite zsamp_val by lra. f_equal. lra. }
  destruct (C35_transform_succeeds [] (1, 3) (1, 1) (5, 1) zsamp h1 [] h1 (Mat 2 0 0 1) (7, 0) None
    zsamp_good Cr E1 eq_refl ltac:(congruence) ltac:(unfold det; cbn; lra)) as (h2 & E2).
  assert (run h1 [OTransform 0 (Some (Mat 2 0 0 1, (7, 0))) None] = Some h2) as R2.
  { run_by. }
  destruct (C35_transform_succeeds [] (1, 3) (1, 1) (5, 1) zsamp h1 _ h2 (Mat 0 (-1) 1 0) (0, 2) (Some (3, 1))
    zsamp_good Cr E1 R2 ltac:(congruence) ltac:(unfold det; cbn; lra)) as (h3 & E3).
  assert (exists h4, apply_z h3 0 = Some h4) as (h4 & E4).
  { destruct (history_l _ _ _ _ [OTransform 0 (Some (Mat 2 0 0 1, (7, 0))) None; OTransform 0 (Some (Mat 0 (-1) 1 0, (0, 2))) (Some (3, 1))] h3 zsamp_good E1)
      as (q & _ & (o & N & _)).
    { run_by. }
    cbn [length] in N. unfold apply_z. rewrite N. destruct (have_z o); eauto. }
  assert (run h1 [OTransform 0 (Some (Mat 2 0 0 1, (7, 0))) None;
          OTransform 0 (Some (Mat 0 (-1) 1 0, (0, 2))) (Some (3, 1)); OApply 0] = Some h4) as R4.
  { run_by. }
  exists h1, h2, h4. split; auto. split; auto. split; auto.
  destruct (C35_transform _ _ _ _ _ _ zsamp_good E1 R4) as [T4 Z4].
  destruct (C35_transform _ _ _ _ _ _ zsamp_good E1 R2) as [T2 _]. cbn [length] in *.
  destruct (T4 (1, 1)) as (x & c & X & C & ->). destruct (T2 (1, 1)) as (x' & c' & X' & C' & ->).
  rewrite U1 in X, C, X', C'. injection X as <-. injection C as <-. injection X' as <-. injection C' as <-.
  cbn [map last_some xy_event Nat.eqb]. unfold about, rows, on_parallelogram. cbn [m00 m01 m10 m11 fst snd].
  split; [|split].
  - f_equal. apply pt_eq; cbn; lra.
  - f_equal. apply pt_eq; cbn; lra.
  - destruct (Z4 1 1) as [_ ->]. cbn [flat_map z_events Nat.eqb app]. unfold zrun. cbn [fold_left zstep fst snd].
    unfold zheight. cbn [fst snd]. unfold scaled. rewrite Hc, zsamp_val by lra. f_equal. lra.
Qed.

(** C36 *)
Theorem C36_height_difference : forall h pts tol h1 g ts h2 g2 u v, 0 < tol ->
  grid_new h pts tol = Some (h1, g) -> grid_run h1 g ts = Some (h2, g2) ->
  0 <= u <= 1 -> 0 <= v <= 1 ->
  exists p z z' p0 zc, grid_eval h2 g2 (u, v) = Some (p, z) /\ grid_z_eval h2 g2 (u, v) = Some z' /\
    grid_eval h1 g (1/2, 1/2) = Some (p0, zc) /\ z = z' + (1 - fst (z_last ts)) * zc.
Proof.
  intros h pts tol h1 g ts h2 g2 u v Ht G R U V.
  destruct (grid_height_l _ _ _ _ _ _ _ _ _ _ Ht G R U V) as (p & z & z' & p0 & zc & A & B & C & D & _).
  eauto 10.
Qed.
Print Assumptions C36_height_difference.

Theorem C36_agrees_unscaled : forall h pts tol h1 g ts h2 g2 u v, 0 < tol ->
  grid_new h pts tol = Some (h1, g) -> grid_run h1 g ts = Some (h2, g2) ->
  fst (z_last ts) = 1 -> 0 <= u <= 1 -> 0 <= v <= 1 ->
  exists p z, grid_eval h2 g2 (u, v) = Some (p, z) /\ grid_z_eval h2 g2 (u, v) = Some z.
Proof.
  intros h pts tol h1 g ts h2 g2 u v Ht G R S U V.
  destruct (grid_height_l _ _ _ _ _ _ _ _ _ _ Ht G R U V) as (p & z & z' & p0 & zc & A & B & C & D & _).
  exists p, z. split; auto. rewrite B, D, S. f_equal. ring.
Qed.
Print Assumptions C36_agrees_unscaled.

(** At the nodes the data, transformed by the raw scale and shift. *)
Theorem C36_nodes : forall h pts tol h1 g ts h2 g2 i j, 0 < tol ->
  grid_new h pts tol = Some (h1, g) -> grid_run h1 g ts = Some (h2, g2) ->
  (i < g_nu g)%nat -> (j < g_nv g)%nat ->
  length pts = (g_nu g * g_nv g)%nat /\
  grid_z_eval h2 g2 (INR i / INR (g_nu g - 1), INR j / INR (g_nv g - 1)) =
    Some (fst (z_last ts) * snd (nth (i * g_nv g + j) pts ((0, 0), 0)) + snd (z_last ts)).
Proof.
  intros h pts tol h1 g ts h2 g2 i j Ht G R Hi Hj.
  pose proof (grid_new_l _ _ _ _ _ Ht G) as [_ (Gu & Gv & Gl) _ _ _]. split; auto.
  assert (forall a n, (2 <= n)%nat -> (a < n)%nat -> 0 <= INR a / INR (n - 1) <= 1) as B.
  { intros a n Hn Ha. assert (0 < INR (n - 1)) as P by (apply lt_0_INR; lia).
    assert (INR a <= INR (n - 1)) as Q by (apply le_INR; lia). pose proof (pos_INR a).
    split.
    - apply Rmult_le_pos; [auto|]. left. apply Rinv_0_lt_compat. auto.
    - apply Rmult_le_reg_r with (INR (n - 1)); auto.
      replace (INR a / INR (n - 1) * INR (n - 1)) with (INR a) by (field; lra). lra. }
  destruct (grid_height_l _ _ _ _ _ _ _ _ _ _ Ht G R (B i _ Gu Hi) (B j _ Gv Hj))
    as (p & z & z' & p0 & zc & _ & -> & _ & _ & ->).
  rewrite cell_value_node by auto. do 3 f_equal.
  apply (nth_map_lt snd pts (i * g_nv g + j) 0 ((0, 0), 0)). rewrite Gl. nia.
Qed.
Print Assumptions C36_nodes.

Definition gsamp : list (pt * R) :=
  [((0, 0), 1); ((0, 2), 3); ((0, 4), 4); ((3, 0), 2); ((3, 2), 6); ((3, 4), 0)].

Lemma gsamp_lattice : lattice (0, 0) (3, 0) (0, 2) 2 3 (map fst gsamp).
Proof.
  split; [reflexivity|]. intros i j Hi Hj.
  destruct i as [|[|i]]; [| |lia]; (destruct j as [|[|[|j]]]; [| | |lia]); cbn; apply pt_eq; cbn; lra.
Qed.

Lemma gsamp_made : exists h1 g, grid_new [] gsamp (/ 10 ^ 6) = Some (h1, g) /\ g_nu g = 2%nat /\ g_nv g = 3%nat.
Proof.
  destruct (grid_accepts_l [] gsamp (/ 10 ^ 6) (0, 0) (3, 0) (0, 2) 2 3) as (h1 & g & E & A & B & _);
    try lia; try lra.
  - exact gsamp_lattice.
  - unfold cross. cbn. lra.
  - unfold norm_inf, psub. cbn. unfold Rmax, Rabs.
    repeat (destruct (Rcase_abs _); try (exfalso; lra)). repeat (destruct (Rle_dec _ _); try (exfalso; lra)); lra.
  - exists h1, g. auto.
Qed.

Lemma grid_run_one h g xy z h' g' : grid_transform h g xy z = Some (h', g') ->
  grid_run h g [(xy, z)] = Some (h', g').
Proof. intros H. cbn [grid_run]. rewrite H. reflexivity. Qed.

(** z_eval_array and eval_array differ when the scale is not 1. *)
Theorem C36_scaled_refuted : exists h1 g h2 g2 p z z',
  grid_new [] gsamp (/ 10 ^ 6) = Some (h1, g) /\
  grid_transform h1 g (Some (Mat 1 0 0 1, (0, 0))) (Some (2, 0)) = Some (h2, g2) /\
  grid_eval h2 g2 (0, 0) = Some (p, z) /\ grid_z_eval h2 g2 (0, 0) = Some z' /\ z <> z'.
Proof.
  destruct gsamp_made as (h1 & g & E & Nu & Nv).
  assert (0 < / 10 ^ 6) as Ht by lra.
  destruct (grid_height_l _ _ _ _ _ [] h1 g (1/2) (1/2) Ht E eq_refl ltac:(lra) ltac:(lra))
    as (p0 & z0 & z0' & p1 & zc & A & B & C & D & F).
  assert (z0 = 9/2) as Z0.
  { rewrite D, F, Nu, Nv. unfold z_last. cbn [map last_some fst snd]. unfold cell_value. cbn [Nat.sub INR].
    replace (1 / 2 / (1 / 1)) with (1/2) by field. replace (1 / 2 / (1 / (1 + 1))) with 1 by field.
    assert (clamp_cell 2 (1/2) = 0%nat) as ->.
    { pose proof (clamp_cell_l 2 (1/2) ltac:(lia)) as K. unfold clamp_cell. lia. }
    assert (clamp_cell 3 1 = 0%nat \/ clamp_cell 3 1 = 1%nat) as [-> | ->].
    { unfold clamp_cell. lia. }
    - cbn. lra.
    - cbn. lra. }
  rewrite A in C. injection C as <- <-.
  destruct (grid_transform_succeeds_l _ _ _ _ _ [] h1 g (Mat 1 0 0 1) (0, 0) (Some (2, 0)) Ht E eq_refl)
    as (h2 & g2 & T); [unfold det; cbn; lra|].
  destruct (C36_height_difference _ _ _ _ _ [(Some (Mat 1 0 0 1, (0, 0)), Some (2, 0))] h2 g2 0 0 Ht E)
    as (p & z & z' & p2 & zc' & A2 & B2 & C2 & D2); try lra.
  { apply grid_run_one. exact T. }
  exists h1, g, h2, g2, p, z, z'. repeat (split; [assumption|]).
  rewrite A in C2. injection C2 as _ <-. cbn in D2. lra.
Qed.
Print Assumptions C36_scaled_refuted.

Example C36_case : exists h1 g h2 g2 p z,
  grid_new [] gsamp (/ 10 ^ 6) = Some (h1, g) /\
  grid_transform h1 g (Some (Mat 2 1 0 1, (5, 0))) (Some (1, 7)) = Some (h2, g2) /\
  grid_eval h2 g2 (1, 1/2) = Some (p, z) /\ grid_z_eval h2 g2 (1, 1/2) = Some z /\ z = 13.
Proof.
  destruct gsamp_made as (h1 & g & E & Nu & Nv). assert (0 < / 10 ^ 6) as Ht by lra.
  destruct (grid_transform_succeeds_l _ _ _ _ _ [] h1 g (Mat 2 1 0 1) (5, 0) (Some (1, 7)) Ht E eq_refl)
    as (h2 & g2 & T); [unfold det; cbn; lra|].
  assert (grid_run h1 g [(Some (Mat 2 1 0 1, (5, 0)), Some (1, 7))] = Some (h2, g2)) as R
    by (apply grid_run_one; exact T).
  destruct (C36_agrees_unscaled _ _ _ _ _ _ h2 g2 1 (1/2) Ht E R eq_refl) as (p & z & A & B); try lra.
  exists h1, g, h2, g2, p, z. repeat (split; [assumption|]).
  destruct (C36_nodes _ _ _ _ _ _ h2 g2 1 1 Ht E R) as [_ N]; try lia.
  rewrite Nu, Nv in N. cbn [Nat.sub INR] in N.
  replace (1 / 1) with 1 in N by field. replace (1 / (1 + 1)) with (1/2) in N by field.
  rewrite N in B. injection B as <-. cbn. lra.
Qed.

(** C37 *)
Theorem C37_contains : forall h l s h1 es h2 u v, good_surface s ->
  znew h l s = Some h1 -> run h1 es = Some h2 ->
  (forall a b c d, l = [a; b; c; d] -> allclose d (v11_of a b c) = true -> d = v11_of a b c) ->
  (forall a t, snd (zrun (base_z s) (flat_map (z_events (length h)) es)) = Some (a, t) -> 0 <= a) ->
  dom0 (u_basis s) <= u <= dom1 (u_basis s) -> dom0 (v_basis s) <= v <= dom1 (v_basis s) ->
  0 <= u <= 1 -> 0 <= v <= 1 ->
  exists p lo hi, eval_pt h2 (length h) (u, v) = Some p /\ aabb h2 (length h) = Some (lo, hi) /\
    fst (fst lo) <= fst (fst p) <= fst (fst hi) /\
    snd (fst lo) <= snd (fst p) <= snd (fst hi) /\
    snd lo <= snd p <= snd hi.
Proof.
  intros h l s h1 es h2 u v G E1 E2 Ex Sc Du Dv Hu Hv.
  destruct (history_l _ _ _ _ _ _ G E1 E2) as (q & Q & I).
  eapply aabb_l; eauto.
  - intros L. destruct l as [|a [|b [|c [|d [|]]]]]; cbn in Q; try discriminate; injection Q as <-.
    + reflexivity.
    + cbn [q0 q1 q2 q3] in *. apply (Ex a b c d eq_refl). exact L.
  - destruct (snd _) as [[a t]|]; [|exact Logic.I]. exact (Sc a t eq_refl).
  - intros o N. destruct (bases_run s _ _ _ _ (bases_new _ _ _ _ E1) E2) as (o' & N' & B1 & B2).
    rewrite N in N'. injection N' as <-. rewrite B1, B2. auto.
Qed.
Print Assumptions C37_contains.

Lemma zsamp_new : exists h1, znew [] [(0, 1); (0, 0); (1, 0)] zsamp = Some h1.
Proof.
  destruct (C35_constructor [] (0, 1) (0, 0) (1, 0) zsamp eq_refl) as (h1 & E & _);
    [unfold cross, psub; cbn; lra|eauto].
Qed.
Lemma zsamp_transform h1 es h2 A t z : znew [] [(0, 1); (0, 0); (1, 0)] zsamp = Some h1 ->
  run h1 es = Some h2 -> det A <> 0 -> exists h3, transform h2 0 (Some (A, t)) z = Some h3.
Proof.
  intros E R D. apply (C35_transform_succeeds [] (0, 1) (0, 0) (1, 0) zsamp h1 es h2); auto.
  - exact zsamp_good.
  - unfold cross, psub; cbn; lra.
  - rewrite zsamp_val by lra. discriminate.
Qed.

(** With a negative scale the box is turned over and does not contain the surface. *)
Theorem C37_negative_scale_refuted : exists h1 h2 p lo hi,
  znew [] [(0, 1); (0, 0); (1, 0)] zsamp = Some h1 /\
  transform h1 0 (Some (Mat 1 0 0 1, (0, 0))) (Some (-1, 0)) = Some h2 /\
  eval_pt h2 0 (1/2, 1/2) = Some p /\ aabb h2 0 = Some (lo, hi) /\
  snd hi < snd p < snd lo.
Proof.
  destruct zsamp_new as (h1 & E1).
  destruct (zsamp_transform h1 [] h1 (Mat 1 0 0 1) (0, 0) (Some (-1, 0)) E1 eq_refl) as (h2 & E2);
    [unfold det; cbn; lra|].
  assert (run h1 [OTransform 0 (Some (Mat 1 0 0 1, (0, 0))) (Some (-1, 0))] = Some h2) as R
    by (run_by).
  destruct (history_l _ _ _ _ _ _ zsamp_good E1 R) as (q & _ & (o & N & X & Zi)). cbn [length] in *.
  assert (base_z zsamp (1/2) (1/2) = Some 3) as Hc by (rewrite zsamp_val by lra; f_equal; lra).
  assert (z_base o = zsamp) as Zb.
  { revert E2. unfold transform. intros E2.
    destruct (transform_xy h1 0 _ _) as [ha|] eqn:Ea in E2; [|discriminate].
    apply znew_l in E1 as (q1' & o1 & _ & -> & _ & B1 & _).
    apply transform_xy_l in Ea as (o0 & o0' & c & zc & sh & m & im & im' & o' & N' & Rr & _ & _ & _ & -> & ->).
    cbn in N'. injection N' as <-. apply reset_xy_l in Rr as (Rb & _).
    apply transform_z_l in E2 as (o2 & c2 & zc2 & o2' & N2 & _ & -> & ->).
    cbn in N2. injection N2 as <-. cbn in N. injection N as <-. cbn. congruence. }
  pose proof (zi_tr _ _ Zi) as T. cbn in T. destruct T as (_ & zc & Hzc & M). rewrite Hc in Hzc. injection Hzc as <-.
  assert (z_eval h2 0 (1/2, 1/2) = Some 3) as Ez.
  { unfold z_eval. rewrite N. cbn [fst snd]. rewrite (z_inv_height _ _ _ _ Zi). unfold zheight. cbn.
    unfold scaled. rewrite Hc. f_equal. lra. }
  assert (surface_aabb zsamp = Some ([1], [6])) as Sa.
  { unfold surface_aabb. cbn. unfold Rmin, Rmax.
    repeat (destruct (Rle_dec _ _); try (exfalso; lra)); reflexivity. }
  exists h1, h2. unfold eval_pt, aabb. rewrite N, Ez, (xy_inv_map _ _ _ _ _ _ N X), Zb, Sa. cbn [amin amax].
  eexists _, _, _. split; [exact E1|]. split; [exact E2|]. split; [reflexivity|]. split; [reflexivity|].
  rewrite M. cbn. lra.
Qed.
Print Assumptions C37_negative_scale_refuted.

Example C37_case : exists h1 h2 p lo hi,
  znew [] [(0, 1); (0, 0); (1, 0)] zsamp = Some h1 /\
  run h1 [OTransform 0 (Some (Mat 0 (-1) 1 0, (3, 0))) (Some (2, 1)); OApply 0] = Some h2 /\
  eval_pt h2 0 (1, 1) = Some p /\ aabb h2 0 = Some (lo, hi) /\
  snd p = 10 /\ snd lo <= 10 <= snd hi.
Proof.
  destruct zsamp_new as (h1 & E1).
  destruct (zsamp_transform h1 [] h1 (Mat 0 (-1) 1 0) (3, 0) (Some (2, 1)) E1 eq_refl) as (h2 & E2);
    [unfold det; cbn; lra|].
  assert (exists h3, apply_z h2 0 = Some h3) as (h3 & E3).
  { destruct (history_l _ _ _ _ [OTransform 0 (Some (Mat 0 (-1) 1 0, (3, 0))) (Some (2, 1))] h2 zsamp_good E1)
      as (q & _ & (o & N & _)); [run_by|].
    cbn [length] in N. unfold apply_z. rewrite N. destruct (have_z o); eauto. }
  assert (run h1 [OTransform 0 (Some (Mat 0 (-1) 1 0, (3, 0))) (Some (2, 1)); OApply 0] = Some h3) as R
    by (run_by).
  destruct (C37_contains [] _ zsamp h1 _ h3 1 1 zsamp_good E1 R) as (p & lo & hi & A & B & _ & _ & C);
    try (unfold dom0, dom1, kn; cbn; lra).
  - intros a b c d [=].
  - intros a t. cbn. discriminate.
  - exists h1, h3, p, lo, hi. cbn [length] in *. repeat (split; [assumption|]).
    assert (snd p = 10) as P.
    { destruct (C35_transform _ _ _ _ _ _ zsamp_good E1 R) as [_ Z]. destruct (Z 1 1) as [_ Z1]. cbn [length] in Z1.
      unfold eval_pt in A. rewrite Z1 in A. cbn [flat_map z_events Nat.eqb app] in A.
      unfold zrun, zheight in A. cbn [fold_left zstep fst snd] in A. unfold zheight in A. cbn [fst snd] in A.
      unfold scaled in A. rewrite !zsamp_val in A by lra.
      destruct (uv_to_xy _ _ _) in A; [|discriminate]. injection A as <-. cbn. lra. }
    split; [exact P|]. rewrite <- P. exact C.
Qed.

(** C38: operations on the copy, or on anything else, leave a constructed surface alone. *)
Theorem C38_copy_does_not_affect_original : forall h l s h1 es h2 es' h3 uv, 
  znew h l s = Some h1 -> run h1 es = Some h2 ->
  run h2 (OCopy (length h) :: es') = Some h3 -> untouched (length h) es' ->
  eval_pt h3 (length h) uv = eval_pt h2 (length h) uv /\
  uv_to_xy h3 (length h) uv = uv_to_xy h2 (length h) uv /\
  xy_to_uv h3 (length h) uv = xy_to_uv h2 (length h) uv /\
  aabb h3 (length h) = aabb h2 (length h).
Proof.
  intros h l s h1 es h2 es' h3 uv E1 E2 E3 U.
  pose proof (self_bound_run _ _ _ _ E2 (self_bound_new _ _ _ _ E1)) as B.
  destruct (self_bound_frame h2 _ h3 (length h) uv E3 B) as (_ & X1 & X2 & X3 & X4); auto.
  intros e [<-|He]; [discriminate|auto].
Qed.
Print Assumptions C38_copy_does_not_affect_original.

Theorem C38_height_independent : forall h i h1 es h2 uv, get_copy h i = Some h1 ->
  run h1 es = Some h2 -> untouched (length h) es ->
  z_eval h2 (length h) uv = z_eval h i uv.
Proof.
  intros h i h1 es h2 uv C R U. unfold get_copy in C. destruct (nth_error h i) as [o|] eqn:N; [|discriminate].
  injection C as <-. rewrite (z_frame _ _ _ _ uv R); auto.
  - unfold z_eval. rewrite nth_app_new, N. reflexivity.
  - rewrite app_length. cbn. lia.
Qed.
Print Assumptions C38_height_independent.

Theorem C38_after_own_transform : forall h j A b z h1 es h2 uv,
  transform h j (Some (A, b)) z = Some h1 -> run h1 es = Some h2 -> untouched j es ->
  eval_pt h2 j uv = eval_pt h1 j uv /\ uv_to_xy h2 j uv = uv_to_xy h1 j uv /\
  xy_to_uv h2 j uv = xy_to_uv h1 j uv /\ aabb h2 j = aabb h1 j.
Proof.
  intros h j A b z h1 es h2 uv T R U.
  destruct (self_bound_frame h1 _ h2 j uv R (self_bound_transform _ _ _ _ _ T)) as (_ & X1 & X2 & X3 & X4); auto.
Qed.
Print Assumptions C38_after_own_transform.

(** Until then the copy moves with the original, whatever is done to the original. *)
Theorem C38_copy_follows_original : forall h l s h1 es h2 es' h3 p, good_surface s ->
  znew h l s = Some h1 -> run h1 es = Some h2 ->
  run h2 (OCopy (length h) :: es') = Some h3 -> untouched (length h2) es' ->
  uv_to_xy h3 (length h2) p = uv_to_xy h3 (length h) p.
Proof.
  intros h l s h1 es h2 es' h3 p G E1 E2 E3 U.
  destruct (history_l _ _ _ _ _ _ G E1 E2) as (q & _ & I). cbn [run step] in E3.
  destruct (get_copy h2 (length h)) as [h2'|] eqn:C; [|discriminate].
  eapply copy_follows_l; eauto.
Qed.
Print Assumptions C38_copy_follows_original.

Theorem C38_refuted : exists h1 h2 h3,
  znew [] [(0, 1); (0, 0); (1, 0)] zsamp = Some h1 /\ get_copy h1 0 = Some h2 /\
  transform h2 0 (Some (Mat 1 0 0 1, (5, 0))) None = Some h3 /\
  uv_to_xy h2 1 (0, 0) = Some (0, 0) /\ uv_to_xy h3 1 (0, 0) = Some (5, 0).
Proof.
  destruct zsamp_new as (h1 & E1). pose proof E1 as E1'.
  apply znew_l in E1' as (q & o & _ & Eh & _).
  assert (get_copy h1 0 = Some (h1 ++ [o])) as C by (unfold get_copy; rewrite Eh; reflexivity).
  destruct (zsamp_transform h1 [OCopy 0] (h1 ++ [o]) (Mat 1 0 0 1) (5, 0) None E1) as (h3 & T).
  { run_by. }
  { unfold det. cbn. lra. }
  exists h1, (h1 ++ [o]), h3. split; [exact E1|]. split; [exact C|]. split; [exact T|].
  assert (length h1 = 1%nat) as L by (rewrite Eh; reflexivity).
  assert (uv_to_xy h1 0 (0, 0) = Some (0, 0) /\ uv_to_xy h1 0 (1/2, 1/2) = Some (1/2, 1/2)) as [U0 U1].
  { destruct (C35_constructor [] (0, 1) (0, 0) (1, 0) zsamp eq_refl) as (h1' & E & U & _);
      [unfold cross, psub; cbn; lra|]. pose proof (eq_trans (eq_sym E) E1) as Eq. injection Eq as ->. cbn [length] in U. rewrite !U.
    split; f_equal; apply pt_eq; cbn; lra. }
  split.
  - assert (run h1 [OCopy 0] = Some (h1 ++ [o])) as R by (run_by).
    pose proof (C38_copy_follows_original [] _ _ h1 [] h1 [] _ (0, 0) zsamp_good E1 eq_refl R) as F.
    rewrite L in F. cbn [length] in F. rewrite F by (intros e []).
    destruct (C38_copy_does_not_affect_original [] _ _ h1 [] h1 [] _ (0, 0) E1 eq_refl R) as (_ & X & _);
      [intros e []|]. cbn [length] in X. rewrite X. exact U0.
  - assert (run h1 [OCopy 0; OTransform 0 (Some (Mat 1 0 0 1, (5, 0))) None] = Some h3) as R
      by (run_by).
    pose proof (C38_copy_follows_original [] _ _ h1 [] h1 _ _ (0, 0) zsamp_good E1 eq_refl R) as F.
    rewrite L in F. cbn [length] in F. rewrite F by (intros e [<-|[]]; discriminate).
    destruct (C35_transform _ _ _ _ _ _ zsamp_good E1 R) as [X _]. cbn [length] in X.
    destruct (X (0, 0)) as (x & c & X1 & X2 & ->). rewrite U0 in X1. injection X1 as <-.
    rewrite U1 in X2. injection X2 as <-. cbn. f_equal. apply pt_eq; cbn; lra.
Qed.
Print Assumptions C38_refuted.

(** C56 *)
Theorem C56_full_surface : forall h l s h1 es h2 u v, good_surface s ->
  (1 <= degree (u_basis s))%nat -> (1 <= degree (v_basis s))%nat ->
  znew h l s = Some h1 -> run h1 es = Some h2 ->
  dom0 (u_basis s) <= u <= dom1 (u_basis s) -> dom0 (v_basis s) <= v <= dom1 (v_basis s) ->
  exists fs p z, make_full_surface h2 (length h) = Some fs /\
    uv_to_xy h2 (length h) (u - dom0 (u_basis s), v - dom0 (v_basis s)) = Some p /\
    z_eval h2 (length h) (u, v) = Some z /\ surface_eval fs u v = Some [fst p; snd p; z].
Proof.
  intros h l s h1 es h2 u v G Du Dv E1 E2 Hu Hv.
  destruct (history_l _ _ _ _ _ _ G E1 E2) as (q & _ & I).
  destruct (bases_run s _ _ _ _ (bases_new _ _ _ _ E1) E2) as (o & N & B1 & B2).
  rewrite <- B1, <- B2. eapply full_surface_l; eauto; rewrite ?B1, ?B2; auto.
Qed.
Print Assumptions C56_full_surface.

(** The same surface when the domains start at 0. *)
Theorem C56_same_surface : forall h l s h1 es h2 u v, good_surface s ->
  (1 <= degree (u_basis s))%nat -> (1 <= degree (v_basis s))%nat ->
  dom0 (u_basis s) = 0 -> dom0 (v_basis s) = 0 ->
  znew h l s = Some h1 -> run h1 es = Some h2 ->
  0 <= u <= dom1 (u_basis s) -> 0 <= v <= dom1 (v_basis s) ->
  exists fs p z, make_full_surface h2 (length h) = Some fs /\
    eval_pt h2 (length h) (u, v) = Some (p, z) /\ surface_eval fs u v = Some [fst p; snd p; z].
Proof.
  intros h l s h1 es h2 u v G Du Dv Zu Zv E1 E2 Hu Hv.
  destruct (C56_full_surface h l s h1 es h2 u v G Du Dv E1 E2) as (fs & p & z & A & B & C & D);
    rewrite ?Zu, ?Zv in *; auto.
  exists fs, p, z. split; auto. split; auto.
  replace (u - 0) with u in B by ring. replace (v - 0) with v in B by ring.
  unfold eval_pt. rewrite B, C. reflexivity.
Qed.
Print Assumptions C56_same_surface.

(** Otherwise it is a shifted one. *)
Definition zb2 : basis := Basis 1 [1; 1; 2; 2].
Definition zsamp2 : surface := Surface zb2 zb2 [[[1]; [3]]; [[2]; [6]]] false.
Lemma zb2_valid : valid_basis zb2.
Proof. concrete_valid. Qed.
Lemma zsamp2_good : good_surface zsamp2.
Proof.
  split; [exact zb2_valid|]. split; [exact zb2_valid|]. split; [reflexivity|]. split; [reflexivity|].
  split; [reflexivity|]. intros r p Hr Hp. cbn in Hr.
  destruct Hr as [<-|[<-|[]]]; cbn in Hp; destruct Hp as [<-|[<-|[]]]; reflexivity.
Qed.
Theorem C56_shifted_refuted : exists h1 fs z,
  znew [] [(0, 1); (0, 0); (1, 0)] zsamp2 = Some h1 /\ make_full_surface h1 0 = Some fs /\
  eval_pt h1 0 (1, 1) = Some ((1, 1), z) /\ surface_eval fs 1 1 = Some [0; 0; z].
Proof.
  destruct (C35_constructor [] (0, 1) (0, 0) (1, 0) zsamp2 eq_refl) as (h1 & E & U & _);
    [unfold cross, psub; cbn; lra|]. cbn [length] in U.
  destruct (C56_full_surface [] [(0, 1); (0, 0); (1, 0)] zsamp2 h1 [] h1 1 1 zsamp2_good) as (fs & p & z & A & B & C & D);
    auto; try (cbn; lia); try (unfold dom0, dom1, kn; cbn; lra).
  cbn [length] in *. exists h1, fs, z. split; auto. split; auto.
  unfold eval_pt. rewrite C, U. rewrite U in B. injection B as <-. split.
  - do 2 f_equal. apply pt_eq; cbn; lra.
  - rewrite D. unfold on_parallelogram, dom0, kn. cbn. do 2 f_equal; [lra|f_equal; lra].
Qed.
Print Assumptions C56_shifted_refuted.

Example C56_case : exists h1 fs, znew [] [(0, 1); (0, 0); (1, 0)] zsamp = Some h1 /\
  make_full_surface h1 0 = Some fs /\ surface_eval fs 1 (1/2) = Some [1; 1/2; 4].
Proof.
  destruct zsamp_new as (h1 & E).
  destruct (C56_same_surface [] [(0, 1); (0, 0); (1, 0)] zsamp h1 [] h1 1 (1/2) zsamp_good) as (fs & p & z & A & B & C);
    auto; try (cbn; lia); try (unfold dom0, dom1, kn; cbn; lra).
  cbn [length] in *. exists h1, fs. split; auto. split; auto. rewrite C.
  destruct (C35_constructor [] (0, 1) (0, 0) (1, 0) zsamp eq_refl) as (h1' & E' & U & _);
    [unfold cross, psub; cbn; lra|]. pose proof (eq_trans (eq_sym E') E) as Eq. injection Eq as ->. cbn [length] in U.
  destruct (C35_transform [] _ zsamp h1 [] h1 zsamp_good E eq_refl) as [_ Z]. destruct (Z 1 (1/2)) as [Z1 _].
  cbn [length] in Z1. unfold eval_pt in B. rewrite Z1, U, zsamp_val in B by lra. injection B as <- <-.
  cbn. do 2 f_equal; [lra|f_equal; [lra|f_equal; lra]].
Qed.

(** C57 *)
Theorem C57_lattice_accepted : forall h (pts : list (pt * R)) tol o du dv nu nv,
  0 < tol -> (2 <= nu)%nat -> (2 <= nv)%nat ->
  lattice o du dv nu nv (map fst pts) -> fst du * snd dv - snd du * fst dv <> 0 ->
  tol * norm_inf dv < norm_inf (psub du (INR nv * fst dv, INR nv * snd dv)) ->
  exists h1 g, grid_new h pts tol = Some (h1, g) /\ g_nu g = nu /\ g_nv g = nv /\
    g_data g = map snd pts /\
    (forall i j, (i < nu)%nat -> (j < nv)%nat ->
       nth (i * nv + j) (g_uv g) (0, 0) = (INR i / INR (nu - 1), INR j / INR (nv - 1))).
Proof.
  intros h pts tol o du dv nu nv Ht Hu Hv L Cr T.
  assert (cross du dv <> 0) as Cr' by (intros X; apply Cr; rewrite <- X; unfold cross; ring).
  destruct (grid_accepts_l h pts tol o du dv nu nv Ht Hu Hv L Cr' T) as (h1 & g & A & B & C & D & _ & _ & E & _).
  exists h1, g. auto.
Qed.
Print Assumptions C57_lattice_accepted.

Example C57_case : exists h1 g, grid_new [] gsamp (/ 10 ^ 6) = Some (h1, g) /\ g_nu g = 2%nat /\ g_nv g = 3%nat.
Proof. exact gsamp_made. Qed.

(** C58 *)
Theorem C58_nearly_regular : forall h (pts : list (pt * R)) tol h1 g, 0 < tol ->
  grid_new h pts tol = Some (h1, g) ->
  let P i j := @nth pt (i * g_nv g + j) (map fst pts) (0, 0) in
  let m := (g_nu g - 1)%nat in let n := (g_nv g - 1)%nat in
  let side := Rmax (norm2 (psub (P 0 0) (P 0 n)))%nat (Rmax (norm2 (psub (P m 0) (P 0 0)))%nat
                (Rmax (norm2 (psub (P m n) (P m 0)))%nat (norm2 (psub (P 0 n) (P m n)))%nat)) in
  forall i j f, (i <= m)%nat -> (j <= n)%nat -> f = fst \/ f = snd ->
  Rabs (f (P i j) - (f (P 0 0)%nat + INR i / INR m * (f (P m 0)%nat - f (P 0 0)%nat)
                                   + INR j / INR n * (f (P m n) - f (P m 0)%nat)))
    <= (INR (g_nu g) + INR (g_nv g)) * (tol * side).
Proof.
  intros h pts tol h1 g Ht H P m n side i j f Hi Hj Hf.
  pose proof (grid_new_l _ _ _ _ _ Ht H) as [_ (Gu & Gv & Gl) _ _ _].
  unfold grid_new in H.
  destruct (grid_corners (map fst pts) tol) as [[[[[[nu nv] q] ptol] us] vs]|] eqn:C; [|discriminate].
  destruct (forallb _ _) eqn:F; [|discriminate].
  assert (g_nu g = nu /\ g_nv g = nv) as [Nu Nv].
  { destruct (make_equidistant _ _ _ _); [|discriminate]. destruct (make_equidistant _ _ _ _); [|discriminate].
    destruct (make_surface _ _ _ _); [|discriminate]. destruct (znew _ _ _); [|discriminate].
    destruct (all_some _); [|discriminate].
    do 4 (destruct (xy_to_uv _ _ _); [|discriminate]). destruct (_ && _); [|discriminate].
    injection H as _ <-. auto. }
  pose proof (nearly_regular _ _ _ _ _ _ _ _ f Ht C F Hf i j) as B.
  destruct (grid_corners_l _ _ _ _ _ _ _ _ Ht C) as (Hu & Hv & Ll & -> & -> & -> & ->).
  cbn [q0 q1 q2 q3] in B. subst nu nv.
  specialize (B ltac:(lia) ltac:(lia)).
  unfold side, P, m, n.
  replace ((g_nu g - 1) * g_nv g + (g_nv g - 1))%nat with (g_nu g * g_nv g - 1)%nat by nia.
  replace ((g_nu g - 1) * g_nv g + 0)%nat with (g_nu g * g_nv g - g_nv g)%nat by nia.
  cbn [Nat.mul Nat.add]. 
  eapply Rle_trans; [|exact B]. right. f_equal.
  destruct Hf as [-> | ->]; unfold psub; cbn [fst snd]; field; split; apply not_0_INR; lia.
Qed.
Print Assumptions C58_nearly_regular.

Example C58_case : exists h1 g, grid_new [] gsamp (/ 10 ^ 6) = Some (h1, g) /\
  (g_nu g - 1 = 1)%nat /\ (g_nv g - 1 = 2)%nat.
Proof. destruct gsamp_made as (h1 & g & E & A & B). exists h1, g. rewrite A, B. auto. Qed.
