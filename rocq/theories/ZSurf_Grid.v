From Coq Require Import List Arith ZArith Bool Reals Lra Lia.
From Verif Require Import Spline_Model Spline_Spec Spline_Piece Spline_Proofs Spline_Curve
  ZSurf_Spec ZSurf_Model ZSurf_Proofs.
Import ListNotations.
Open Scope R_scope.

(** * Degree 1 splines on [0,1] interpolate linearly between the nodes *)
Lemma W_deg1 (k : nat -> R) j c t : (1 <= j)%nat -> k j < k (j + 1)%nat ->
  W k j 1 c t = c (j - 1)%nat * ((k (j + 1)%nat - t) / (k (j + 1)%nat - k j))
              + c j * ((t - k j) / (k (j + 1)%nat - k j)).
Proof.
  intros Hj H. unfold W. cbn [Nat.add rsum].
  replace (j - 1 + 0)%nat with (j - 1)%nat by lia. replace (j - 1 + 1)%nat with j by lia.
  cbn [pc]. replace (j - 1 + 1)%nat with j by lia. rewrite Nat.eqb_refl.
  destruct (Nat.eqb_spec (j - 1) j); [lia|]. destruct (Nat.eqb_spec (j + 1) j); [lia|].
  rewrite !Rmult_0_r, !Rmult_1_r. ring.
Qed.

Lemma INR_sub1 n : (1 <= n)%nat -> INR (n - 1) = INR n - 1.
Proof. intros H. rewrite minus_INR by auto. reflexivity. Qed.

Lemma hat_sum n b c u i : (0 < n)%nat -> make_equidistant 1 n 0 1 = Some b -> (i < n)%nat ->
  INR i <= INR n * u <= INR i + 1 ->
  rsum (size b) (fun k => c k * ev b k u)
  = c i * (1 - (INR n * u - INR i)) + c (S i) * (INR n * u - INR i).
Proof.
  intros Hn Eb Hi Hu.
  destruct (make_equidistant_l 1 n 0 1 Hn ltac:(lra)) as (b' & Eb' & V & Dg & Ni & D0 & D1 & Kn).
  rewrite Eb in Eb'. injection Eb' as <-.
  assert (0 < INR n) as Pn by (apply lt_0_INR; auto).
  assert (INR i + 1 <= INR n) as In_ by (rewrite <- S_INR; apply le_INR; lia).
  pose proof (pos_INR i) as Pi.
  assert (0 <= u <= 1) as U01.
  { split.
    - apply Rmult_le_reg_l with (INR n); lra.
    - apply Rmult_le_reg_l with (INR n); lra. }
  assert (dom0 b <= u <= dom1 b) as Hd by (rewrite D0, D1; lra).
  pose proof (len_eq b V) as (L1 & L2 & L3).
  destruct (locate b V u Hd) as [(j & L & _)|E].
  - rewrite (sum_W b V c u j L). rewrite Dg.
    pose proof L as (A1 & A2 & A3 & A4 & A5). rewrite Dg in A1.
    rewrite W_deg1 by auto.
    pose proof (located_le b j u L) as A6.
    destruct j as [|j]; [lia|]. replace (S j - 1)%nat with j by lia.
    assert (j < n)%nat as Hj by lia.
    assert (kn (knots b) (S j) = INR j / INR n) as K1.
    { rewrite <- (Nat.add_1_l j), Kn by lia. field. lra. }
    assert (kn (knots b) (S j + 1) = (INR j + 1) / INR n) as K2.
    { replace (S j + 1)%nat with (1 + S j)%nat by lia. rewrite Kn by lia. rewrite S_INR. field. lra. }
    rewrite K1, K2 in *.
    assert (INR j <= INR n * u) as B1.
    { replace (INR j) with (INR n * (INR j / INR n)) by (field; lra). apply Rmult_le_compat_l; lra. }
    assert (INR n * u <= INR j + 1) as B2.
    { replace (INR j + 1) with (INR n * ((INR j + 1) / INR n)) by (field; lra). apply Rmult_le_compat_l; lra. }
    transitivity (c j * (1 - (INR n * u - INR j)) + c (S j) * (INR n * u - INR j)).
    { f_equal; f_equal; field; lra. }
    destruct (Nat.lt_trichotomy i j) as [Lt|[->|Lt]]; [|reflexivity|].
    + assert (j = S i) as ->.
      { assert (INR j < INR (S (S i))) as Q.
        { rewrite !S_INR. assert (INR i + 1 <= INR j) by (rewrite <- S_INR; apply le_INR; lia). lra. }
        apply INR_lt in Q. lia. }
      rewrite S_INR in *. replace (INR n * u) with (INR i + 1) by lra. ring.
    + assert (i = S j) as ->.
      { assert (INR i < INR (S (S j))) as Q.
        { rewrite !S_INR. assert (INR j + 1 <= INR i) by (rewrite <- S_INR; apply le_INR; lia). lra. }
        apply INR_lt in Q. lia. }
      rewrite S_INR in *. replace (INR n * u) with (INR j + 1) by lra. ring.
  - subst u. rewrite (sum_end b V c). rewrite D1 in *.
    assert (INR n = INR i + 1) as Q1 by lra.
    assert (INR n = INR (S i)) as Q by (rewrite S_INR; lra). apply INR_eq in Q.
    replace (size b - 1)%nat with (S i) by lia. rewrite Q1. ring.
Qed.

(** * Lists of grid data *)
Lemma reshape_nth nu nv : forall l i k, length l = (nu * nv)%nat -> (i < nu)%nat -> (k < nv)%nat ->
  nth k (nth i (reshape nu nv l) []) [] = [nth (i * nv + k) l 0].
Proof.
  induction nu as [|nu IH]; intros l i k L Hi Hk; [lia|]. cbn [reshape].
  assert (nv <= length l)%nat as Lv by (rewrite L; cbn; lia).
  destruct i as [|i]; cbn [nth].
  - rewrite (nth_map_lt (fun z => [z]) (firstn nv l) k [] 0) by (rewrite firstn_length_le; auto).
    f_equal. cbn. rewrite <- (firstn_skipn nv l) at 2.
    rewrite app_nth1 by (rewrite firstn_length_le; auto). reflexivity.
  - rewrite IH by (try lia; rewrite skipn_length, L; cbn; lia).
    f_equal. rewrite <- (firstn_skipn nv l) at 2.
    rewrite app_nth2 by (rewrite firstn_length_le by auto; cbn; lia).
    rewrite firstn_length_le by auto. f_equal. cbn. lia.
Qed.
Lemma reshape_shape nu nv : forall l, length l = (nu * nv)%nat ->
  length (reshape nu nv l) = nu /\
  (forall r, In r (reshape nu nv l) -> length r = nv) /\
  (forall r p, In r (reshape nu nv l) -> In p r -> length p = 1%nat).
Proof.
  induction nu as [|nu IH]; intros l L; cbn [reshape].
  - split; auto. split; intros r; [intros []|intros p []].
  - assert (nv <= length l)%nat as Lv by (rewrite L; cbn; lia).
    destruct (IH (skipn nv l)) as (A & B & C); [rewrite skipn_length, L; cbn; lia|].
    split; [cbn; congruence|]. split.
    + intros r [<-|Hr]; auto. rewrite map_length, firstn_length_le; auto.
    + intros r p [<-|Hr] Hp; eauto. apply in_map_iff in Hp as (z & <- & _). reflexivity.
Qed.

(** * The constructor *)
Record grid_made (h : heap) (pts : list (pt * R)) (tol : R) (h1 : heap) (g : grid) : Prop := {
  gm_z : g_z g = length h;
  gm_shape : (2 <= g_nu g)%nat /\ (2 <= g_nv g)%nat /\ length pts = (g_nu g * g_nv g)%nat;
  gm_data : g_data g = map snd pts;
  gm_surf : exists s ub vb, good_surface s /\ znew h [q0 (g_quad g); q1 (g_quad g); q2 (g_quad g)] s = Some h1 /\
      make_equidistant 1 (g_nu g - 1) 0 1 = Some ub /\ make_equidistant 1 (g_nv g - 1) 0 1 = Some vb /\
      u_basis s = ub /\ v_basis s = vb /\ s_poles s = reshape (g_nu g) (g_nv g) (map snd pts);
  gm_uv : all_some (map (xy_to_uv h1 (length h)) (map fst pts)) = Some (g_uv g) }.

Lemma row_end_range l vs tol : forall n i k, row_end l vs tol i n = Some k -> (i <= k < i + n)%nat.
Proof.
  induction n as [|n IH]; cbn; intros i k H; [discriminate|].
  destruct (Rltb _ _); [injection H as <-; lia|]. apply IH in H. lia.
Qed.

Lemma norm2_nonneg p : 0 <= norm2 p.
Proof. apply sqrt_pos. Qed.
Lemma norm2_0 : norm2 (0, 0) = 0.
Proof. unfold norm2. cbn. replace (0 * 0 + 0 * 0) with 0 by ring. apply sqrt_0. Qed.

Lemma grid_corners_l l tol nu nv q ptol us vs : 0 < tol ->
  grid_corners l tol = Some ((nu, nv), q, ptol, us, vs) ->
  (2 <= nu)%nat /\ (2 <= nv)%nat /\ length l = (nu * nv)%nat /\
  q = Quad (nth (nv - 1) l (0, 0)) (nth 0 l (0, 0)) (nth (nu * nv - nv) l (0, 0)) (nth (nu * nv - 1) l (0, 0)) /\
  us = (fst (psub (q2 q) (q1 q)) / INR (nu - 1), snd (psub (q2 q) (q1 q)) / INR (nu - 1)) /\
  vs = (fst (psub (q3 q) (q2 q)) / INR (nv - 1), snd (psub (q3 q) (q2 q)) / INR (nv - 1)) /\
  ptol = tol * Rmax (norm2 (psub (q1 q) (q0 q))) (Rmax (norm2 (psub (q2 q) (q1 q)))
           (Rmax (norm2 (psub (q3 q) (q2 q))) (norm2 (psub (q0 q) (q3 q))))).
Proof.
  intros Ht H. unfold grid_corners in H. destruct (Nat.ltb_spec (length l) 2); [discriminate|].
  destruct (row_end _ _ _ _ _) as [nv'|] eqn:E; [|discriminate]. apply row_end_range in E.
  destruct (Nat.eqb_spec (length l) (length l / nv' * nv')) as [L|]; [|discriminate].
  destruct (_ || _) eqn:T; [discriminate|].
  apply Bool.orb_false_elim in T as [_ T]. apply negb_false_iff in T.
  injection H as <- <- <- <- <- <-.
  set (nu := (length l / nv')%nat) in *.
  destruct (Nat.lt_ge_cases nu 2) as [Lt|Ge].
  { exfalso. assert (nu = 1)%nat as N1 by (destruct nu as [|[|]]; lia).
    rewrite N1 in L. cbn [q0 q1 q2 q3] in T.
    replace (length l - nv')%nat with 0%nat in T by lia.
    replace (psub (nth 0 l (0, 0)) (nth 0 l (0, 0))) with ((0, 0) : pt) in T
      by (unfold psub; apply pt_eq; cbn; ring).
    rewrite norm2_0 in T. unfold Rltb in T.
    destruct (Rlt_dec _ _) as [Q|] in T; [|discriminate].
    match type of Q with norm2 ?x < _ => pose proof (norm2_nonneg x) end. lra. }
  split; auto. split; [lia|]. split; auto.
  rewrite <- L. repeat split.
Qed.

Lemma good_grid_surface nu nv l ub vb s : (2 <= nu)%nat -> (2 <= nv)%nat -> length l = (nu * nv)%nat ->
  make_equidistant 1 (nu - 1) 0 1 = Some ub -> make_equidistant 1 (nv - 1) 0 1 = Some vb ->
  make_surface ub vb (reshape nu nv l) false = Some s ->
  good_surface s /\ u_basis s = ub /\ v_basis s = vb /\ s_poles s = reshape nu nv l.
Proof.
  intros Hu Hv L EU EV M.
  destruct (make_equidistant_l 1 (nu - 1) 0 1 ltac:(lia) ltac:(lra)) as (b1 & E1 & V1 & _).
  destruct (make_equidistant_l 1 (nv - 1) 0 1 ltac:(lia) ltac:(lra)) as (b2 & E2 & V2 & _).
  rewrite EU in E1. injection E1 as <-. rewrite EV in E2. injection E2 as <-.
  pose proof M as M'. unfold make_surface in M'. destruct (_ && _); [|discriminate].
  injection M' as M'. subst s. cbn [u_basis v_basis s_poles].
  split; [|auto]. destruct (reshape_shape nu nv l L) as (A & B & C).
  split; [exact V1|]. split; [exact V2|]. split; [exact M|]. split; [reflexivity|]. split; [|exact C].
  unfold s_dim. cbn [s_poles s_rational rat_cols]. rewrite reshape_nth by (auto; lia). reflexivity.
Qed.

Lemma grid_new_l h pts tol h1 g : 0 < tol -> grid_new h pts tol = Some (h1, g) ->
  grid_made h pts tol h1 g.
Proof.
  intros Ht H. unfold grid_new in H.
  destruct (grid_corners _ _) as [[[[[[nu nv] q] ptol] us] vs]|] eqn:C; [|discriminate].
  apply grid_corners_l in C as (C1 & C2 & C3 & C4 & _); auto. rewrite map_length in C3.
  destruct (forallb _ _); [|discriminate].
  destruct (make_equidistant 1 (nu - 1) 0 1) as [ub|] eqn:EU; [|discriminate].
  destruct (make_equidistant 1 (nv - 1) 0 1) as [vb|] eqn:EV; [|discriminate].
  destruct (make_surface ub vb _ false) as [s|] eqn:Es; [|discriminate].
  destruct (znew h _ s) as [h'|] eqn:Z; [|discriminate].
  destruct (all_some _) as [uvs|] eqn:U; [|discriminate].
  destruct (xy_to_uv h' (length h) (q0 q)); [|discriminate].
  destruct (xy_to_uv h' (length h) (q1 q)); [|discriminate].
  destruct (xy_to_uv h' (length h) (q2 q)); [|discriminate].
  destruct (xy_to_uv h' (length h) (q3 q)); [|discriminate].
  destruct (_ && _); [|discriminate]. injection H as <- <-.
  destruct (good_grid_surface nu nv (map snd pts) ub vb s) as (G & Bu & Bv & P); auto.
  { rewrite map_length. auto. }
  constructor; cbn [g_z g_nu g_nv g_data g_quad g_uv]; auto.
  exists s, ub, vb. auto 10.
Qed.

(** * Heights *)
Lemma clamp_cell_l n x : (2 <= n)%nat -> 0 <= x <= INR n - 1 ->
  (clamp_cell n x < n - 1)%nat /\ INR (clamp_cell n x) <= x <= INR (clamp_cell n x) + 1.
Proof.
  intros Hn Hx. unfold clamp_cell. destruct (base_Int_part x) as [B1 B2].
  assert (0 <= Int_part x)%Z as Z0.
  { apply Znot_gt_le. intros G. assert (Int_part x <= -1)%Z as Q by lia. apply IZR_le in Q. lra. }
  rewrite Z.max_r by lia.
  destruct (Z.le_gt_cases (Int_part x) (Z.of_nat n - 2)) as [L|L].
  - rewrite Z.min_r by lia. split; [lia|]. rewrite INR_IZR_INZ, Z2Nat.id by auto. lra.
  - rewrite Z.min_l by lia. split; [lia|].
    rewrite INR_IZR_INZ, Z2Nat.id by lia. rewrite minus_IZR, <- INR_IZR_INZ.
    assert (IZR (Z.of_nat n - 1) <= IZR (Int_part x)) as Q by (apply IZR_le; lia).
    rewrite minus_IZR, <- INR_IZR_INZ in Q. lra.
Qed.

(** The value of the bilinear formula of z_eval_array. *)
Definition cell_value (nu nv : nat) (data : list R) (u v : R) : R :=
  let x := u / (1 / INR (nu - 1)) in
  let y := v / (1 / INR (nv - 1)) in
  let iu := clamp_cell nu x in
  let iv := clamp_cell nv y in
  let a := x - INR iu in let b := y - INR iv in
  let Z i k := nth ((iu + i) * nv + (iv + k)) data 0 in
  ((1 - a) * Z 0%nat 0%nat + a * Z 1%nat 0%nat) * (1 - b) +
  ((1 - a) * Z 0%nat 1%nat + a * Z 1%nat 1%nat) * b.

Lemma cell_value_l s nu nv data u v : (2 <= nu)%nat -> (2 <= nv)%nat -> length data = (nu * nv)%nat ->
  make_equidistant 1 (nu - 1) 0 1 = Some (u_basis s) ->
  make_equidistant 1 (nv - 1) 0 1 = Some (v_basis s) ->
  s_poles s = reshape nu nv data -> 0 <= u <= 1 -> 0 <= v <= 1 ->
  dsum s u v = cell_value nu nv data u v.
Proof.
  intros Hu Hv L EU EV P U V.
  assert (0 < INR (nu - 1)) as Pu by (apply lt_0_INR; lia).
  assert (0 < INR (nv - 1)) as Pv by (apply lt_0_INR; lia).
  unfold cell_value.
  assert (u / (1 / INR (nu - 1)) = INR (nu - 1) * u) as -> by (field; lra).
  assert (v / (1 / INR (nv - 1)) = INR (nv - 1) * v) as -> by (field; lra).
  assert (0 <= INR (nu - 1) * u <= INR nu - 1) as Bu.
  { split; [apply Rmult_le_pos; lra|]. rewrite <- INR_sub1 by lia.
    rewrite <- (Rmult_1_r (INR (nu - 1))) at 2. apply Rmult_le_compat_l; lra. }
  assert (0 <= INR (nv - 1) * v <= INR nv - 1) as Bv.
  { split; [apply Rmult_le_pos; lra|]. rewrite <- INR_sub1 by lia.
    rewrite <- (Rmult_1_r (INR (nv - 1))) at 2. apply Rmult_le_compat_l; lra. }
  destruct (clamp_cell_l nu _ Hu Bu) as [Cu1 Cu2]. destruct (clamp_cell_l nv _ Hv Bv) as [Cv1 Cv2].
  set (iu := clamp_cell nu (INR (nu - 1) * u)) in *. set (iv := clamp_cell nv (INR (nv - 1) * v)) in *.
  unfold dsum.
  rewrite (hat_sum (nv - 1) (v_basis s) (fun k => rsum (size (u_basis s)) (fun i =>
     spole s i k 0 * ev (u_basis s) i u)) v iv) by (auto; lia).
  rewrite !(hat_sum (nu - 1) (u_basis s) (fun i => spole s i _ 0) u iu) by (auto; lia).
  unfold spole. rewrite P. rewrite !reshape_nth by (auto; lia). cbn [nth].
  replace (S iu) with (iu + 1)%nat by lia. replace (S iv) with (iv + 1)%nat by lia.
  rewrite !Nat.add_0_r. ring.
Qed.

(** The raw z_mat of an object. *)
Definition z_set (i : nat) (e : op) : option (R * R) :=
  match e with OTransform k _ z => if (k =? i)%nat then z else None | _ => None end.

Lemma raw_step h e h' i r : step h e = Some h' -> (exists o, nth_error h i = Some o /\ z_raw o = r) ->
  exists o, nth_error h' i = Some o /\ z_raw o = match z_set i e with Some x => x | None => r end.
Proof.
  intros H (o & N & B). pose proof (nth_lt _ _ _ N) as Hi.
  destruct (target e) as [k|] eqn:T; [destruct (Nat.eq_dec k i) as [->|Nk]|].
  - destruct e as [l s0|k|k xy z|k]; cbn in T; try discriminate; injection T as ->; cbn [step z_set] in *.
    + rewrite Nat.eqb_refl. unfold transform in H.
      destruct (match xy with Some (A, b) => _ | None => _ end) as [h1|] eqn:E; [|discriminate].
      assert (exists o, nth_error h1 i = Some o /\ z_raw o = r) as (o1 & N1 & B1).
      { destruct xy as [[A b]|]; [|injection E as <-; eauto].
        apply transform_xy_l in E as (o0 & o1 & c & zc & sh & m & im & im' & o' & N' & R & _ & _ & _ & -> & ->).
        rewrite N in N'. injection N' as <-. rewrite upd_twice by auto.
        eexists. rewrite upd_same by auto. split; [reflexivity|].
        apply reset_xy_l in R as (_ & _ & _ & _ & Z1 & _). cbn [z_raw]. congruence. }
      destruct z as [[a t]|]; [|injection H as <-; eauto].
      pose proof (nth_lt _ _ _ N1) as Hi1.
      apply transform_z_l in H as (o0 & c & zc & o' & N' & _ & -> & ->).
      rewrite N1 in N'. injection N' as <-. rewrite upd_twice by auto.
      eexists. rewrite upd_same by auto. split; reflexivity.
    + unfold apply_z in H. rewrite N in H. destruct (have_z o); injection H as <-; [|eauto].
      eexists. rewrite upd_same by auto. split; [reflexivity|]. exact B.
  - exists o. destruct (step_frame h e h' i H Hi ltac:(congruence)) as [_ ->]. split; auto.
    destruct e; cbn in *; auto. injection T as ->. destruct (Nat.eqb_spec k i); [congruence|auto].
  - exists o. destruct (step_frame h e h' i H Hi ltac:(congruence)) as [_ ->].
    split; auto. destruct e; cbn in *; auto. discriminate.
Qed.
Lemma raw_run es : forall h h' i r, run h es = Some h' ->
  (exists o, nth_error h i = Some o /\ z_raw o = r) ->
  exists o, nth_error h' i = Some o /\
    z_raw o = match last_some (map (z_set i) es) with Some x => x | None => r end.
Proof.
  induction es as [|e es IH]; cbn; intros h h' i r H B; [injection H as <-; auto|].
  destruct (step h e) as [h1|] eqn:E; [|discriminate].
  pose proof (raw_step _ _ _ _ _ E B) as B1.
  destruct (IH _ _ _ _ H B1) as (o & N & Z). exists o. split; auto. rewrite Z.
  destruct (last_some _); auto.
Qed.

(** A grid surface and a list of calls of its transform. *)
Fixpoint grid_run (h : heap) (g : grid) (ts : list (option (mat * pt) * option (R * R)))
  : option (heap * grid) :=
  match ts with
  | [] => Some (h, g)
  | (xy, z) :: r => match grid_transform h g xy z with
                    | Some (h', g') => grid_run h' g' r
                    | None => None
                    end
  end.

Lemma grid_run_l ts : forall h g h' g', grid_run h g ts = Some (h', g') ->
  run h (map (fun t => OTransform (g_z g) (fst t) (snd t)) ts) = Some h' /\
  g_z g' = g_z g /\ g_nu g' = g_nu g /\ g_nv g' = g_nv g /\ g_data g' = g_data g.
Proof.
  induction ts as [|[xy z] ts IH]; cbn [grid_run map run step fst snd]; intros h g h' g' H.
  - injection H as <- <-. auto.
  - unfold grid_transform in H. destruct (transform h (g_z g) xy z) as [h1|]; [|discriminate].
    destruct (uv_to_xy h1 (g_z g) (0, 1)); [|discriminate].
    destruct (uv_to_xy h1 (g_z g) (0, 0)); [|discriminate].
    destruct (uv_to_xy h1 (g_z g) (1, 0)); [|discriminate].
    destruct (uv_to_xy h1 (g_z g) (1, 1)); [|discriminate].
    apply IH in H. exact H.
Qed.

Definition z_last (ts : list (option (mat * pt) * option (R * R))) : R * R :=
  match last_some (map snd ts) with Some x => x | None => (1, 0) end.

Lemma flat_events ts i : flat_map (z_events i)
    (map (fun t : option (mat * pt) * option (R * R) => OTransform i (fst t) (snd t)) ts)
  = flat_map (fun t => match snd t with Some (s, x) => [ZSet s x] | None => [] end) ts.
Proof.
  induction ts as [|[xy z] ts IH]; [reflexivity|]. cbn [map flat_map]. rewrite IH. f_equal.
  cbn. rewrite Nat.eqb_refl. reflexivity.
Qed.

Lemma zsets_run f ts : forall st, fst st = f ->
  let st' := fold_left zstep
     (flat_map (fun t : option (mat * pt) * option (R * R) => match snd t with Some (s, x) => [ZSet s x] | None => [] end) ts) st in
  fst st' = f /\ snd st' = match last_some (map snd ts) with Some x => Some x | None => snd st end.
Proof.
  induction ts as [|[xy z] ts IH]; intros st E; cbn [flat_map map last_some fold_left snd].
  - auto.
  - rewrite fold_left_app. destruct z as [[s x]|]; cbn [fold_left].
    + destruct (IH (zstep st (ZSet s x))) as [A B]; [exact E|]. split; auto. etransitivity; [exact B|].
      cbn [zstep snd]. destruct (last_some _); auto.
    + destruct (IH st E) as [A B]. split; auto. rewrite B. destruct (last_some _); auto.
Qed.

Lemma grid_height_l h pts tol h1 g ts h2 g2 u v : 0 < tol ->
  grid_new h pts tol = Some (h1, g) -> grid_run h1 g ts = Some (h2, g2) ->
  0 <= u <= 1 -> 0 <= v <= 1 ->
  exists p z z' p0 zc, grid_eval h2 g2 (u, v) = Some (p, z) /\ grid_z_eval h2 g2 (u, v) = Some z' /\
    grid_eval h1 g (1/2, 1/2) = Some (p0, zc) /\
    z = z' + (1 - fst (z_last ts)) * zc /\
    z' = fst (z_last ts) * cell_value (g_nu g) (g_nv g) (map snd pts) u v + snd (z_last ts).
Proof.
  intros Ht Hg Hr U V. pose proof (grid_new_l _ _ _ _ _ Ht Hg) as [Gz (Gu & Gv & Gl) Gd Gs _].
  destruct Gs as (s & ub & vb & G & Zn & EU & EV & Bu & Bv & P). subst ub vb.
  destruct (grid_run_l _ _ _ _ _ Hr) as (R & Z2 & U2 & V2 & D2). rewrite Gz in R.
  destruct (history_l h _ s h1 _ h2 G Zn R) as (q & Q & (o & N & X & Zi)).
  destruct (history_l h _ s h1 [] h1 G Zn eq_refl) as (q' & Q' & (o1 & N1 & X1 & Zi1)).
  cbn [map last_some flat_map] in X1, Zi1.
  destruct (make_equidistant_l 1 (g_nu g - 1) 0 1 ltac:(lia) ltac:(lra)) as (b1 & E1 & V1' & _ & _ & D10 & D11 & _).
  destruct (make_equidistant_l 1 (g_nv g - 1) 0 1 ltac:(lia) ltac:(lra)) as (b2 & E2 & V2' & _ & _ & D20 & D21 & _).
  rewrite EU in E1. injection E1 as <-. rewrite EV in E2. injection E2 as <-.
  assert (forall a b, 0 <= a <= 1 -> 0 <= b <= 1 ->
     base_z s a b = Some (cell_value (g_nu g) (g_nv g) (map snd pts) a b)) as BZ.
  { intros a b Ha Hb. rewrite base_z_in by (auto; rewrite ?D10, ?D11, ?D20, ?D21; lra).
    f_equal. apply cell_value_l; auto. rewrite map_length. auto. }
  rewrite flat_events in Zi. unfold zrun in Zi.
  destruct (zsets_run (base_z s) ts (base_z s, None) eq_refl) as [S1 S2].
  set (st := fold_left zstep _ _) in *.
  set (cv := cell_value (g_nu g) (g_nv g) (map snd pts)) in *.
  exists (map_tr q (last_some (map (xy_event (length h))
      (map (fun t => OTransform (length h) (fst t) (snd t)) ts))) (u, v)),
    (fst (z_last ts) * (cv u v - cv (1/2) (1/2)) + cv (1/2) (1/2) + snd (z_last ts)),
    (fst (z_last ts) * cv u v + snd (z_last ts)), (map_tr q' None (1/2, 1/2)), (cv (1/2) (1/2)).
  split.
  { unfold grid_eval, eval_pt. rewrite Z2, Gz, (xy_inv_map _ _ _ _ _ _ N X).
    unfold z_eval. rewrite N. cbn [fst snd]. rewrite (z_inv_height _ _ _ _ Zi).
    unfold zheight. rewrite S1, S2. unfold z_last. destruct (last_some (map snd ts)) as [[a t]|]; cbn [snd].
    - unfold scaled. rewrite !BZ by lra. do 2 f_equal. cbn. ring.
    - rewrite BZ by lra. do 2 f_equal. cbn. ring. }
  assert (exists o, nth_error h2 (length h) = Some o /\ z_raw o = z_last ts) as (o' & N' & Zr).
  { destruct (raw_run _ _ _ (length h) (1, 0) R) as (o' & N' & Zr).
    - apply znew_l in Zn as (qn & on & _ & -> & _ & _ & _ & _ & Zr & _).
      exists on. rewrite nth_app_new. auto.
    - exists o'. split; auto. rewrite Zr. unfold z_last. rewrite map_map. cbn [z_set fst snd].
      rewrite Nat.eqb_refl. reflexivity. }
  split.
  { unfold grid_z_eval. rewrite Z2, Gz, N', U2, V2, D2, Gd, Zr. cbn [fst snd].
    reflexivity. }
  split.
  { unfold grid_eval, eval_pt. rewrite Gz, (xy_inv_map _ _ _ _ _ _ N1 X1).
    unfold z_eval. rewrite N1. cbn [fst snd]. rewrite (z_inv_height _ _ _ _ Zi1).
    unfold zheight, zrun. cbn [fold_left fst snd]. rewrite BZ by lra. do 2 f_equal. ring. }
  split; [ring|reflexivity].
Qed.

(** At the nodes the cell formula gives the data. *)
Lemma cell_value_node nu nv data i j : (2 <= nu)%nat -> (2 <= nv)%nat -> (i < nu)%nat -> (j < nv)%nat ->
  cell_value nu nv data (INR i / INR (nu - 1)) (INR j / INR (nv - 1)) = nth (i * nv + j) data 0.
Proof.
  intros Hu Hv Hi Hj.
  assert (0 < INR (nu - 1)) as Pu by (apply lt_0_INR; lia).
  assert (0 < INR (nv - 1)) as Pv by (apply lt_0_INR; lia).
  unfold cell_value.
  assert (INR i / INR (nu - 1) / (1 / INR (nu - 1)) = INR i) as -> by (field; lra).
  assert (INR j / INR (nv - 1) / (1 / INR (nv - 1)) = INR j) as -> by (field; lra).
  assert (forall n a, (2 <= n)%nat -> (a < n)%nat ->
     let c := clamp_cell n (INR a) in
     (INR a - INR c = 0 /\ a = c) \/ (INR a - INR c = 1 /\ a = S c)) as K.
  { intros n a Hn Ha. destruct (clamp_cell_l n (INR a) Hn) as [C1 C2].
    { split; [apply pos_INR|]. rewrite <- INR_sub1 by lia. apply le_INR. lia. }
    cbv zeta. set (c := clamp_cell n (INR a)) in *.
    destruct C2 as [C2 C3]. apply INR_le in C2. rewrite <- S_INR in C3. apply INR_le in C3.
    assert (a = c \/ a = S c) as [E|E] by lia.
    - left. split; auto. rewrite <- E. ring.
    - right. split; auto. rewrite E, S_INR. ring. }
  pose proof (K nu i Hu Hi) as Ki. pose proof (K nv j Hv Hj) as Kj. cbv zeta in Ki, Kj.
  set (c := clamp_cell nu (INR i)) in *. set (d := clamp_cell nv (INR j)) in *.
  destruct Ki as [[-> Ei]|[-> Ei]], Kj as [[-> Ej]|[-> Ej]]; rewrite Ei, Ej;
    rewrite ?Nat.add_0_r, ?Nat.add_1_r; ring.
Qed.

(** * Constructing from three points *)
Lemma isclose_refl x : isclose x x = true.
Proof.
  unfold isclose. destruct (Rleb_spec (Rabs (x - x)) (/ 10 ^ 8 + / 10 ^ 5 * Rabs x)) as [|N]; auto.
  exfalso. apply N. replace (x - x) with 0 by ring. rewrite Rabs_R0.
  pose proof (Rabs_pos x). assert (0 <= / 10 ^ 5 * Rabs x) by (apply Rmult_le_pos; [lra|auto]). lra.
Qed.
Lemma allclose_refl p : allclose p p = true.
Proof. unfold allclose. rewrite !isclose_refl. reflexivity. Qed.

Definition cross (a b : pt) : R := fst a * snd b - fst b * snd a.

Lemma znew_three h a b c s : s_dim s = 1%nat -> cross (psub c b) (psub a b) <> 0 ->
  exists o m im, znew h [a; b; c] s = Some (h ++ [o]) /\ inv m = Some im /\
    (forall p, uv_to_xy (h ++ [o]) (length h) p = Some (on_parallelogram b c a p)) /\
    (forall p, xy_to_uv (h ++ [o]) (length h) (on_parallelogram b c a p) = Some p) /\
    (forall x, exists p, xy_to_uv (h ++ [o]) (length h) x = Some p).
Proof.
  intros D Cr. unfold znew. rewrite D. cbn [Nat.eqb quad_of].
  unfold reset_xy, is_linear. cbn [q0 q1 q2 q3]. rewrite allclose_refl.
  set (m := column_stack (psub c b) (psub a b)).
  assert (exists im, inv m = Some im) as (im & I).
  { unfold inv. destruct (Reqb_spec (det m) 0) as [E|]; [|eauto]. exfalso. apply Cr. rewrite <- E.
    unfold m, det, column_stack, cross. cbn. ring. }
  rewrite I. eexists _, m, im. split; [reflexivity|]. split; auto.
  assert (forall p, linear_uv_to_xy b m p = on_parallelogram b c a p) as L.
  { intros [u v]. unfold linear_uv_to_xy, m, mapply, column_stack, padd, psub, on_parallelogram.
    cbn. apply pt_eq; cbn; ring. }
  split; [|split].
  - intros p. unfold uv_to_xy. rewrite nth_app_new. cbn [reset_z bound fst snd]. rewrite nth_app_new.
    cbn [reset_z lin]. rewrite L. reflexivity.
  - intros p. unfold xy_to_uv. rewrite nth_app_new. cbn [reset_z bound fst snd]. rewrite nth_app_new.
    cbn [reset_z lin]. rewrite <- L, (linear_round b m im p I). reflexivity.
  - intros x. unfold xy_to_uv. rewrite nth_app_new. cbn [reset_z bound fst snd]. rewrite nth_app_new.
    cbn [reset_z lin]. eauto.
Qed.

(** * Regular grids are accepted *)
Lemma norm2_pos p : p <> (0, 0) -> 0 < norm2 p.
Proof.
  intros N. unfold norm2. apply sqrt_lt_R0.
  destruct (Req_dec (fst p) 0) as [E|E].
  - destruct (Req_dec (snd p) 0) as [E'|E'].
    + exfalso. apply N. apply pt_eq; auto.
    + pose proof (Rle_0_sqr (fst p)). pose proof (Rsqr_pos_lt (snd p) E'). unfold Rsqr in *. lra.
  - pose proof (Rle_0_sqr (snd p)). pose proof (Rsqr_pos_lt (fst p) E). unfold Rsqr in *. lra.
Qed.

Lemma row_end_at (l : list pt) vs tol nv : 0 <= tol -> forall n i, (i <= nv < i + n)%nat ->
  (forall k, (i <= k < nv)%nat -> psub (nth k l (0, 0)) (nth (k - 1) l (0, 0)) = vs) ->
  tol < norm_inf (psub vs (psub (nth nv l (0, 0)) (nth (nv - 1) l (0, 0)))) ->
  row_end l vs tol i n = Some nv.
Proof.
  intros Ht. induction n as [|n IH]; intros i Hi H T; [lia|]. cbn [row_end].
  destruct (Nat.eq_dec i nv) as [->|Ne].
  - destruct (Rltb_spec tol (norm_inf (psub vs (psub (nth nv l (0, 0)) (nth (nv - 1) l (0, 0))))));
      [reflexivity|lra].
  - rewrite (H i) by lia.
    replace (norm_inf (psub vs vs)) with 0.
    2:{ unfold norm_inf, psub. cbn. rewrite !Rminus_diag_eq, Rabs_R0 by auto.
        unfold Rmax. destruct (Rle_dec 0 0); auto. }
    destruct (Rltb_spec tol 0); [lra|]. apply IH; [lia| |auto]. intros k Hk. apply H. lia.
Qed.

Lemma grid_accepts_l h (pts : list (pt * R)) tol o du dv nu nv : 0 < tol -> (2 <= nu)%nat -> (2 <= nv)%nat ->
  lattice o du dv nu nv (map fst pts) -> cross du dv <> 0 ->
  tol * norm_inf dv < norm_inf (psub du (INR nv * fst dv, INR nv * snd dv)) ->
  exists h1 g, grid_new h pts tol = Some (h1, g) /\ g_nu g = nu /\ g_nv g = nv /\
    g_data g = map snd pts /\ length h1 = S (length h) /\ g_z g = length h /\
    (forall i j, (i < nu)%nat -> (j < nv)%nat ->
       nth (i * nv + j) (g_uv g) (0, 0) = (INR i / INR (nu - 1), INR j / INR (nv - 1))) /\
    length (g_uv g) = (nu * nv)%nat.
Proof.
  intros Ht Hu Hv [Ll Lp] Cr Tr. set (l := map fst pts) in *.
  assert (@length pt l = nu * nv)%nat as Ll' by exact Ll.
  assert (0 < INR (nu - 1)) as Pu by (apply lt_0_INR; lia).
  assert (0 < INR (nv - 1)) as Pv by (apply lt_0_INR; lia).
  assert (forall k i j, k = (i * nv + j)%nat -> (i < nu)%nat -> (j < nv)%nat ->
    @nth pt k l (0, 0) = (fst o + INR i * fst du + INR j * fst dv, snd o + INR i * snd du + INR j * snd dv)) as Lq.
  { intros k i j -> Hi Hj. exact (Lp i j Hi Hj). }
  assert (@nth pt 0 l (0, 0) = o) as P00.
  { rewrite (Lq 0%nat 0%nat 0%nat) by lia. apply pt_eq; cbn; ring. }
  assert (@nth pt (nv - 1) l (0, 0) = (fst o + INR (nv - 1) * fst dv, snd o + INR (nv - 1) * snd dv)) as P01.
  { rewrite (Lq _ 0%nat (nv - 1)%nat) by lia. apply pt_eq; cbn [fst snd INR]; ring. }
  assert (@nth pt (nu * nv - nv) l (0, 0) = (fst o + INR (nu - 1) * fst du, snd o + INR (nu - 1) * snd du)) as P10.
  { rewrite (Lq _ (nu - 1)%nat 0%nat) by nia. apply pt_eq; cbn [fst snd INR]; ring. }
  assert (@nth pt (nu * nv - 1) l (0, 0) = (fst o + INR (nu - 1) * fst du + INR (nv - 1) * fst dv,
     snd o + INR (nu - 1) * snd du + INR (nv - 1) * snd dv)) as P11.
  { rewrite (Lq _ (nu - 1)%nat (nv - 1)%nat) by nia. reflexivity. }
  assert (dv <> (0, 0)) as Ndv. { intros ->. apply Cr. unfold cross. cbn. ring. }
  assert (du <> (0, 0)) as Ndu. { intros ->. apply Cr. unfold cross. cbn. ring. }
  assert (psub (@nth pt 1 l (0, 0)) (@nth pt 0 l (0, 0)) = dv) as Vs.
  { rewrite P00. rewrite (Lq 1%nat 0%nat 1%nat) by lia. unfold psub. apply pt_eq; cbn; ring. }
  assert (0 <= norm_inf dv) as Nn.
  { unfold norm_inf. apply Rle_trans with (Rabs (fst dv)); [apply Rabs_pos|apply Rmax_l]. }
  assert (4 <= nu * nv)%nat as N4 by nia.
  assert (row_end l dv (tol * norm_inf dv) 2 (@length pt l - 2) = Some nv) as RE.
  { apply row_end_at.
    - apply Rmult_le_pos; lra.
    - rewrite Ll'. nia.
    - intros k Hk. rewrite (Lq k 0%nat k), (Lq (k - 1)%nat 0%nat (k - 1)%nat) by lia. rewrite INR_sub1 by lia. unfold psub. apply pt_eq; cbn; ring.
    - replace (psub dv (psub (@nth pt nv l (0, 0)) (@nth pt (nv - 1) l (0, 0)))) with
        (psub (INR nv * fst dv, INR nv * snd dv) du).
      2:{ rewrite P01, (Lq nv 1%nat 0%nat) by lia.
          rewrite INR_sub1 by lia. unfold psub. apply pt_eq; cbn; ring. }
      assert (forall a b, norm_inf (psub a b) = norm_inf (psub b a)) as Sy.
      { intros a b. unfold norm_inf, psub. cbn. f_equal; apply Rabs_minus_sym. }
      rewrite Sy. exact Tr. }
  assert (@length pt l / nv = nu)%nat as Dv. { rewrite Ll'. apply Nat.div_mul. lia. }
  set (q := Quad (fst o + INR (nv - 1) * fst dv, snd o + INR (nv - 1) * snd dv) o
     (fst o + INR (nu - 1) * fst du, snd o + INR (nu - 1) * snd du)
     (fst o + INR (nu - 1) * fst du + INR (nv - 1) * fst dv,
      snd o + INR (nu - 1) * snd du + INR (nv - 1) * snd dv)).
  assert (forall c x, 0 < c -> x <> (0, 0) -> (c * fst x, c * snd x) <> (0, 0)) as NZ.
  { intros c x Hc Hx E. apply Hx. injection E as E1 E2.
    apply pt_eq; cbn; [destruct (Rmult_integral _ _ E1)|destruct (Rmult_integral _ _ E2)]; lra. }
  assert (psub (q1 q) (q0 q) <> (0, 0)) as D0.
  { intros E. apply (NZ (INR (nv - 1)) dv Pv Ndv). unfold psub, q in E. cbn in E. injection E as E1 E2.
    apply pt_eq; cbn; lra. }
  assert (psub (q2 q) (q1 q) <> (0, 0)) as D1.
  { intros E. apply (NZ (INR (nu - 1)) du Pu Ndu). unfold psub, q in E. cbn in E. injection E as E1 E2.
    apply pt_eq; cbn; lra. }
  apply norm2_pos in D0, D1.
  set (ptol := tol * Rmax (norm2 (psub (q1 q) (q0 q))) (Rmax (norm2 (psub (q2 q) (q1 q)))
           (Rmax (norm2 (psub (q3 q) (q2 q))) (norm2 (psub (q0 q) (q3 q)))))).
  assert (0 < ptol) as Pp.
  { unfold ptol. apply Rmult_lt_0_compat; auto. apply Rlt_le_trans with (norm2 (psub (q1 q) (q0 q))); auto. apply Rmax_l. }
  assert (grid_corners l tol = Some ((nu, nv), q, ptol, du, dv)) as GC.
  { unfold grid_corners. destruct (Nat.ltb_spec (@length pt l) 2) as [Lt|]; [rewrite Ll' in Lt; lia|]. cbv zeta. rewrite Vs, RE, Dv.
    rewrite Ll', Nat.eqb_refl, P00, P01, P10, P11. fold q.
    replace (padd (psub (q1 q) (q0 q)) (psub (q3 q) (q2 q))) with ((0, 0) : pt)
      by (unfold padd, psub, q; apply pt_eq; cbn; ring).
    replace (padd (psub (q2 q) (q1 q)) (psub (q0 q) (q3 q))) with ((0, 0) : pt)
      by (unfold padd, psub, q; apply pt_eq; cbn; ring).
    rewrite norm2_0.
    destruct (Rltb_spec 0 (tol * norm2 (psub (q1 q) (q0 q)))) as [|N]; [|exfalso; apply N; apply Rmult_lt_0_compat; auto].
    destruct (Rltb_spec 0 (step_tolerance * norm2 (psub (q2 q) (q1 q)))) as [|N];
      [|exfalso; apply N; apply Rmult_lt_0_compat; auto; unfold step_tolerance; lra].
    cbn [negb orb]. fold ptol. f_equal. f_equal; [f_equal|].
    - unfold psub, q. apply pt_eq; cbn; field; lra.
    - unfold psub, q. apply pt_eq; cbn; field; lra. }
  assert (forallb (regular_at l nv ptol du dv) (seq 0 (nu * nv)) = true) as RG.
  { apply forallb_forall. intros k Hk. apply in_seq in Hk. unfold regular_at.
    assert (Rltb (norm2 (0, 0)) ptol = true) as Z0.
    { rewrite norm2_0. destruct (Rltb_spec 0 ptol); [auto|lra]. }
    pose proof (Nat.div_mod k nv ltac:(lia)) as DM. pose proof (Nat.mod_upper_bound k nv ltac:(lia)) as MB.
    set (a := (k / nv)%nat) in *. set (b := (k mod nv)%nat) in *.
    assert (a < nu)%nat as Ha by nia.
    apply andb_true_intro. split.
    - destruct (Nat.ltb_spec nv k) as [L|L]; [|reflexivity]. cbn [negb orb].
      replace (psub (psub (@nth pt k l (0, 0)) (@nth pt (k - nv) l (0, 0))) du) with ((0, 0) : pt); auto.
      assert (1 <= a)%nat by nia.
      rewrite (Lq k a b), (Lq (k - nv)%nat (a - 1)%nat b) by nia. rewrite INR_sub1 by lia. unfold psub. apply pt_eq; cbn; ring.
    - destruct (Nat.eqb_spec b 0) as [E|E]; [reflexivity|].
      destruct (Nat.ltb_spec 1 k) as [L|L]; [|reflexivity]. cbn [negb orb].
      replace (psub (psub (@nth pt k l (0, 0)) (@nth pt (k - 1) l (0, 0))) dv) with ((0, 0) : pt); auto.
      rewrite (Lq k a b), (Lq (k - 1)%nat a (b - 1)%nat) by nia. rewrite INR_sub1 by lia. unfold psub. apply pt_eq; cbn; ring. }
  destruct (make_equidistant_l 1 (nu - 1) 0 1 ltac:(lia) ltac:(lra)) as (ub & EU & VU & DU & NU & _).
  destruct (make_equidistant_l 1 (nv - 1) 0 1 ltac:(lia) ltac:(lra)) as (vb & EV & VV & DVg & NV & _).
  assert (length (map snd pts) = (nu * nv)%nat) as Ld.
  { rewrite map_length. unfold l in Ll. rewrite map_length in Ll. exact Ll. }
  destruct (reshape_shape nu nv (map snd pts) Ld) as (Sh1 & Sh2 & _).
  pose proof (len_eq _ VU) as (_ & _ & SU). pose proof (len_eq _ VV) as (_ & _ & SV).
  assert (exists s, make_surface ub vb (reshape nu nv (map snd pts)) false = Some s) as (s & Ms).
  { unfold make_surface. rewrite Sh1, SU, NU, DU. replace (nu - 1 + 1)%nat with nu by lia.
    rewrite Nat.eqb_refl. cbn [andb].
    assert (forallb (fun r => (length r =? size vb)%nat) (reshape nu nv (map snd pts)) = true) as ->; [|eauto].
    apply forallb_forall. intros r Hr. apply Nat.eqb_eq. rewrite Sh2 by auto. lia. }
  destruct (good_grid_surface nu nv (map snd pts) ub vb s Hu Hv Ld EU EV Ms) as (G & _).
  destruct (znew_three h (q0 q) (q1 q) (q2 q) s) as (ob & m & im & Zn & I & UX & XU & Xs).
  { apply G. }
  { unfold cross, psub, q. cbn. intros E. apply Cr. unfold cross.
    apply (Rmult_eq_reg_l (INR (nu - 1) * INR (nv - 1))); [|apply Rmult_integral_contrapositive; lra].
    rewrite Rmult_0_r, <- E. ring. }
  set (h1 := h ++ [ob]) in *.
  assert (forall i j, (i < nu)%nat -> (j < nv)%nat ->
    xy_to_uv h1 (length h) (@nth pt (i * nv + j) l (0, 0)) = Some (INR i / INR (nu - 1), INR j / INR (nv - 1))) as UV.
  { intros i j Hi Hj. rewrite (Lq _ i j) by auto. rewrite <- XU. f_equal.
    unfold on_parallelogram, q. apply pt_eq; cbn [fst snd q0 q1 q2]; field; lra. }
  assert (forall x, xy_to_uv h1 (length h) x <> None) as Xn.
  { intros x. destruct (Xs x) as (p & ->). discriminate. }
  set (f := fun x => match xy_to_uv h1 (length h) x with Some p => p | None => (0, 0) end).
  assert (all_some (map (xy_to_uv h1 (length h)) l) = Some (map f l)) as AS.
  { clear - Xn. induction l as [|x l IH]; [reflexivity|]. cbn [map all_some]. rewrite IH. unfold f at 2.
    destruct (xy_to_uv h1 (length h) x) eqn:E; [reflexivity|]. now apply Xn in E. }
  exists h1, (Grid (length h) nu nv q (map snd pts) (map f l)).
  split.
  { unfold grid_new. cbv zeta. change (map fst pts) with l. rewrite GC, RG, EU, EV, Ms, Zn. fold h1. rewrite AS.
    replace (xy_to_uv h1 (length h) (q0 q)) with (Some ((0, 1) : pt)).
    2:{ symmetry. rewrite <- XU. f_equal. unfold on_parallelogram, q. apply pt_eq; cbn; ring. }
    replace (xy_to_uv h1 (length h) (q1 q)) with (Some ((0, 0) : pt)).
    2:{ symmetry. rewrite <- XU. f_equal. unfold on_parallelogram, q. apply pt_eq; cbn; ring. }
    replace (xy_to_uv h1 (length h) (q2 q)) with (Some ((1, 0) : pt)).
    2:{ symmetry. rewrite <- XU. f_equal. unfold on_parallelogram, q. apply pt_eq; cbn; ring. }
    replace (xy_to_uv h1 (length h) (q3 q)) with (Some ((1, 1) : pt)).
    2:{ symmetry. rewrite <- XU. f_equal. unfold on_parallelogram, q. apply pt_eq; cbn; ring. }
    rewrite !allclose_refl. reflexivity. }
  cbn [g_nu g_nv g_data g_z g_uv]. unfold h1 at 1. rewrite app_length. cbn [length].
  repeat (split; [first [reflexivity|lia]|]). split; [|rewrite map_length; exact Ll].
  intros i j Hi Hj. rewrite (nth_map_lt f l (i * nv + j) (0, 0) (0, 0)) by (change (i * nv + j < @length pt l)%nat; rewrite Ll'; nia).
  unfold f. rewrite UV by auto. reflexivity.
Qed.

(** * Accepted grids are nearly regular *)
Lemma coord_le_norm2 (f : pt -> R) p : f = fst \/ f = snd -> Rabs (f p) <= norm2 p.
Proof.
  intros H. unfold norm2. rewrite <- sqrt_Rsqr_abs. apply sqrt_le_1_alt. unfold Rsqr.
  pose proof (Rle_0_sqr (fst p)). pose proof (Rle_0_sqr (snd p)). unfold Rsqr in *.
  destruct H as [-> | ->]; lra.
Qed.

Lemma nearly_regular (l : list pt) nu nv q ptol us vs tol (f : pt -> R) : 0 < tol ->
  grid_corners l tol = Some ((nu, nv), q, ptol, us, vs) ->
  forallb (regular_at l nv ptol us vs) (seq 0 (nu * nv)) = true ->
  f = fst \/ f = snd ->
  forall i j, (i < nu)%nat -> (j < nv)%nat ->
  Rabs (f (nth (i * nv + j) l (0, 0)) - (f (nth 0 l (0, 0)) + INR i * f us + INR j * f vs))
    <= (INR nu + INR nv) * ptol.
Proof.
  intros Ht GC RG Hf.
  destruct (grid_corners_l _ _ _ _ _ _ _ _ Ht GC) as (Hu & Hv & Ll & Hq & Hus & Hvs & Hpt).
  rewrite forallb_forall in RG.
  set (P := fun i j => f (nth (i * nv + j) l (0, 0))).
  set (e := fun i j => P i j - (P 0%nat 0%nat + INR i * f us + INR j * f vs)).
  assert (forall a b, f (psub a b) = f a - f b) as Fs by (intros a b; destruct Hf as [-> | ->]; reflexivity).
  assert (0 < INR (nu - 1)) as Pu by (apply lt_0_INR; lia).
  assert (f us * INR (nu - 1) = P (nu - 1)%nat 0%nat - P 0%nat 0%nat) as Eu.
  { rewrite Hus, Hq. cbn [q1 q2]. unfold P. replace ((nu - 1) * nv + 0)%nat with (nu * nv - nv)%nat by nia.
    cbn [Nat.mul Nat.add]. destruct Hf as [-> | ->]; cbn; field; lra. }
  assert (0 <= ptol) as Pp.
  { rewrite Hpt. apply Rmult_le_pos; [lra|]. eapply Rle_trans; [apply norm2_nonneg|apply Rmax_l]. }
  assert (forall i j, (1 <= i < nu)%nat -> (j < nv)%nat -> (i <> 1 \/ j <> 0)%nat ->
    Rabs (e i j - e (i - 1)%nat j) <= ptol) as EX.
  { intros i j Hi Hj Nij. specialize (RG (i * nv + j)%nat ltac:(apply in_seq; nia)).
    unfold regular_at in RG. apply andb_prop in RG as [RG _].
    destruct (Nat.ltb_spec nv (i * nv + j)); [|nia]. cbn [negb orb] in RG.
    replace (i * nv + j - nv)%nat with ((i - 1) * nv + j)%nat in RG by nia.
    unfold Rltb in RG. destruct (Rlt_dec _ _) as [L|] in RG; [|discriminate].
    eapply Rle_trans; [|apply Rlt_le; exact L].
    eapply Rle_trans; [|apply (coord_le_norm2 f); auto]. rewrite !Fs. fold (P i j) (P (i - 1)%nat j).
    right. f_equal. unfold e. rewrite INR_sub1 by lia. ring. }
  assert (forall i j, (i < nu)%nat -> (1 <= j < nv)%nat -> (i <> 0 \/ j <> 1)%nat ->
    Rabs (e i j - e i (j - 1)%nat) <= ptol) as EY.
  { intros i j Hi Hj Nij. specialize (RG (i * nv + j)%nat ltac:(apply in_seq; nia)).
    unfold regular_at in RG. apply andb_prop in RG as [_ RG].
    destruct (Nat.eqb_spec ((i * nv + j) mod nv) 0) as [E|E].
    { rewrite Nat.add_comm, Nat.mod_add, Nat.mod_small in E by lia. lia. }
    destruct (Nat.ltb_spec 1 (i * nv + j)); [|nia]. cbn [negb orb] in RG.
    replace (i * nv + j - 1)%nat with (i * nv + (j - 1))%nat in RG by nia.
    unfold Rltb in RG. destruct (Rlt_dec _ _) as [L|] in RG; [|discriminate].
    eapply Rle_trans; [|apply Rlt_le; exact L].
    eapply Rle_trans; [|apply (coord_le_norm2 f); auto]. rewrite !Fs. fold (P i j) (P i (j - 1)%nat).
    right. f_equal. unfold e. rewrite INR_sub1 by lia. ring. }
  assert (forall a b t, Rabs (a - b) <= t -> Rabs a <= Rabs b + t /\ Rabs b <= Rabs a + t) as Tri.
  { intros a b t H. pose proof (Rabs_triang (a - b) b) as T1. pose proof (Rabs_triang (b - a) a) as T2.
    replace (a - b + b) with a in T1 by ring. replace (b - a + a) with b in T2 by ring.
    rewrite (Rabs_minus_sym b a) in T2. lra. }
  (* down the first column from the last row *)
  assert (forall d i, (i + d = nu - 1)%nat -> (1 <= i)%nat -> Rabs (e i 0%nat) <= INR d * ptol) as C1.
  { induction d as [|d IH]; intros i Hi Hi1.
    - replace i with (nu - 1)%nat by lia. unfold e. right.
      replace (P (nu - 1)%nat 0%nat - (P 0%nat 0%nat + INR (nu - 1) * f us + INR 0 * f vs)) with 0.
      + rewrite Rabs_R0. cbn. ring.
      + cbn [INR]. lra.
    - pose proof (IH (S i) ltac:(lia) ltac:(lia)) as B.
      pose proof (EX (S i) 0%nat ltac:(lia) ltac:(lia) ltac:(lia)) as B2.
      replace (S i - 1)%nat with i in B2 by lia. apply Tri in B2. rewrite S_INR. lra. }
  assert (forall i, (1 <= i < nu)%nat -> forall j, (j < nv)%nat ->
    Rabs (e i j) <= (INR (nu - 1 - i) + INR j) * ptol) as C2.
  { intros i Hi. induction j as [|j IH]; intros Hj.
    - cbn [INR]. rewrite Rplus_0_r. apply C1; lia.
    - pose proof (IH ltac:(lia)) as B. pose proof (EY i (S j) ltac:(lia) ltac:(lia) ltac:(lia)) as B2.
      replace (S j - 1)%nat with j in B2 by lia. apply Tri in B2. rewrite S_INR. lra. }
  intros i j Hi Hj. fold (P i j). change (f (nth 0 l (0, 0))) with (P 0%nat 0%nat). fold (e i j).
  assert (forall k, (k <= nu + nv)%nat -> INR k * ptol <= (INR nu + INR nv) * ptol) as Bd.
  { intros k Hk. apply Rmult_le_compat_r; auto. rewrite <- plus_INR. apply le_INR. auto. }
  destruct i as [|i].
  - destruct j as [|j].
    + replace (e 0%nat 0%nat) with 0 by (unfold e; cbn [INR]; ring). rewrite Rabs_R0.
      apply Rmult_le_pos; auto. rewrite <- plus_INR. apply pos_INR.
    + pose proof (C2 1%nat ltac:(lia) (S j) Hj) as B.
      pose proof (EX 1%nat (S j) ltac:(lia) Hj ltac:(lia)) as B2.
      cbn [Nat.sub] in B2. apply Tri in B2. rewrite <- plus_INR in B.
      eapply Rle_trans; [|apply (Bd (nu - 1 - 1 + S j + 1)%nat); lia].
      rewrite (plus_INR _ 1). cbn [INR]. lra.
  - pose proof (C2 (S i) ltac:(lia) j Hj) as B. rewrite <- plus_INR in B.
    eapply Rle_trans; [exact B|]. apply Bd. lia.
Qed.

(** * transform does not fail on sensible input *)
Lemma zheight_center (st : zstate) : fst st (1/2) (1/2) <> None -> zheight st (1/2) (1/2) <> None.
Proof.
  destruct st as [f [[s t]|]]; unfold zheight; cbn [fst snd]; intros H; [|exact H].
  unfold scaled. destruct (f (1/2) (1/2)) as [c|]; [discriminate|exact H].
Qed.

Lemma zrun_center es : forall st : zstate, fst st (1/2) (1/2) <> None ->
  fst (fold_left zstep es st) (1/2) (1/2) <> None.
Proof.
  induction es as [|e es IH]; intros st H; [exact H|]. cbn [fold_left]. apply IH.
  destruct e as [s t|]; [exact H|]. apply zheight_center. exact H.
Qed.

Lemma transform_succeeds_l h i q tr st A b z : obj_inv i q tr st h -> is_linear q = true ->
  cross (psub (q2 q) (q1 q)) (psub (q0 q) (q1 q)) <> 0 -> det A <> 0 ->
  fst st (1/2) (1/2) <> None ->
  exists h', transform h i (Some (A, b)) z = Some h'.
Proof.
  intros (o & N & X & Zi) E Cr Da Hc. pose proof (nth_lt _ _ _ N) as Hi.
  assert (exists h1, transform_xy h i A b = Some h1) as (h1 & T1).
  { unfold transform_xy. rewrite N. rewrite (xi_orig _ _ _ _ X).
    assert (exists o1, reset_xy i o q = Some o1) as (o1 & R).
    { unfold reset_xy. rewrite E. unfold inv.
      destruct (Reqb_spec (det (column_stack (psub (q2 q) (q1 q)) (psub (q0 q) (q1 q)))) 0) as [Z|]; [|eauto].
      exfalso. apply Cr. rewrite <- Z. unfold det, column_stack, cross. cbn. ring. }
    rewrite R. pose proof R as R'.
    apply reset_xy_inv in R'; [|intros E'; congruence|apply X].
    apply reset_xy_l in R as (Z1 & _ & _ & _ & _ & Z2 & Z3 & Li & _).
    destruct (Li E) as (im & I & Lo). cbv zeta in I, Lo.
    unfold center, eval_pt. rewrite (xy_inv_map _ i q None o1 (1/2, 1/2) (upd_same _ _ _ Hi) R').
    unfold z_eval. rewrite upd_same by auto. cbn [fst snd].
    assert (obj_z o1 (1/2) (1/2) = obj_z o (1/2) (1/2)) as ->.
    { unfold obj_z. rewrite Z1, Z2, Z3. reflexivity. }
    rewrite (z_inv_height _ _ _ _ Zi).
    pose proof (zheight_center st Hc) as Hz. destruct (zheight st (1/2) (1/2)); [|now elim Hz].
    rewrite Lo. unfold inv.
    destruct (Reqb_spec (det (mmul A (column_stack (psub (q2 q) (q1 q)) (psub (q0 q) (q1 q))))) 0) as [Z|]; [|eauto].
    exfalso. rewrite det_mmul in Z. apply Rmult_integral in Z as [Z|Z]; [auto|].
    apply Cr. rewrite <- Z. unfold det, column_stack, cross. cbn. ring. }
  unfold transform. rewrite T1. destruct z as [[s t]|]; [|eauto].
  destruct (transform_xy_inv _ _ _ _ _ _ _ _ T1 N X) as (o' & -> & X' & Z1 & _ & Z3 & Z4).
  unfold transform_z. rewrite upd_same by auto. rewrite upd_twice by auto.
  unfold center, eval_pt.
  assert (xy_inv i q (Some (A, b)) (reset_z o')) as X2 by (destruct X'; constructor; auto).
  rewrite (xy_inv_map _ i q _ _ (1/2, 1/2) (upd_same _ _ _ Hi) X2).
  unfold z_eval. rewrite upd_same by auto. cbn [fst snd]. unfold obj_z. cbn [reset_z z_base have_z].
  rewrite Z1. rewrite (zi_base _ _ Zi). destruct (fst st (1/2) (1/2)); [|now elim Hc].
  cbn. eauto.
Qed.

Lemma znew_cross h a b c s h1 : znew h [a; b; c] s = Some h1 -> cross (psub c b) (psub a b) <> 0.
Proof.
  unfold znew. destruct (s_dim s =? 1)%nat; [|discriminate]. cbn [quad_of].
  unfold reset_xy, is_linear. cbn [q0 q1 q2 q3]. rewrite allclose_refl. unfold inv.
  destruct (Reqb_spec (det (column_stack (psub c b) (psub a b))) 0) as [Z|Z]; [discriminate|].
  intros _ Cr. apply Z. rewrite <- Cr. unfold det, column_stack, cross. cbn. ring.
Qed.

Lemma grid_transform_succeeds_l h pts tol h1 g ts h2 g2 A b z : 0 < tol ->
  grid_new h pts tol = Some (h1, g) -> grid_run h1 g ts = Some (h2, g2) -> det A <> 0 ->
  exists h3 g3, grid_transform h2 g2 (Some (A, b)) z = Some (h3, g3).
Proof.
  intros Ht G R Da.
  destruct (grid_height_l _ _ _ _ _ [] h1 g (1/2) (1/2) Ht G eq_refl ltac:(lra) ltac:(lra))
    as (p0 & z0 & _ & _ & _ & E & _).
  pose proof (grid_new_l _ _ _ _ _ Ht G) as [Gz _ _ (s & ub & vb & Gs & Zn & _) _].
  destruct (grid_run_l _ _ _ _ _ R) as (R2 & Z2 & _). rewrite Gz in R2, Z2.
  destruct (history_l _ _ _ _ _ _ Gs Zn R2) as (q & Q & I).
  destruct (history_l _ _ _ _ [] _ Gs Zn eq_refl) as (q' & _ & (o1 & N1 & _ & Zi1)).
  pose proof (znew_cross _ _ _ _ _ _ Zn) as Cr.
  cbn [quad_of] in Q. injection Q as <-.
  edestruct (transform_succeeds_l h2 (length h) _ _ _ A b z I) as (h3 & T); cbn [q0 q1 q2 q3]; auto.
  - unfold is_linear. cbn [q0 q1 q2 q3]. apply allclose_refl.
  - apply zrun_center. cbn [fst]. intros B. unfold grid_eval, eval_pt, z_eval in E.
    rewrite Gz, N1 in E. cbn [fst snd] in E. rewrite (z_inv_height _ _ _ _ Zi1) in E.
    cbn in E. unfold zheight in E. cbn [fst snd zrun fold_left] in E. rewrite B in E.
    destruct (uv_to_xy _ _ _) in E; discriminate.
  - assert (run h2 [OTransform (length h) (Some (A, b)) z] = Some h3) as R3 by (cbn [run step]; rewrite T; reflexivity).
    destruct (obj_run [OTransform (length h) (Some (A, b)) z] _ _ _ _ _ _ ltac:(destruct I as (? & N & _); apply nth_lt in N; exact N) I R3)
      as (o3 & N3 & X3 & _).
    unfold grid_transform. rewrite Z2, T. rewrite !(xy_inv_map _ _ _ _ _ _ N3 X3). eauto.
Qed.
