(** Property C116 (approximations of grids that were moved). *)
From Coq Require Import List ZArith Arith Lia Bool Reals Lra.
From Verif Require Import Spline_Model Spline_Piece Spline_Proofs Spline_Curve ZSurf_Spec ZSurf_Model ZSurf_Proofs ZSurf_Grid ZSurf_Props Ibox_Run Gapprox_Model Gapprox_Props.
Import ListNotations.
Local Open Scope R_scope.

(** The last transform of the plane, about the middle c. *)
Definition moved_xy (ts : list (option (mat * pt) * option (R * R))) (c x : pt) : pt := match last_some (map fst ts) with Some (A, b) => about (rows A) b c x | None => x end.
(** The last scale and shift of heights, about the height zc of the middle. *)
Definition moved_z (ts : list (option (mat * pt) * option (R * R))) (zc z : R) : R := match last_some (map snd ts) with Some (s, t) => s * (z - zc) + zc + t | None => z end.
Lemma events_xy ts i : map (xy_event i) (map (fun t : option (mat * pt) * option (R * R) => OTransform i (fst t) (snd t)) ts) = map fst ts.
Proof. rewrite map_map. apply map_ext. intros t. cbn [xy_event]. now rewrite Nat.eqb_refl. Qed.

(** After any transforms the points are those of the untouched object, moved by the last ones about its middle. *)
Theorem C116_moved : forall h pts tol h1 g ts h2 g2 l1 q1, 0 < tol -> grid_new h pts tol = Some (h1, g) -> grid_run h1 g ts = Some (h2, g2) -> approx_from_grid_surface h1 g = Some (l1, q1) ->
  exists c zc, grid_eval h1 g (1/2, 1/2) = Some (c, zc) /\ approx_from_grid_surface h2 g2 = Some (map (fun '(p, z) => (moved_xy ts c p, moved_z ts zc z)) l1, g_quad g2).
Proof.
  intros h pts tol h1 g ts h2 g2 l1 q1 T G RUN E1. destruct (grid_new_l _ _ _ _ _ T G) as [GZ (GU & GV & GL) _ (s & ub & vb & GS & ZN & EU & EV & BU & BV & _) _].
  destruct (grid_run_l _ _ _ _ _ RUN) as (RU & Z2 & _). rewrite GZ in RU.
  destruct (bases_new _ _ _ _ ZN) as (o1 & N1 & B1). destruct (bases_run s (length h) _ _ _ (ex_intro _ o1 (conj N1 B1)) RU) as (o2 & N2 & B2).
  destruct (C35_transform _ _ _ _ _ _ GS ZN RU) as [XY _]. cbv zeta in XY. rewrite events_xy in XY.
  destruct (grid_height_l h pts tol h1 g [] h1 g (1/2) (1/2) T G eq_refl ltac:(lra) ltac:(lra)) as (c & zc & z9 & p8 & zc8 & C & _). exists c, zc. split; [exact C|].
  destruct (poles_equal (g_nu g - 1) ub ltac:(lia) EU) as (us & PU & LU & HU). destruct (poles_equal (g_nv g - 1) vb ltac:(lia) EV) as (vs & PV & LV & HV).
  unfold approx_from_grid_surface in *. rewrite GZ, N1 in E1. rewrite Z2, GZ, N2. destruct B1 as [B1u B1v]. destruct B2 as [B2u B2v]. rewrite B1u, B1v, BU, BV, PU, PV in E1. rewrite B2u, B2v, BU, BV, PU, PV.
  assert (IN : forall p, In p (mesh us vs) -> 0 <= fst p <= 1 /\ 0 <= snd p <= 1).
  { intros p IP. unfold mesh in IP. apply in_flat_map in IP as (j & J & IP). apply in_map_iff in IP as (i & <- & I). apply in_seq in I, J. cbn [fst snd]. rewrite LU in I. rewrite LV in J. rewrite HU, HV by lia.
    assert (B : forall a n, (0 < n)%nat -> (a <= n)%nat -> 0 <= INR a / INR n <= 1).
    { intros a n Hn Ha. assert (P : 0 < INR n) by now apply lt_0_INR. assert (Q : INR a <= INR n) by now apply le_INR. assert (Z := pos_INR a). split; [apply Rmult_le_pos; [exact Z|left; now apply Rinv_0_lt_compat]|]. apply Rmult_le_reg_r with (INR n); [exact P|]. unfold Rdiv. rewrite Rmult_assoc, Rinv_l by lra. lra. }
    split; apply B; lia. }
  assert (EV1 : forall p, In p (mesh us vs) -> exists x z, grid_eval h1 g p = Some (x, z) /\ grid_eval h2 g2 p = Some (moved_xy ts c x, moved_z ts zc z)).
  { intros [u v] IP. destruct (IN _ IP) as [Hu Hv]. cbn [fst snd] in Hu, Hv. destruct (grid_height_l h pts tol h1 g [] h1 g u v T G eq_refl Hu Hv) as (x & z & z' & p9 & zc9 & A & _ & _ & ZA & ZB).
    destruct (grid_height_l h pts tol h1 g ts h2 g2 u v T G RUN Hu Hv) as (x2 & z2 & z2' & c' & zc' & A2 & _ & C' & ZA2 & ZB2). rewrite C in C'. injection C' as <- <-. exists x, z. split; [exact A|]. rewrite A2.
    destruct (XY (u, v)) as (x' & c' & X1 & X2 & X3). assert (ce : c' = c) by (unfold grid_eval, eval_pt in C; rewrite GZ, X2 in C; destruct (z_eval _ _ _); [congruence|discriminate]). assert (xe : x' = x) by (unfold grid_eval, eval_pt in A; rewrite GZ, X1 in A; destruct (z_eval _ _ _); [congruence|discriminate]). subst c' x'.
    assert (x2e : x2 = moved_xy ts c x) by (unfold grid_eval, eval_pt in A2; rewrite Z2, GZ, X3 in A2; destruct (z_eval _ _ _); [injection A2 as A2 _; symmetry; exact A2|discriminate]). subst x2. apply f_equal. apply f_equal.
    unfold moved_z. unfold z_last in *. cbn [map last_some fst snd] in ZA, ZB. destruct (last_some (map snd ts)) as [[a t]|]; cbn [fst snd] in *; rewrite ZA2, ZB2, ZA, ZB; ring. }
  clear - E1 EV1. generalize dependent (mesh us vs). intros m E1 EV1. enough (H : forall l, all_some (map (grid_eval h1 g) m) = Some l -> all_some (map (grid_eval h2 g2) m) = Some (map (fun '(p, z) => (moved_xy ts c p, moved_z ts zc z)) l)).
  { destruct (all_some (map (grid_eval h1 g) m)) as [l|]; [|discriminate]. injection E1 as <- _. now rewrite (H l eq_refl). }
  clear E1. induction m as [|p m IH]; cbn [map all_some]; intros l E; [injection E as <-; reflexivity|]. destruct (EV1 p (or_introl eq_refl)) as (x & z & A & B). rewrite A in E. rewrite B. destruct (all_some (map (grid_eval h1 g) m)) as [r|]; [|discriminate]. injection E as <-. rewrite (IH (fun q I => EV1 q (or_intror I)) r eq_refl). reflexivity.
Qed.
Print Assumptions C116_moved.
(** Two by three points with heights scaled by 2 about the height zc of the middle: the first height was 1. *)
Example C116_case_moved : exists h1 g h2 g2 c zc l2 q2 p, grid_new [] gsamp (/ 10 ^ 6) = Some (h1, g) /\ grid_transform h1 g (Some (Mat 1 0 0 1, (0, 0))) (Some (2, 0)) = Some (h2, g2) /\
  grid_eval h1 g (1/2, 1/2) = Some (c, zc) /\ approx_from_grid_surface h2 g2 = Some (l2, q2) /\ length l2 = 6%nat /\ nth_error l2 0 = Some (p, 2 - zc).
Proof.
  destruct C36_scaled_refuted as (h1 & g & h2 & g2 & _ & _ & _ & G & TR & _). destruct gsamp_made as (h1' & g' & G' & NU & NV). rewrite G in G'. injection G' as <- <-.
  destruct (C116_heights [] gsamp (/ 10 ^ 6) h1 g ltac:(lra) G) as (l & E & L & H). destruct (C116_moved [] gsamp (/ 10 ^ 6) h1 g _ h2 g2 l _ ltac:(lra) G (grid_run_one _ _ _ _ _ _ TR) E) as (c & zc & C & M).
  specialize (H 0%nat 0%nat ltac:(lia) ltac:(lia)). cbn in H. destruct l as [|[p z] l]; [discriminate H|]. cbn in H. injection H as ->.
  exists h1, g, h2, g2, c, zc. eexists _, _, _. split; [exact G|]. split; [exact TR|]. split; [exact C|]. split; [exact M|]. split; [rewrite map_length; exact L|]. cbn. apply f_equal. apply f_equal. ring.
Qed.
