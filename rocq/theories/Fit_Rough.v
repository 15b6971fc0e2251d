(** Roughness of the surfaces and the regularisation matrix. *)
From Coq Require Import List Arith Lia Bool Reals Lra Psatz.
From Coquelicot Require Import Coquelicot.
From Verif Require Import Spline_Model Spline_Spec Spline_Piece Spline_Proofs Spline_Curve Fit_Model Fit_Spec Fit_Basis Fit_Matrix Fit_Reg Fit_Integral.
Import ListNotations.
Local Open Scope R_scope.

Lemma deriv_plus D f g x d e : deriv_within D f x d -> deriv_within D g x e -> deriv_within D (fun y => f y + g y) x (d + e).
Proof.
  intros F G eps P. destruct (F (eps / 2) ltac:(lra)) as (d1 & P1 & F1). destruct (G (eps / 2) ltac:(lra)) as (d2 & P2 & G2). exists (Rmin d1 d2). split; [now apply Rmin_glb_lt|].
  intros y Y N L. assert (L1 := Rlt_le_trans _ _ _ L (Rmin_l d1 d2)). assert (L2 := Rlt_le_trans _ _ _ L (Rmin_r d1 d2)). specialize (F1 y Y N L1). specialize (G2 y Y N L2).
  replace ((f y + g y - (f x + g x)) / (y - x) - (d + e)) with (((f y - f x) / (y - x) - d) + ((g y - g x) / (y - x) - e)) by (field; intros Z; apply N; lra).
  eapply Rle_lt_trans; [apply Rabs_triang|]. lra.
Qed.
Lemma deriv_scal D f x d c : deriv_within D f x d -> deriv_within D (fun y => c * f y) x (c * d).
Proof.
  intros F eps P. assert (A := Rabs_pos c). destruct (F (eps / (Rabs c + 1))) as (del & Q & H); [apply Rdiv_lt_0_compat; lra|]. exists del. split; [exact Q|].
  intros y Y N L. specialize (H y Y N L). replace ((c * f y - c * f x) / (y - x) - c * d) with (c * ((f y - f x) / (y - x) - d)) by (field; intros Z; apply N; lra). rewrite Rabs_mult.
  set (q := Rabs ((f y - f x) / (y - x) - d)) in *. assert (B := Rabs_pos ((f y - f x) / (y - x) - d)). fold q in B.
  assert (E : (Rabs c + 1) * (eps / (Rabs c + 1)) = eps) by (field; lra). assert (K : (Rabs c + 1) * q < eps) by (rewrite <- E; apply Rmult_lt_compat_l; lra). nra.
Qed.
Lemma deriv_zero D x : deriv_within D (fun _ => 0) x 0.
Proof. intros eps P. exists 1. split; [lra|]. intros y _ N _. replace ((0 - 0) / (y - x) - 0) with 0 by (field; intros Z; apply N; lra). rewrite Rabs_R0. exact P. Qed.
Lemma deriv_sum D n (f : nat -> R -> R) x d : (forall i, (i < n)%nat -> deriv_within D (f i) x (d i)) -> deriv_within D (fun y => rsum n (fun i => f i y)) x (rsum n d).
Proof.
  induction n as [|n IH]; intros H; cbn [rsum]; [apply deriv_zero|]. apply (deriv_plus D (fun y => rsum n (fun i => f i y)) (f n)); [apply IH; intros; apply H; lia|apply H; lia].
Qed.
Lemma deriv_ext (D : R -> Prop) (f g : R -> R) x d : D x -> (forall y, D y -> f y = g y) -> deriv_within D f x d -> deriv_within D g x d.
Proof. intros X H F eps P. destruct (F eps P) as (del & Q & K). exists del. split; [exact Q|]. intros y Y. rewrite <- (H y Y), <- (H x X). now apply K. Qed.
Lemma deriv_unique f x d d' : unit_range x -> deriv_within unit_range f x d -> deriv_within unit_range f x d' -> d = d'.
Proof.
  intros X F G. destruct (Req_dec d d') as [E|N]; [exact E|exfalso]. set (e := Rabs (d - d') / 2). assert (P : 0 < e) by (unfold e; assert (A := Rabs_pos_lt (d - d') ltac:(lra)); lra).
  destruct (F e P) as (d1 & P1 & F1). destruct (G e P) as (d2 & P2 & G2). set (m := Rmin (1 / 2) (Rmin d1 d2 / 2)).
  assert (M : 0 < Rmin d1 d2) by now apply Rmin_glb_lt. assert (M1 := Rmin_l d1 d2). assert (M2 := Rmin_r d1 d2). assert (Q : 0 < m) by (unfold m; apply Rmin_glb_lt; lra). assert (Q1 : m <= 1 / 2) by apply Rmin_l. assert (Q2 : m <= Rmin d1 d2 / 2) by apply Rmin_r.
  assert (Y : exists y, unit_range y /\ y <> x /\ Rabs (y - x) = m).
  { unfold unit_range in *. destruct (Rle_dec x (1 / 2)) as [A|A]; [exists (x + m)|exists (x - m)]; (split; [lra|split; [lra|]]).
    - replace (x + m - x) with m by ring. apply Rabs_right. lra.
    - replace (x - m - x) with (- m) by ring. rewrite Rabs_Ropp. apply Rabs_right. lra. }
  destruct Y as (y & Y & NY & LY). specialize (F1 y Y NY ltac:(lra)). specialize (G2 y Y NY ltac:(lra)). set (q := (f y - f x) / (y - x)) in *.
  assert (T : Rabs (d - d') <= Rabs (q - d) + Rabs (q - d')). { replace (d - d') with (- (q - d) + (q - d')) by ring. eapply Rle_trans; [apply Rabs_triang|]. rewrite Rabs_Ropp. lra. }
  unfold e in *. lra.
Qed.
Definition clamp01 (x : R) : R := Rmin (Rmax x 0) 1.
Lemma clamp_unit x : 0 <= clamp01 x <= 1.
Proof. unfold clamp01, Rmin, Rmax. destruct (Rle_dec x 0); destruct (Rle_dec _ 1); lra. Qed.
Lemma clamp_id x : 0 <= x <= 1 -> clamp01 x = x.
Proof. intros X. unfold clamp01, Rmin, Rmax. destruct (Rle_dec x 0); destruct (Rle_dec _ 1); lra. Qed.
Lemma clamp_step x h : 0 <= x <= 1 -> Rabs (clamp01 (x + h) - x) <= Rabs h.
Proof. intros X. unfold clamp01, Rmin, Rmax. destruct (Rle_dec (x + h) 0); destruct (Rle_dec _ 1); unfold Rabs; destruct (Rcase_abs h); destruct (Rcase_abs _); lra. Qed.
Lemma deriv_const f : (forall t, unit_range t -> deriv_within unit_range f t 0) -> forall t, unit_range t -> f t = f 0.
Proof.
  intros H t T. destruct (Req_dec t 0) as [-> |N]; [reflexivity|]. set (g := fun x => f (clamp01 x)).
  assert (G : g 0 = g t).
  { apply eq_is_derive; [|unfold unit_range in T; lra]. intros x X. apply is_derive_Reals. intros eps P. assert (X1 : unit_range x) by (unfold unit_range in *; lra). destruct (H x X1 eps P) as (del & Q & K).
    exists (mkposreal del Q). intros h Hh L. cbn in L. unfold g. rewrite (clamp_id x X1). set (y := clamp01 (x + h)). change zero with 0. rewrite Rminus_0_r. assert (A := clamp_step x h X1). fold y in A. assert (AH := Rabs_pos_lt h Hh).
    destruct (Req_dec y x) as [-> |NY]; [replace ((f x - f x) / h) with 0 by (field; exact Hh); rewrite Rabs_R0; exact P|].
    specialize (K y (clamp_unit _) NY ltac:(lra)). rewrite Rminus_0_r in K. assert (AY := Rabs_pos_lt (y - x) ltac:(lra)).
    assert (E : f y - f x = (f y - f x) / (y - x) * (y - x)) by (field; lra). rewrite E. unfold Rdiv at 1. rewrite !Rabs_mult, Rabs_inv.
    set (q := Rabs ((f y - f x) / (y - x))) in *. assert (B := Rabs_pos ((f y - f x) / (y - x))). fold q in B.
    apply Rle_lt_trans with (q * 1); [|lra]. rewrite Rmult_assoc. apply Rmult_le_compat_l; [exact B|]. apply Rmult_le_reg_r with (Rabs h); [exact AH|]. rewrite Rmult_assoc, Rinv_l by lra. lra. }
  unfold g in G. rewrite !clamp_id in G by (unfold unit_range in T; lra). now symmetry.
Qed.
(** The roughness of a function is one number. *)
Lemma rough_unique f g r s : (forall u v, unit_range u -> unit_range v -> f u v = g u v) -> roughness f r -> roughness g s -> r = s.
Proof.
  intros H (Du & Dv & I & F & RI & R) (Eu & Ev & J & G & SJ & SI).
  assert (EQ : forall u v, unit_range u -> unit_range v -> Du u v = Eu u v /\ Dv u v = Ev u v).
  { intros u v U V. destruct (F u v U V) as [F1 F2]. destruct (G u v U V) as [G1 G2]. split.
    - apply (deriv_unique (fun t => g t v) u); [exact U| |exact G1]. apply (deriv_ext unit_range (fun t => f t v)); [exact U| |exact F1]. intros y Y. now apply H.
    - apply (deriv_unique (fun t => g u t) v); [exact V| |exact G2]. apply (deriv_ext unit_range (fun t => f u t)); [exact V| |exact F2]. intros y Y. now apply H. }
  assert (IJ : forall v, unit_range v -> I v = J v).
  { intros v V. rewrite <- (is_RInt_unique _ _ _ _ (RI v V)), <- (is_RInt_unique _ _ _ _ (SJ v V)). apply RInt_ext. intros u U. rewrite Rmin_left, Rmax_right in U by lra.
    destruct (EQ u v ltac:(unfold unit_range; lra) V) as [-> ->]. reflexivity. }
  rewrite <- (is_RInt_unique _ _ _ _ R), <- (is_RInt_unique _ _ _ _ SI). apply RInt_ext. intros v V. rewrite Rmin_left, Rmax_right in V by lra. apply IJ. unfold unit_range; lra.
Qed.
Lemma parabola c0 c1 c2 x y z t : x <> y -> y <> z -> z <> x -> p4 c0 c1 c2 0 0 x = 0 -> p4 c0 c1 c2 0 0 y = 0 -> p4 c0 c1 c2 0 0 z = 0 -> p4 c0 c1 c2 0 0 t = 0.
Proof.
  intros A B C X Y Z. assert (E : (x - y) * (y - z) * (z - x) * p4 c0 c1 c2 0 0 t = p4 c0 c1 c2 0 0 x * ((t - y) * (t - z) * (z - y)) + p4 c0 c1 c2 0 0 y * ((t - x) * (t - z) * (x - z)) + p4 c0 c1 c2 0 0 z * ((t - x) * (t - y) * (y - x))) by (unfold p4; ring).
  rewrite X, Y, Z in E. assert (NZ : (x - y) * (y - z) * (z - x) <> 0). { apply Rmult_integral_contrapositive_currified; [apply Rmult_integral_contrapositive_currified|]; lra. }
  apply (Rmult_eq_reg_l ((x - y) * (y - z) * (z - x))); [lra|exact NZ].
Qed.

Section Rough.
Variables (ub vb : basis) (nu nv : nat).
Hypothesis (NU : (0 < nu)%nat) (NV : (0 < nv)%nat) (EU : equal_basis ub nu) (EV : equal_basis vb nv).
Lemma vz_gradient z : gradient (vz ub vb z) (vdu ub vb z) (vdv ub vb z).
Proof.
  intros u v U V. split.
  - unfold vz, vdu. apply (deriv_sum unit_range (size vb) (fun k t => rsum (size ub) (fun i => z (k * size ub + i)%nat * ev ub i t) * ev vb k v)). intros k K.
    apply (deriv_ext _ (fun t => ev vb k v * rsum (size ub) (fun i => z (k * size ub + i)%nat * ev ub i t))); [exact U|intros; ring|]. rewrite Rmult_comm.
    apply deriv_scal. apply (deriv_sum unit_range (size ub) (fun i t => z (k * size ub + i)%nat * ev ub i t)). intros i I. apply deriv_scal. now apply (deriv_ev ub nu).
  - unfold vz, vdv. apply (deriv_sum unit_range (size vb) (fun k t => rsum (size ub) (fun i => z (k * size ub + i)%nat * ev ub i u) * ev vb k t)). intros k K. apply deriv_scal. now apply (deriv_ev vb nv).
Qed.
Lemma poly_u z v I : poly2 ub nu I (fun u => vdu ub vb z u v) /\ poly2 ub nu I (fun u => vdv ub vb z u v).
Proof.
  split.
  - unfold vdu. apply (poly2_sum ub nu I (size vb) (fun k u => rsum (size ub) (fun i => z (k * size ub + i)%nat * dev ub i u) * ev vb k v)). intros k _. apply poly2_scal.
    apply (poly2_sum ub nu I (size ub) (fun i u => z (k * size ub + i)%nat * dev ub i u)). intros i L. apply poly2_scal_l. now apply dev_poly.
  - unfold vdv. apply (poly2_sum ub nu I (size vb) (fun k u => rsum (size ub) (fun i => z (k * size ub + i)%nat * ev ub i u) * dev vb k v)). intros k _. apply poly2_scal.
    apply (poly2_sum ub nu I (size ub) (fun i u => z (k * size ub + i)%nat * ev ub i u)). intros i L. apply poly2_scal_l. now apply ev_poly.
Qed.
Lemma poly_v z u I : poly2 vb nv I (fun v => vdu ub vb z u v) /\ poly2 vb nv I (fun v => vdv ub vb z u v).
Proof.
  split.
  - unfold vdu. apply (poly2_sum vb nv I (size vb) (fun k v => rsum (size ub) (fun i => z (k * size ub + i)%nat * dev ub i u) * ev vb k v)). intros k L. apply poly2_scal_l. now apply ev_poly.
  - unfold vdv. apply (poly2_sum vb nv I (size vb) (fun k v => rsum (size ub) (fun i => z (k * size ub + i)%nat * ev ub i u) * dev vb k v)). intros k L. apply poly2_scal_l. now apply dev_poly.
Qed.
Definition total (x y : nat -> R) : R := rsum nv (fun iv => rsum nu (fun iu => block_sum ub vb nu nv iu iv x y)).
Lemma rough_total z : roughness (vz ub vb z) (total z z / 4).
Proof.
  assert (PU := n_pos nu NU). assert (PV := n_pos nv NV).
  set (rw := fun v => rsum nu (fun I => 1 / INR nu / 2 * rsum 4 (fun j => qw j * both ub vb z z (node ub I j) v))).
  exists (vdu ub vb z), (vdv ub vb z), rw. split; [apply vz_gradient|]. split.
  - intros v _. apply (integral ub nu NU EU (fun u => both ub vb z z u v)). intros I L. destruct (poly_u z v I) as [A B]. apply poly4_plus; now apply poly4_mult.
  - assert (H : is_RInt rw 0 1 (rsum nv (fun J => 1 / INR nv / 2 * rsum 4 (fun q => qw q * rw (node vb J q))))).
    { apply (integral vb nv NV EV rw). intros J L. unfold rw. apply (poly4_sum vb nv J nu (fun I v => 1 / INR nu / 2 * rsum 4 (fun j => qw j * both ub vb z z (node ub I j) v))). intros I _. apply poly4_scal.
      apply (poly4_sum vb nv J 4 (fun j v => qw j * both ub vb z z (node ub I j) v)). intros j _. apply poly4_scal. destruct (poly_v z (node ub I j) J) as [A B]. apply poly4_plus; now apply poly4_mult. }
    replace (total z z / 4) with (rsum nv (fun J => 1 / INR nv / 2 * rsum 4 (fun q => qw q * rw (node vb J q)))); [exact H|].
    replace (total z z / 4) with (/ 4 * total z z) by (unfold Rdiv; ring). unfold total. rewrite <- rsum_scal. apply rsum_ext. intros J _. unfold rw, block_sum.
    rewrite (rsum_ext 4 _ (fun q => rsum nu (fun I => qw q * (1 / INR nu / 2 * rsum 4 (fun j => qw j * both ub vb z z (node ub I j) (node vb J q)))))) by (intros q _; now rewrite <- rsum_scal).
    rewrite rsum_swap, <- !rsum_scal. apply rsum_ext. intros I _.
    transitivity (1 / INR nu / INR nv / 4 * rsum 4 (fun q => rsum 4 (fun p => qw p * qw q * both ub vb z z (node ub I p) (node vb J q)))).
    + transitivity (1 / INR nu / INR nv / 4 * rsum 4 (fun q => qw q * rsum 4 (fun j => qw j * both ub vb z z (node ub I j) (node vb J q)))).
      * rewrite <- !rsum_scal. apply rsum_ext. intros q _. field. lra.
      * f_equal. apply rsum_ext. intros q _. rewrite <- rsum_scal. apply rsum_ext. intros p _. ring.
    + rewrite rsum_swap. field. lra.
Qed.
Lemma total_sym x y : total x y = total y x.
Proof.
  unfold total, block_sum. apply rsum_ext. intros J _. apply rsum_ext. intros I _. f_equal. apply rsum_ext. intros p _. apply rsum_ext. intros q _. f_equal. unfold both. ring.
Qed.
Lemma both_nonneg x u v : 0 <= both ub vb x x u v.
Proof. unfold both. nra. Qed.
Lemma block_nonneg x I J : 0 <= block_sum ub vb nu nv I J x x.
Proof.
  unfold block_sum. assert (PU := n_pos nu NU). assert (PV := n_pos nv NV). apply Rmult_le_pos.
  - apply Rlt_le. apply Rdiv_lt_0_compat; [apply Rdiv_lt_0_compat; lra|exact PV].
  - apply rsum_nonneg. intros p P. apply rsum_nonneg. intros q Q. assert (A := qw_pos p P). assert (B := qw_pos q Q). assert (C := both_nonneg x (node ub I p) (node vb J q)). apply Rmult_le_pos; [nra|exact C].
Qed.
Lemma total_nonneg x : 0 <= total x x.
Proof. apply rsum_nonneg. intros J _. apply rsum_nonneg. intros I _. apply block_nonneg. Qed.
Lemma total_zero x : total x x = 0 -> forall u v, unit_range u -> unit_range v -> vz ub vb x u v = vz ub vb x 0 0.
Proof.
  intros Z. assert (PU := n_pos nu NU). assert (PV := n_pos nv NV).
  assert (B : forall I J, (I < nu)%nat -> (J < nv)%nat -> forall p q, (p < 4)%nat -> (q < 4)%nat -> vdu ub vb x (node ub I p) (node vb J q) = 0 /\ vdv ub vb x (node ub I p) (node vb J q) = 0).
  { intros I J LI LJ p q P Q. assert (Z1 := rsum_nonneg_zero nv _ (fun J _ => rsum_nonneg nu _ (fun I _ => block_nonneg x I J)) Z J LJ). cbv beta in Z1.
    assert (Z2 := rsum_nonneg_zero nu _ (fun I _ => block_nonneg x I J) Z1 I LI). cbv beta in Z2. unfold block_sum in Z2.
    assert (JP : 1 / INR nu / INR nv <> 0) by (apply Rgt_not_eq, Rdiv_lt_0_compat; [apply Rdiv_lt_0_compat; lra|exact PV]). apply Rmult_integral in Z2 as [Z2|Z2]; [contradiction|].
    assert (NN : forall p q, (p < 4)%nat -> (q < 4)%nat -> 0 <= qw p * qw q * both ub vb x x (node ub I p) (node vb J q)).
    { intros p' q' P' Q'. assert (A := qw_pos p' P'). assert (C := qw_pos q' Q'). apply Rmult_le_pos; [nra|apply both_nonneg]. }
    assert (Z3 := rsum_nonneg_zero 4 _ (fun p P => rsum_nonneg 4 _ (fun q Q => NN p q P Q)) Z2 p P). cbv beta in Z3.
    assert (Z4 := rsum_nonneg_zero 4 _ (fun q Q => NN p q P Q) Z3 q Q). cbv beta in Z4. assert (A := qw_pos p P). assert (C := qw_pos q Q).
    apply Rmult_integral in Z4 as [Z4|Z4]; [nra|]. unfold both in Z4. split; nra. }
  assert (NODES : forall b n I, (0 < n)%nat -> equal_basis b n -> (I < n)%nat -> node b I 0 <> node b I 1 /\ node b I 1 <> node b I 3 /\ node b I 3 <> node b I 0).
  { intros b n I N E L. destruct (gaps b n N E I L) as (_ & G & _). assert (S := root20). unfold node, qp, q_points. cbn [nth]. repeat split; nra. }
  assert (D : forall u v, unit_range u -> unit_range v -> vdu ub vb x u v = 0 /\ vdv ub vb x u v = 0).
  { intros u v U V. destruct (cell_of ub nu NU EU u U) as (I & CI & _). destruct (cell_of vb nv NV EV v V) as (J & CJ & _). assert (LI := proj1 CI). assert (LJ := proj1 CJ).
    destruct (NODES ub nu I NU EU LI) as (U1 & U2 & U3). destruct (NODES vb nv J NV EV LJ) as (V1 & V2 & V3).
    assert (CU : forall j, cell ub nu I (node ub I j)) by (intros; now apply node_cell). assert (CV : forall j, cell vb nv J (node vb J j)) by (intros; now apply node_cell).
    assert (ROW : forall q, (q < 4)%nat -> vdu ub vb x u (node vb J q) = 0 /\ vdv ub vb x u (node vb J q) = 0).
    { intros q Q. destruct (poly_u x (node vb J q) I) as [(a0 & a1 & a2 & A) (b0 & b1 & b2 & BB)]. split.
      - rewrite (A u CI). apply (parabola _ _ _ (node ub I 0) (node ub I 1) (node ub I 3)); auto; rewrite <- A by apply CU; apply B; auto; lia.
      - rewrite (BB u CI). apply (parabola _ _ _ (node ub I 0) (node ub I 1) (node ub I 3)); auto; rewrite <- BB by apply CU; apply B; auto; lia. }
    destruct (poly_v x u J) as [(a0 & a1 & a2 & A) (b0 & b1 & b2 & BB)]. split.
    - rewrite (A v CJ). apply (parabola _ _ _ (node vb J 0) (node vb J 1) (node vb J 3)); auto; rewrite <- A by apply CV; apply ROW; lia.
    - rewrite (BB v CJ). apply (parabola _ _ _ (node vb J 0) (node vb J 1) (node vb J 3)); auto; rewrite <- BB by apply CV; apply ROW; lia. }
  assert (O : unit_range 0) by (unfold unit_range; lra). intros u v U V. transitivity (vz ub vb x 0 v).
  - apply (deriv_const (fun t => vz ub vb x t v)); [|exact U]. intros t T. destruct (vz_gradient x t v T V) as [G _]. now rewrite (proj1 (D t v T V)) in G.
  - apply (deriv_const (fun t => vz ub vb x 0 t)); [|exact V]. intros t T. destruct (vz_gradient x 0 t O T) as [_ G]. now rewrite (proj2 (D 0 t O T)) in G.
Qed.
End Rough.
