(** Lemmas for C39. *)
From Coq Require Import List Arith Bool Reals Lra Lia.
From Verif Require Import Spline_Model Spline_Spec Spline_Piece Spline_Proofs Spline_Curve Spline_Props
  Approx_Model Approx_Spec.
Import ListNotations.
Open Scope R_scope.

(** * One Bezier piece of degree 2 *)
Definition bez (a c : R) : basis := Basis 2 [a; a; a; c; c; c].

Lemma bez_made a c : make_basis 2 [a; a; a; c; c; c] = Some (bez a c).
Proof. unfold make_basis, free_ends; cbn. rcmp. reflexivity. Qed.
Lemma bez_valid a c : a <= c -> valid_basis (bez a c).
Proof.
  intros H. constructor; [apply bez_made| |cbn; lia].
  intros i j Hij Hj; cbn in Hj.
  repeat (destruct j as [|j]; [repeat (destruct i as [|i]; [cbn; lra|try lia])|try lia]).
Qed.
Lemma bez_dom a c : dom0 (bez a c) = a /\ dom1 (bez a c) = c.
Proof. split; reflexivity. Qed.

Lemma bez_affine a c (p : nat -> R) t : a < c -> a <= t <= c -> p 1%nat = (p 0%nat + p 2%nat) / 2 ->
  rsum (size (bez a c)) (fun i => p i * ev (bez a c) i t)
  = p 0%nat + (t - a) / (c - a) * (p 2%nat - p 0%nat).
Proof.
  intros H Ht Hp. pose proof (bez_valid a c ltac:(lra)) as V.
  pose proof (partition_l _ V t Ht) as P.
  assert (make_linear_poles (bez a c) = Some [0; 0 + (c - a) / 2; 0 + (c - a) / 2 + (c - a) / 2]) as ML.
  { unfold make_linear_poles. cbn. replace (1 + 1) with 2 by ring. reflexivity. }
  destruct (linear_precision_l _ V t _ ltac:(cbn; lia) Ht ML) as [_ L].
  change (dom0 (bez a c)) with a in L.
  revert P L. generalize (ev (bez a c)). change (size (bez a c)) with 3%nat. intros e P L.
  cbn [rsum nth] in *. rewrite Hp.
  assert ((t - a) / (c - a) = e 1%nat t / 2 + e 2%nat t) as ->.
  { apply Rmult_eq_reg_r with (c - a); [|lra].
    replace ((t - a) / (c - a) * (c - a)) with (t - a) by (field; lra). lra. }
  assert (e 0%nat t = 1 - e 1%nat t - e 2%nat t) as -> by lra. lra.
Qed.

(** * Rows *)
Lemma nth_map2 (f : R * R -> R) : forall (a c : list R) j, length a = length c -> (j < length a)%nat ->
  nth j (map f (combine a c)) 0 = f (nth j a 0, nth j c 0).
Proof.
  induction a as [|x a IH]; intros [|y c] j L H; cbn in *; try lia.
  destruct j; [reflexivity|]. apply IH; lia.
Qed.
Lemma map2_length (f : R * R -> R) (a c : list R) : length a = length c ->
  length (map f (combine a c)) = length a.
Proof. intros L. rewrite map_length, combine_length. lia. Qed.

Lemma vadd_l a c d : length a = d -> length c = d ->
  is_point d (fun j => coord a j + coord c j) (vadd a c).
Proof.
  intros A C. split; [unfold vadd; rewrite map2_length; lia|]. intros j H. unfold vadd, coord.
  rewrite nth_map2 by lia. reflexivity.
Qed.
Lemma vsub_l a c d : length a = d -> length c = d ->
  is_point d (fun j => coord a j - coord c j) (vsub a c).
Proof.
  intros A C. split; [unfold vsub; rewrite map2_length; lia|]. intros j H. unfold vsub, coord.
  rewrite nth_map2 by lia. reflexivity.
Qed.
Lemma vscale_l x a d : length a = d -> is_point d (fun j => x * coord a j) (vscale x a).
Proof.
  intros A. split; [unfold vscale; rewrite map_length; lia|]. intros j H. unfold vscale, coord.
  replace 0 with (x * 0) at 1 by ring. rewrite map_nth. reflexivity.
Qed.
Lemma mean_l l d : l <> [] -> length (nth 0 l []) = d ->
  is_point d (fun j => fold_right Rplus 0 (column j l) / INR (length l)) (mean l).
Proof.
  intros _ A. unfold mean. rewrite A. split; [rewrite map_length, seq_length; auto|].
  intros j H. unfold coord.
  rewrite (nth_indep _ 0 ((fun j => fold_right Rplus 0 (column j l) / INR (length l)) 0%nat))
    by (rewrite map_length, seq_length; auto).
  rewrite (map_nth (fun j => fold_right Rplus 0 (column j l) / INR (length l))), seq_nth by auto. reflexivity.
Qed.

Lemma rect_l l d : rect l = true -> length (nth 0 l []) = d -> forall p, In p l -> length p = d.
Proof.
  unfold rect. intros H E p Hp. rewrite forallb_forall in H. specialize (H p Hp).
  apply Nat.eqb_eq in H. congruence.
Qed.
Lemma rect_same d l : (forall p, In p l -> length p = d) -> rect l = true.
Proof.
  intros H. unfold rect. apply forallb_forall. intros p Hp. apply Nat.eqb_eq. rewrite (H p Hp).
  destruct l as [|x l]; [destruct Hp|]. symmetry. apply H. cbn. auto.
Qed.

Lemma point_ext d f g q : is_point d f q -> (forall j, (j < d)%nat -> f j = g j) -> is_point d g q.
Proof. intros [L H] E. split; auto. intros j Hj. rewrite H by auto. auto. Qed.

Lemma map_seq_point d f : is_point d f (map f (seq 0 d)).
Proof.
  split; [rewrite map_length, seq_length; auto|]. intros j H. unfold coord.
  rewrite (nth_indep _ 0 (f 0%nat)) by (rewrite map_length, seq_length; auto).
  rewrite map_nth, seq_nth by auto. reflexivity.
Qed.

(** * Evaluation *)
Lemma bez_curve_l a c lo hi t d : length a = d -> length c = d -> lo < hi -> lo <= t <= hi ->
  exists q, curve_eval (Curve (bez lo hi) [a; mean [a; c]; c] false) t = Some q /\
    is_point d (on_line a c ((t - lo) / (hi - lo))) q.
Proof.
  intros A C H Ht. set (cv := Curve (bez lo hi) [a; mean [a; c]; c] false).
  rewrite (curve_eval_l cv) by (auto; try apply bez_valid; cbn; try lra; auto).
  eexists. split; [reflexivity|].
  assert (c_dim cv = d) as -> by (unfold c_dim; cbn; lia).
  eapply point_ext; [apply map_seq_point|]. intros j Hj. cbn beta. cbn [cv c_basis].
  rewrite bez_affine; auto.
  unfold pole. cbn [cv c_poles nth].
  destruct (mean_l [a; c] d ltac:(discriminate) A) as [_ M]. unfold coord in M. rewrite M by auto.
  cbn [column map fold_right length INR]. field.
Qed.

Lemma mean2_l a c d j : length a = d -> (j < d)%nat -> nth j (mean [a; c]) 0 = (nth j a 0 + nth j c 0) / 2.
Proof.
  intros A Hj. destruct (mean_l [a; c] d ltac:(discriminate) A) as [_ M]. unfold coord in M. rewrite M by auto.
  cbn [column map fold_right length INR]. field.
Qed.
Lemma mean4_l a c e f d j : length a = d -> (j < d)%nat ->
  nth j (mean [a; c; e; f]) 0 = (nth j a 0 + nth j c 0 + nth j e 0 + nth j f 0) / 4.
Proof.
  intros A Hj. destruct (mean_l [a; c; e; f] d ltac:(discriminate) A) as [_ M]. unfold coord in M.
  rewrite M by auto. cbn [column map fold_right length INR]. field.
Qed.

Lemma bez_surface_l v0 v1 v2 v3 lo hi u v d : length v0 = d -> length v1 = d -> length v2 = d ->
  length v3 = d -> lo < hi -> lo <= u <= hi -> lo <= v <= hi ->
  exists q, surface_eval (Surface (bez lo hi) (bez lo hi) (nine_poles v0 v1 v2 v3) false) u v = Some q /\
    is_point d (bilin v0 v1 v2 v3 ((u - lo) / (hi - lo)) ((v - lo) / (hi - lo))) q.
Proof.
  intros L0 L1 L2 L3 H Hu Hv.
  set (s := Surface (bez lo hi) (bez lo hi) (nine_poles v0 v1 v2 v3) false).
  pose proof (bez_valid lo hi ltac:(lra)) as V.
  rewrite (surface_eval_l s V V) by
    (auto; cbn; try reflexivity; try lra; intros r Hr; destruct Hr as [<-|[<-|[<-|[]]]]; reflexivity).
  eexists. split; [reflexivity|].
  assert (s_dim s = d) as -> by (unfold s_dim; cbn; lia).
  eapply point_ext; [apply map_seq_point|]. intros j Hj. cbn beta. cbn [s u_basis v_basis].
  set (g := fun k => rsum (size (bez lo hi)) (fun i => spole s i k j * ev (bez lo hi) i u)).
  assert (forall k, (k <= 2)%nat -> g k = spole s 0 k j + (u - lo) / (hi - lo) * (spole s 2 k j - spole s 0 k j)) as G.
  { intros k Hk. unfold g. rewrite (bez_affine lo hi (fun i => spole s i k j)); auto.
    destruct k as [|[|[|k]]]; try lia; unfold spole; cbn [s s_poles nine_poles nth];
      rewrite ?(mean2_l _ _ d), ?(mean4_l _ _ _ _ d) by auto; field. }
  change (rsum (size (bez lo hi)) (fun k => g k * ev (bez lo hi) k v) = bilin v0 v1 v2 v3 ((u - lo) / (hi - lo)) ((v - lo) / (hi - lo)) j).
  rewrite (bez_affine lo hi g); auto.
  - rewrite !G by lia. unfold spole; cbn [s s_poles nine_poles nth].
    unfold bilin, coord. ring.
  - rewrite !G by lia. unfold spole; cbn [s s_poles nine_poles nth].
    rewrite ?(mean2_l _ _ d) by auto. field. lra.
Qed.

Lemma overhang_basis_l o : overhang_basis o = Some (bez (0 - o) (1 + o)).
Proof. apply bez_made. Qed.

(** * bspline_approx.py *)
Lemma line_l ints a c o t d : length a = d -> length c = d -> 0 <= o -> (0 < o -> ints = false) ->
  - o <= t <= 1 + o ->
  exists cv q, line ints [a; c] o = Some cv /\ curve_eval cv t = Some q /\ is_point d (on_line a c t) q.
Proof.
  intros A C Ho Hi Ht. unfold line.
  assert (rect [a; c] = true) as -> by (apply (rect_same d); intros p [<-|[<-|[]]]; auto).
  cbn [negb]. rewrite overhang_basis_l. destruct (Rltb_spec 0 o) as [P|P].
  - rewrite (Hi P). cbn [andb]. unfold make_curve. cbn [length size bez knots degree Nat.sub Nat.eqb].
    destruct (vsub_l c a d C A) as [L1 H1]. destruct (vscale_l o _ d L1) as [L2 H2].
    destruct (vsub_l a _ d A L2) as [L3 H3]. destruct (vadd_l c _ d C L2) as [L4 H4].
    destruct (bez_curve_l _ _ (0 - o) (1 + o) t d L3 L4 ltac:(lra) ltac:(lra)) as (q & E & Q).
    eexists _, q. split; [reflexivity|]. split; [exact E|]. eapply point_ext; [exact Q|].
    intros j Hj. cbn beta. unfold on_line. rewrite H3, H4, H2, H1 by auto. field. lra.
  - assert (o = 0) as -> by lra. cbn [andb]. unfold make_curve. cbn [length size bez knots degree Nat.sub Nat.eqb].
    destruct (bez_curve_l _ _ (0 - 0) (1 + 0) t d A C ltac:(lra) ltac:(lra)) as (q & E & Q).
    eexists _, q. split; [reflexivity|]. split; [exact E|]. eapply point_ext; [exact Q|].
    intros j Hj. cbn beta. unfold on_line. field.
Qed.

Lemma bilinear_l ints v0 v1 v2 v3 o u v d : length v0 = d -> length v1 = d -> length v2 = d ->
  length v3 = d -> 0 <= o -> (0 < o -> ints = false) -> - o <= u <= 1 + o -> - o <= v <= 1 + o ->
  exists s q, bilinear_surface ints [v0; v1; v2; v3] o = Some s /\ surface_eval s u v = Some q /\
    is_point d (fun j => bilin v0 v1 v2 v3 u v j -
      twist v0 v1 v2 v3 j * (o * o) * ((1 - 2 * u) * (1 - 2 * v)) / ((1 + 2 * o) * (1 + 2 * o))) q.
Proof.
  intros L0 L1 L2 L3 Ho Hi Hu Hv. unfold bilinear_surface.
  assert (rect [v0; v1; v2; v3] = true) as ->
    by (apply (rect_same d); intros p Hp; cbn in Hp; destruct Hp as [<-|[<-|[<-|[<-|[]]]]]; auto).
  cbn [negb]. rewrite overhang_basis_l. cbv zeta. destruct (Rltb_spec 0 o) as [P|P].
  - rewrite (Hi P). cbn [andb]. unfold make_surface.
    cbn [nine_poles length size bez knots degree Nat.sub Nat.eqb forallb andb].
    destruct (vsub_l v1 v0 d L1 L0) as [A0 B0]. destruct (vscale_l o _ d A0) as [C0 D0].
    destruct (vsub_l v2 v1 d L2 L1) as [A1 B1]. destruct (vscale_l o _ d A1) as [C1 D1].
    destruct (vsub_l v3 v2 d L3 L2) as [A2 B2]. destruct (vscale_l o _ d A2) as [C2 D2].
    destruct (vsub_l v0 v3 d L0 L3) as [A3 B3]. destruct (vscale_l o _ d A3) as [C3 D3].
    destruct (vsub_l _ _ d C3 C0) as [E0 F0]. destruct (vsub_l _ _ d C0 C1) as [E1 F1].
    destruct (vsub_l _ _ d C1 C2) as [E2 F2]. destruct (vsub_l _ _ d C2 C3) as [E3 F3].
    destruct (vadd_l _ _ d L0 E0) as [G0 H0]. destruct (vadd_l _ _ d L1 E1) as [G1 H1].
    destruct (vadd_l _ _ d L2 E2) as [G2 H2]. destruct (vadd_l _ _ d L3 E3) as [G3 H3].
    destruct (bez_surface_l _ _ _ _ (0 - o) (1 + o) u v d G0 G1 G2 G3 ltac:(lra) ltac:(lra) ltac:(lra))
      as (q & E & Q).
    eexists _, q. split; [reflexivity|]. split; [exact E|]. eapply point_ext; [exact Q|].
    intros j Hj. cbn beta. unfold bilin, twist.
    rewrite H0, H1, H2, H3, F0, F1, F2, F3, D0, D1, D2, D3, B0, B1, B2, B3 by auto. field. lra.
  - assert (o = 0) as -> by lra. cbn [andb]. unfold make_surface.
    cbn [nine_poles length size bez knots degree Nat.sub Nat.eqb forallb andb].
    destruct (bez_surface_l _ _ _ _ (0 - 0) (1 + 0) u v d L0 L1 L2 L3 ltac:(lra) ltac:(lra) ltac:(lra))
      as (q & E & Q).
    eexists _, q. split; [reflexivity|]. split; [exact E|]. eapply point_ext; [exact Q|].
    intros j Hj. cbn beta. unfold bilin. field.
Qed.

Lemma plane_l ints v0 v1 v2 o u v d : length v0 = d -> length v1 = d -> length v2 = d ->
  0 <= o -> (0 < o -> ints = false) -> - o <= u <= 1 + o -> - o <= v <= 1 + o ->
  exists s q, plane_surface ints [v0; v1; v2] o = Some s /\ surface_eval s u v = Some q /\
    is_point d (fun j => coord v0 j + u * (coord v1 j - coord v0 j) + v * (coord v2 j - coord v0 j)) q.
Proof.
  intros L0 L1 L2 Ho Hi Hu Hv. unfold plane_surface.
  assert (rect [v0; v1; v2] = true) as ->
    by (apply (rect_same d); intros p Hp; cbn in Hp; destruct Hp as [<-|[<-|[<-|[]]]]; auto).
  cbn [negb].
  destruct (vadd_l v1 v2 d L1 L2) as [A B]. destruct (vsub_l _ v0 d A L0) as [C D].
  destruct (bilinear_l ints v0 v1 _ v2 o u v d L0 L1 C L2 Ho Hi Hu Hv) as (s & q & E & F & G).
  exists s, q. split; auto. split; auto. eapply point_ext; [exact G|]. intros j Hj. cbn beta.
  unfold bilin, twist. rewrite D, B by auto. field. lra.
Qed.

(** * brep_writer.py *)
Lemma packed_01 : make_from_packed_knots 2 [(0, 3%nat); (1, 3%nat)] = Some (bez 0 1).
Proof. apply bez_made. Qed.

Lemma check_poles_l d l : (forall p, In p l -> length p = d) -> check_poles d l = true.
Proof. intros H. apply forallb_forall. intros p Hp. apply Nat.eqb_eq. auto. Qed.

Lemma approx_line_l d a c t : length a = d -> length c = d -> 0 <= t <= 1 ->
  exists bc cv q, approx_line d [a; c] = Some bc /\ spline_of bc = Some cv /\ curve_eval cv t = Some q /\
    is_point d (on_line a c t) q.
Proof.
  intros A C Ht. unfold approx_line.
  assert (rect [a; c] = true) as -> by (apply (rect_same d); intros p [<-|[<-|[]]]; auto).
  cbn [negb]. unfold make_bcurve.
  destruct (mean_l [a; c] d ltac:(discriminate) A) as [L _].
  rewrite check_poles_l by (intros p [<-|[<-|[<-|[]]]]; auto).
  cbn [check_knots map snd list_sum length Nat.eqb andb fold_right Nat.add].
  eexists _. destruct (bez_curve_l a c 0 1 t d A C ltac:(lra) Ht) as (q & E & Q).
  eexists _, q. split; [reflexivity|]. split.
  - unfold spline_of. cbn [bc_degree bc_knots bc_poles bc_rational].
    replace (0 + 0) with 0 by ring. replace (1 - 0) with 1 by ring. rewrite packed_01. reflexivity.
  - split; [exact E|]. eapply point_ext; [exact Q|]. intros j Hj. cbn beta. f_equal. field.
Qed.

Lemma approx_bilinear_l v0 v1 v2 v3 u v : length v0 = 3%nat -> length v1 = 3%nat ->
  length v2 = 3%nat -> length v3 = 3%nat -> 0 <= u <= 1 -> 0 <= v <= 1 ->
  exists bs s q, approx_bilinear [v0; v1; v2; v3] = Some (bs, [(0, 0); (1, 0); (1, 1); (0, 1)]) /\
    surface_of bs = Some s /\ surface_eval s u v = Some q /\ is_point 3 (bilin v0 v1 v2 v3 u v) q.
Proof.
  intros L0 L1 L2 L3 Hu Hv. unfold approx_bilinear.
  assert (rect [v0; v1; v2; v3] = true) as ->
    by (apply (rect_same 3); intros p Hp; cbn in Hp; destruct Hp as [<-|[<-|[<-|[<-|[]]]]]; auto).
  cbn [negb].
  assert (forall x y, length x = 3%nat -> length (mean [x; y]) = 3%nat) as M2
    by (intros x y H; exact (proj1 (mean_l [x; y] 3 ltac:(discriminate) H))).
  assert (length (mean [v0; v1; v2; v3]) = 3%nat) as M4
    by (exact (proj1 (mean_l [v0; v1; v2; v3] 3 ltac:(discriminate) L0))).
  assert (make_bsurf (nine_poles v0 v1 v2 v3) [(0, 3%nat); (1, 3%nat)] [(0, 3%nat); (1, 3%nat)] false (2%nat, 2%nat)
    = Some (BSurf (nine_poles v0 v1 v2 v3) [(0, 3%nat); (1, 3%nat)] [(0, 3%nat); (1, 3%nat)] false (2%nat, 2%nat))) as ->.
  { unfold make_bsurf.
    assert (forallb (check_poles 3) (nine_poles v0 v1 v2 v3) = true) as ->.
    { apply forallb_forall. intros r Hr. apply check_poles_l. intros p Hp. cbn [In nine_poles] in Hr.
      destruct Hr as [<-|[<-|[<-|[]]]]; cbn [In] in Hp; destruct Hp as [<-|[<-|[<-|[]]]]; auto. }
    reflexivity. }
  destruct (bez_surface_l v0 v1 v2 v3 0 1 u v 3 L0 L1 L2 L3 ltac:(lra) Hu Hv) as (q & E & Q).
  eexists _, _, q. split; [reflexivity|]. split.
  - unfold surface_of. cbn [bs_degree bs_uknots bs_vknots bs_poles bs_rational fst snd]. rewrite packed_01. reflexivity.
  - split; [exact E|]. eapply point_ext; [exact Q|]. intros j Hj. cbn beta. unfold bilin. field.
Qed.

Lemma approx_plane_l v0 v1 v2 u v : length v0 = 3%nat -> length v1 = 3%nat ->
  length v2 = 3%nat -> 0 <= u <= 1 -> 0 <= v <= 1 ->
  exists bs s q, approx_plane [v0; v1; v2] = (Some (bs, [(0, 0); (1, 0); (0, 1)]), [v0; v1; v2; [0; 0; 0]]) /\
    surface_of bs = Some s /\ surface_eval s u v = Some q /\
    is_point 3 (fun j => coord v0 j + u * (coord v1 j - coord v0 j) + v * (coord v2 j - coord v0 j)) q.
Proof.
  intros L0 L1 L2 Hu Hv. unfold approx_plane. cbn [app].
  assert (rect [v0; v1; v2; [0; 0; 0]] = true) as ->
    by (apply (rect_same 3); intros p Hp; cbn in Hp; destruct Hp as [<-|[<-|[<-|[<-|[]]]]]; auto).
  cbn [negb].
  destruct (vadd_l v1 v2 3 L1 L2) as [A B]. destruct (vsub_l _ v0 3 A L0) as [C D].
  destruct (approx_bilinear_l v0 v1 _ v2 u v L0 L1 C L2 Hu Hv) as (bs & s & q & E & F & G & H).
  rewrite E. exists bs, s, q. split; auto. split; auto. split; auto. eapply point_ext; [exact H|].
  intros j Hj. cbn beta. unfold bilin. rewrite D, B by auto. ring.
Qed.

(** The record of a spline describes it. *)
Lemma curve_from_bs_l c : valid_basis (c_basis c) -> length (c_poles c) = size (c_basis c) ->
  (c_dim c = 2 \/ c_dim c = 3)%nat ->
  (forall p, In p (c_poles c) -> length p = c_dim c + rat_cols (c_rational c))%nat ->
  exists bc, curve_from_bs c = Some bc /\ spline_of bc = Some c.
Proof.
  intros V NP D P. destruct V as [VC VM VL]. unfold curve_from_bs.
  assert (exists ps, pack_knots (c_basis c) = Some ps) as (ps & E).
  { unfold pack_knots. destruct (knots (c_basis c)); [cbn in VL; lia|eauto]. }
  rewrite E. destruct (C27_pack_round_trip _ _ _ _ VC E) as (U & _ & MP & LS).
  assert ((c_dim c =? 2)%nat || (c_dim c =? 3)%nat = true) as ->
    by (destruct D as [-> | ->]; reflexivity).
  unfold make_bcurve. rewrite check_poles_l.
  - assert (check_knots (degree (c_basis c)) ps (length (c_poles c)) = true) as ->.
    { unfold check_knots. apply Nat.eqb_eq. rewrite LS, NP. unfold size. lia. }
    eexists. split; [reflexivity|]. unfold spline_of. cbn [bc_degree bc_knots bc_poles bc_rational]. rewrite MP.
    unfold make_curve. rewrite NP, Nat.eqb_refl. destruct c; reflexivity.
  - intros p Hp. rewrite (P p Hp). destruct (c_rational c); cbn; lia.
Qed.

Lemma surface_from_bs_l s : valid_basis (u_basis s) -> valid_basis (v_basis s) ->
  length (s_poles s) = size (u_basis s) -> (forall r, In r (s_poles s) -> length r = size (v_basis s)) ->
  (forall r p, In r (s_poles s) -> In p r -> length p = 3 + rat_cols (s_rational s))%nat ->
  exists bs, surface_from_bs s = Some bs /\ surface_of bs = Some s.
Proof.
  intros [UC UM UL] [WC WM WL] NU NV P. unfold surface_from_bs.
  assert (exists ps, pack_knots (u_basis s) = Some ps) as (ps & E).
  { unfold pack_knots. destruct (knots (u_basis s)); [cbn in UL; lia|eauto]. }
  assert (exists ps, pack_knots (v_basis s) = Some ps) as (qs & F).
  { unfold pack_knots. destruct (knots (v_basis s)); [cbn in WL; lia|eauto]. }
  rewrite E, F. destruct (C27_pack_round_trip _ _ _ _ UC E) as (_ & _ & MP & LS).
  destruct (C27_pack_round_trip _ _ _ _ WC F) as (_ & _ & MQ & LQ).
  assert (0 < length (s_poles s))%nat as Np by (rewrite NU; unfold size; lia).
  assert (length (nth 0 (s_poles s) []) = size (v_basis s)) as N0 by (apply NV, nth_In; auto).
  unfold make_bsurf.
  assert (forallb (check_poles (if s_rational s then 4 else 3)) (s_poles s) = true) as ->.
  { apply forallb_forall. intros r Hr. apply check_poles_l. intros p Hp. rewrite (P r p Hr Hp).
    destruct (s_rational s); reflexivity. }
  assert ((0 <? length (s_poles s))%nat = true) as -> by (apply Nat.ltb_lt; auto).
  rewrite N0.
  assert ((0 <? size (v_basis s))%nat = true) as -> by (apply Nat.ltb_lt; unfold size; lia).
  assert (forallb (fun r => (length r =? size (v_basis s))%nat) (s_poles s) = true) as Fb
    by (apply forallb_forall; intros r Hr; apply Nat.eqb_eq; auto).
  rewrite Fb. cbn [fst snd andb].
  assert (check_knots (degree (u_basis s)) ps (length (s_poles s)) = true) as ->.
  { unfold check_knots. apply Nat.eqb_eq. rewrite LS, NU. unfold size. lia. }
  assert (check_knots (degree (v_basis s)) qs (size (v_basis s)) = true) as ->.
  { unfold check_knots. apply Nat.eqb_eq. rewrite LQ. unfold size. lia. }
  eexists. split; [reflexivity|]. unfold surface_of. cbn [bs_degree bs_uknots bs_vknots bs_poles bs_rational fst snd].
  rewrite MP, MQ. unfold make_surface. rewrite NU, Nat.eqb_refl, Fb. destruct s; reflexivity.
Qed.
