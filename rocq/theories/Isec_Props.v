(** Properties C109-C112 (points of intersections of spline surfaces). *)
From Coq Require Import List ZArith Arith Lia Bool Reals Lra Psatz.
From Verif Require Import Spline_Model Spline_Spec Spline_Piece Spline_Proofs Spline_Curve Spline_Props Fit_Basis Isec_Model Isec_Spec Isec_Basis Isec_Run Isec_Newton Isec_Surf.
Import ListNotations.
Local Open Scope R_scope.

(** Sample bases: one interval; two intervals; two intervals over [0, 2]. *)
Definition b1 : basis := Basis 2 [0; 0; 0; 1; 1; 1].
Definition b2 : basis := Basis 2 [0; 0; 0; 1/2; 1; 1; 1].
Definition bw : basis := Basis 2 [0; 0; 0; 1; 2; 2; 2].
Lemma b1_cells : cells_basis b1.
Proof. constructor; [concrete_valid|reflexivity|]. intros [|i] L; cbn in *; [lra|lia]. Qed.
Lemma b2_cells : cells_basis b2.
Proof. constructor; [concrete_valid|reflexivity|]. intros [|[|i]] L; cbn in *; [lra|lra|lia]. Qed.
Lemma bw_cells : cells_basis bw.
Proof. constructor; [concrete_valid|reflexivity|]. intros [|[|i]] L; cbn in *; [lra|lra|lia]. Qed.
Lemma b1_in t : 0 <= t <= 1 -> in_cell b1 0 t.
Proof. intros H. split; cbn; [lia|lra]. Qed.
Lemma b1_dom t : in_dom b1 t <-> 0 <= t <= 1.
Proof. unfold in_dom, dom0, dom1. cbn. reflexivity. Qed.
Lemma bern t : 0 <= t <= 1 -> ev b1 0 t = (1 - t) * (1 - t) /\ ev b1 1 t = 2 * t * (1 - t) /\ ev b1 2 t = t * t.
Proof.
  intros H. rewrite !(cev b1 b1_cells 0 t) by (apply b1_in, H || (cbn; lia)). cbn. unfold Rdiv. replace (1 - 0) with 1 by ring. rewrite ?Rinv_1. repeat split; ring.
Qed.
Lemma bern_diff t : 0 <= t <= 1 -> dev b1 0 t = - 2 * (1 - t) /\ dev b1 1 t = 2 - 4 * t /\ dev b1 2 t = 2 * t.
Proof.
  intros H. unfold dev. rewrite !(cdev b1 b1_cells 0 t) by (apply b1_in, H || (cbn; lia)). cbn [value_of]. unfold dpc. cbn. unfold Rdiv. replace (1 - 0) with 1 by ring. rewrite ?Rinv_1. repeat split; ring.
Qed.
(** The square (u, v, 0). *)
Definition square : surface := Surface b1 b1 [[[0; 0; 0]; [0; 1/2; 0]; [0; 1; 0]]; [[1/2; 0; 0]; [1/2; 1/2; 0]; [1/2; 1; 0]]; [[1; 0; 0]; [1; 1/2; 0]; [1; 1; 0]]] false.
Lemma square_plain : plain square 3.
Proof.
  split; [exact b1_cells|]. split; [exact b1_cells|]. split; [reflexivity|]. split; [reflexivity|]. intros r R. repeat (destruct R as [<- |R]; [split; [reflexivity|]; intros p Q; repeat (destruct Q as [<- |Q]; [reflexivity|]); destruct Q|]). destruct R.
Qed.
Lemma square_eval u v : 0 <= u <= 1 -> 0 <= v <= 1 -> surface_eval square u v = Some [u; v; 0].
Proof.
  intros U W. rewrite (eval_SS square 3 square_plain u v) by (now apply b1_dom). unfold SS, spole. cbn [size u_basis v_basis square degree b1 knots length Nat.sub rsum map seq s_poles nth].
  destruct (bern u U) as (-> & -> & ->). destruct (bern v W) as (-> & -> & ->). f_equal. f_equal; [lra|]. f_equal; [lra|]. f_equal. ring.
Qed.
(** Lines and parabolas (1/4, 3/4, .). *)
Definition upright (x y a b c : R) : curve := Curve b1 [[x; y; a]; [x; y; b]; [x; y; c]] false.
Lemma upright_plain x y a b c : plain_curve (upright x y a b c) 3.
Proof. split; [exact b1_cells|]. split; [reflexivity|]. split; [reflexivity|]. intros p Q. repeat (destruct Q as [<- |Q]; [reflexivity|]). destruct Q. Qed.
Lemma upright_eval x y a b c t : 0 <= t <= 1 -> curve_eval (upright x y a b c) t = Some [x; y; a * ((1 - t) * (1 - t)) + b * (2 * t * (1 - t)) + c * (t * t)].
Proof.
  intros T. rewrite (eval_CC _ 3 (upright_plain x y a b c) t) by (now apply b1_dom). unfold CC, pole. cbn [size c_basis upright degree b1 knots length Nat.sub rsum map seq c_poles nth].
  destruct (bern t T) as (-> & -> & ->). f_equal. f_equal; [ring|]. f_equal; [ring|]. f_equal. ring.
Qed.

(** * C109: the patches of a point of a surface *)
Theorem C109_patches : forall s iu iv u v, cells_basis (u_basis s) -> cells_basis (v_basis s) ->
  dom0 (u_basis s) = 0 -> dom1 (u_basis s) = 1 -> dom0 (v_basis s) = 0 -> dom1 (v_basis s) = 1 -> in_cell (u_basis s) iu u -> in_cell (v_basis s) iv v ->
  let p := surface_point s iu iv u v in
  NoDup (sp_iuv p) /\
  (forall a c, In (a, c) (sp_iuv p) <-> exists i j, a = Z.of_nat i /\ c = Z.of_nat j /\ in_cell (u_basis s) i u /\ in_cell (v_basis s) j v) /\
  (forall id, In id (patch_ids s p) <-> exists i j, id = Z.of_nat (patch_pos2id s i j) /\ in_cell (u_basis s) i u /\ in_cell (v_basis s) j v).
Proof.
  intros s iu iv u v EU EV U0 U1 V0 V1 CU CV. cbv zeta.
  assert (IN : forall a c, In (a, c) (sp_iuv (surface_point s iu iv u v)) <-> exists i j, a = Z.of_nat i /\ c = Z.of_nat j /\ in_cell (u_basis s) i u /\ in_cell (v_basis s) j v).
  { intros a c. cbn [surface_point sp_iuv]. rewrite extend_in. split.
    - intros [A C].
      assert (AX : exists i, a = Z.of_nat i /\ in_cell (u_basis s) i u).
      { destruct A as [-> |[G ->]]; [now exists iu|]. destruct (beside_some _ EU U0 iu u CU G) as (j & J & _). exists j. split; [now symmetry|]. apply (beside_cell _ EU U0 U1 iu u j CU). right. now split. }
      assert (CX : exists i, c = Z.of_nat i /\ in_cell (v_basis s) i v).
      { destruct C as [-> |[G ->]]; [now exists iv|]. destruct (beside_some _ EV V0 iv v CV G) as (j & J & _). exists j. split; [now symmetry|]. apply (beside_cell _ EV V0 V1 iv v j CV). right. now split. }
      destruct AX as (i & X1 & X2). destruct CX as (j & Y1 & Y2). now exists i, j.
    - intros (i & j & -> & -> & A & C). apply (beside_cell _ EU U0 U1 iu u i CU) in A. apply (beside_cell _ EV V0 V1 iv v j CV) in C. split; [destruct A as [-> |A]; [now left|now right]|destruct C as [-> |C]; [now left|now right]]. }
  split; [apply extend_nodup|]. split; [exact IN|]. intros id. unfold patch_ids. rewrite in_map_iff. split.
  - intros ([a c] & <- & H). apply IN in H as (i & j & -> & -> & A & C). exists i, j. split; [|now split]. cbn [fst snd]. unfold patch_pos2id. lia.
  - intros (i & j & -> & A & C). exists (Z.of_nat i, Z.of_nat j). split; [cbn [fst snd]; unfold patch_pos2id; lia|]. apply IN. now exists i, j.
Qed.
Print Assumptions C109_patches.
Theorem C109_boundary : forall s iu iv u v, dom0 (u_basis s) = 0 -> dom1 (u_basis s) = 1 -> dom0 (v_basis s) = 0 -> dom1 (v_basis s) = 1 ->
  sp_bound (surface_point s iu iv u v) = true <-> u = dom0 (u_basis s) \/ u = dom1 (u_basis s) \/ v = dom0 (v_basis s) \/ v = dom1 (v_basis s).
Proof.
  intros s iu iv u v -> -> -> ->. cbn [surface_point sp_bound]. unfold bound_flag. destruct (Reqb_spec u 0), (Reqb_spec u 1), (Reqb_spec v 0), (Reqb_spec v 1); cbn; tauto || (split; [intros; discriminate|tauto]).
Qed.
Print Assumptions C109_boundary.
(** With another domain a patch that holds the point is left out, and a patch that does not exist is listed. *)
Definition wide : surface := Surface bw bw [] false.
Theorem C109_domain_refuted :
  ~ (forall s iu iv u v i j, cells_basis (u_basis s) -> cells_basis (v_basis s) -> in_cell (u_basis s) iu u -> in_cell (v_basis s) iv v ->
       in_cell (u_basis s) i u -> in_cell (v_basis s) j v -> In (Z.of_nat i, Z.of_nat j) (sp_iuv (surface_point s iu iv u v))) /\
  ~ (forall s iu iv u v a c, cells_basis (u_basis s) -> cells_basis (v_basis s) -> in_cell (u_basis s) iu u -> in_cell (v_basis s) iv v ->
       In (a, c) (sp_iuv (surface_point s iu iv u v)) -> (a < Z.of_nat (n_intervals (u_basis s)))%Z).
Proof.
  split; intros H.
  - assert (C0 : in_cell bw 0 1) by (split; cbn; [lia|lra]). assert (C1 : in_cell bw 1 1) by (split; cbn; [lia|lra]).
    assert (X := H wide 0%nat 0%nat 1 1 1%nat 0%nat bw_cells bw_cells C0 C0 C1 C0). revert X. cbn [surface_point sp_iuv]. unfold extend, beside, face_flag, bound_flag. cbn. rcmp. cbn. intros [X|[]]; discriminate.
  - assert (C0 : in_cell bw 1 2) by (split; cbn; [lia|lra]). assert (C1 : in_cell bw 1 (3/2)) by (split; cbn; [lia|lra]).
    assert (X := H wide 1%nat 1%nat 2 (3/2) 2%Z 1%Z bw_cells bw_cells C0 C1). revert X. cbn [surface_point sp_iuv]. unfold extend, beside, face_flag, bound_flag. cbn. rcmp. cbn. intros X. specialize (X (or_intror (or_introl eq_refl))). lia.
Qed.
Print Assumptions C109_domain_refuted.
Example C109_case : let s := Surface b2 b2 [] false in
  cells_basis b2 /\ dom0 b2 = 0 /\ dom1 b2 = 1 /\ in_cell b2 1 (1/2) /\ in_cell b2 0 (1/2) /\ in_cell b2 1 1 /\
  sp_iuv (surface_point s 1 0 (1/2) (1/2)) = [(1, 0); (0, 0); (1, 1); (0, 1)]%Z /\ sp_iuv (surface_point s 1 1 (1/2) 1) = [(1, 1); (0, 1)]%Z /\
  patch_ids s (surface_point s 1 0 (1/2) (1/2)) = [2; 0; 3; 1]%Z.
Proof.
  cbv zeta. split; [exact b2_cells|]. unfold in_cell, dom0, dom1. cbn [b2 knots degree length Nat.sub Nat.add kn nth n_intervals size u_basis v_basis].
  assert (A : sp_iuv (surface_point (Surface b2 b2 [] false) 1 0 (1/2) (1/2)) = [(1, 0); (0, 0); (1, 1); (0, 1)]%Z). { cbn [surface_point sp_iuv]. unfold extend, beside, face_flag, bound_flag. cbn. rcmp. reflexivity. }
  assert (B : sp_iuv (surface_point (Surface b2 b2 [] false) 1 1 (1/2) 1) = [(1, 1); (0, 1)]%Z). { cbn [surface_point sp_iuv]. unfold extend, beside, face_flag, bound_flag. cbn. rcmp. reflexivity. }
  unfold patch_ids. rewrite A, B. repeat split; try lra; cbn; lia.
Qed.

(** * C110: threads *)
Theorem C110_threads : forall s d ax, plain s d -> exists l, main_curves s ax = Some l /\ length l = S (n_intervals (fix_basis s ax)) /\
  forall iw c w, nth_error l iw = Some (c, w) -> w = kn (knots (fix_basis s ax)) (iw + 2) /\ in_dom (fix_basis s ax) w /\ c_basis c = run_basis s ax /\
    forall y, in_dom (run_basis s ax) y -> curve_eval c y = (match ax with AxU => surface_eval s w y | AxV => surface_eval s y w end) /\ succeeds (curve_eval c y).
Proof.
  intros s d ax P. destruct (all_threads s d P ax) as (l & M & L & X). exists l. split; [exact M|]. split; [exact L|]. intros iw c w N. destruct (X iw c w N) as (LW & -> & PC & CB & ON).
  split; [reflexivity|]. split; [apply (cell_dom _ (fix_cells s d P ax) (main_patch iw)); apply main_cell; [apply (fix_cells s d P)|exact LW]|]. split; [exact CB|]. intros y Y. split; [apply (ON y Y)|].
  rewrite (eval_CC c d PC) by (rewrite CB; exact Y). eexists. reflexivity.
Qed.
Print Assumptions C110_threads.
Example C110_case : plain square 3 /\ in_dom (run_basis square AxV) (1/3) /\ exists l c, main_curves square AxV = Some l /\ nth_error l 1 = Some (c, 1) /\ curve_eval c (1/3) = Some [1/3; 1; 0].
Proof.
  split; [exact square_plain|]. assert (D : in_dom (run_basis square AxV) (1/3)) by (apply b1_dom; lra). split; [exact D|]. destruct (C110_threads square 3 AxV square_plain) as (l & M & L & X). exists l.
  destruct (nth_error l 1) as [[c w]|] eqn:N.
  - exists c. destruct (X 1%nat c w N) as (W & _ & _ & Y). cbn in W. subst w. split; [exact M|]. split; [reflexivity|]. rewrite (proj1 (Y (1/3) D)). apply square_eval; lra.
  - apply nth_error_None in N. rewrite L in N. cbn in N. lia.
Qed.
(** Weights are taken for a coordinate. *)
Definition row4 : list (list R) := [[0; 0; 0; 1]; [0; 1/2; 0; 1]; [0; 1; 0; 3]].
Definition heavy (rational : bool) : surface := Surface b1 b1 [row4; row4; row4] rational.
Lemma heavy_shaped r : shaped (heavy r) 4.
Proof.
  split; [reflexivity|]. intros w R. repeat (destruct R as [<- |R]; [split; [reflexivity|]; intros p Q; repeat (destruct Q as [<- |Q]; [reflexivity|]); destruct Q|]). destruct R.
Qed.
Theorem C110_rational_refuted : ~ forall s ax l iw c w y j, cells_basis (u_basis s) -> cells_basis (v_basis s) -> shaped s 4 -> s_rational s = true ->
  (forall r p, In r (s_poles s) -> In p r -> 0 < nth 3 p 0) -> main_curves s ax = Some l -> nth_error l iw = Some (c, w) -> in_dom (run_basis s ax) y -> (j < s_dim s)%nat ->
  coord (curve_eval c y) j = coord (match ax with AxU => surface_eval s w y | AxV => surface_eval s y w end) j.
Proof.
  intros H. assert (P : plain (heavy false) 4) by (split; [exact b1_cells|split; [exact b1_cells|split; [reflexivity|apply heavy_shaped]]]).
  destruct (C110_threads (heavy false) 4 AxU P) as (l & M & L & X). assert (D : in_dom b1 (1/2)) by (apply b1_dom; lra). assert (D0 : in_dom b1 0) by (apply b1_dom; lra).
  destruct (nth_error l 0) as [[c w]|] eqn:N; [|apply nth_error_None in N; rewrite L in N; cbn in N; lia]. destruct (X 0%nat c w N) as (W & _ & _ & Y). cbn in W. subst w.
  assert (POS : forall r p, In r (s_poles (heavy true)) -> In p r -> 0 < nth 3 p 0).
  { intros r p R Q. repeat (destruct R as [<- |R]; [repeat (destruct Q as [<- |Q]; [cbn; lra|]); destruct Q|]). destruct R. }
  assert (E := H (heavy true) AxU l 0%nat c 0 (1/2) 1%nat b1_cells b1_cells (heavy_shaped true) eq_refl POS M N D ltac:(cbn; lia)). cbn [run_basis heavy v_basis] in Y. rewrite (proj1 (Y (1/2) D)) in E.
  rewrite (eval_SS (heavy false) 4 P 0 (1/2) D0 D) in E. unfold SS, spole in E. cbn [coord size u_basis v_basis heavy degree b1 knots length Nat.sub rsum map seq s_poles nth row4] in E.
  assert (F : coord (surface_eval (heavy true) 0 (1/2)) 1 = 2/3).
  { unfold surface_eval. cbn [heavy u_basis v_basis]. destruct (check_l b1 0 ltac:(unfold in_dom in D; lra)) as (_ & Q & _). rewrite (Q D0). destruct (check_l b1 (1/2) ltac:(unfold in_dom in D; lra)) as (_ & Q' & _). rewrite (Q' D).
    destruct (find_spec b1 (cb_valid b1 b1_cells) 0 D0) as (i & -> & I & _). destruct (find_spec b1 (cb_valid b1 b1_cells) (1/2) D) as (k & -> & K & _). cbn in I, K. assert (i = 0%nat) as -> by lia. assert (k = 0%nat) as -> by lia.
    unfold surface_eval_local. cbn [heavy u_basis v_basis s_rational]. rewrite !(cvec b1 b1_cells 0) by (cbn; lia). cbn [map seq Nat.add]. destruct (bern 0 ltac:(lra)) as (-> & -> & ->). destruct (bern (1/2) ltac:(lra)) as (-> & -> & ->).
    unfold s_dim, inner2, sub_array, slice, column, inner. cbn [heavy s_poles row4 nth length rat_cols s_rational Nat.sub seq map firstn skipn degree b1 Nat.add].
    rewrite !ndiv_some by lra. cbn [all_some coord nth]. field. }
  rewrite F in E. destruct (bern 0 ltac:(lra)) as (E1 & E2 & E3). destruct (bern (1/2) ltac:(lra)) as (E4 & E5 & E6). rewrite E1, E2, E3, E4, E5, E6 in E. lra.
Qed.
Print Assumptions C110_rational_refuted.

(** * C111: Newton's method *)
Lemma middle_distance x y m : length x = 3%nat -> length y = 3%nat -> middle_of x y m -> distance m x = distance x y / 2 /\ distance m y = distance x y / 2.
Proof.
  intros X Y [L H]. unfold distance. rewrite L, X. set (q := rsum 3 (fun j => (nth j x 0 - nth j y 0) ^ 2)).
  assert (Q0 : 0 <= q). { unfold q. cbn [rsum]. assert (A := pow2_ge_0 (nth 0 x 0 - nth 0 y 0)). assert (B := pow2_ge_0 (nth 1 x 0 - nth 1 y 0)). assert (C := pow2_ge_0 (nth 2 x 0 - nth 2 y 0)). lra. }
  assert (S : sqrt q / 2 = sqrt (q / 4)). { replace (q / 4) with (q * ((1/2) * (1/2))) by field. rewrite sqrt_mult by lra. rewrite sqrt_square by lra. field. }
  rewrite S. split; f_equal; unfold q; cbn [rsum]; rewrite !H; field.
Qed.
Theorem C111_result : forall solve s c iu iv it max_it tol u v t conv xyz, plain s 3 -> plain_curve c 3 ->
  (iu < n_intervals (u_basis s))%nat -> (iv < n_intervals (v_basis s))%nat -> (it < n_intervals (c_basis c))%nat ->
  get_intersection solve s c iu iv it max_it tol = Some ((u, v, t), conv, xyz) ->
  in_cell (u_basis s) iu u /\ in_cell (v_basis s) iv v /\ in_cell (c_basis c) it t /\
  exists u' v' t' x1 x2, in_cell (u_basis s) iu u' /\ in_cell (v_basis s) iv v' /\ in_cell (c_basis c) it t' /\
    surface_eval s u' v' = Some x1 /\ curve_eval c t' = Some x2 /\ middle_of x1 x2 xyz /\ (conv = true <-> distance x1 x2 <= tol) /\
    (conv = true -> distance xyz x1 <= tol / 2 /\ distance xyz x2 <= tol / 2) /\ (distance x1 x2 < tol -> (u', v', t') = (u, v, t)).
Proof.
  intros solve s c iu iv it max_it tol u v t conv xyz P Q A B C G.
  destruct (get_l s c P Q solve tol iu iv it max_it (u, v, t) conv xyz A B C G) as ((B1 & B2 & B3) & [[u' v'] t'] & x1 & x2 & ((C1 & C2 & C3) & S & CU & L1 & L2) & MI & CV & EX). cbn [fst snd] in *.
  split; [exact B1|]. split; [exact B2|]. split; [exact B3|]. exists u', v', t', x1, x2. split; [exact C1|]. split; [exact C2|]. split; [exact C3|]. split; [exact S|]. split; [exact CU|]. split; [exact MI|]. split; [exact CV|].
  split; [|exact EX]. intros T. apply CV in T. destruct (middle_distance x1 x2 xyz L1 L2 MI) as [-> ->]. lra.
Qed.
Print Assumptions C111_result.
Theorem C111_jacobian : forall s c iu iv it u v t, plain s 3 -> plain_curve c 3 ->
  in_cell (u_basis s) iu u -> in_cell (v_basis s) iv v -> in_cell (c_basis c) it t ->
  exists cu cv ct x1 x2, jacobian s c iu iv it (u, v, t) = Some ([cu; cv; ct], x1, x2) /\ surface_eval s u v = Some x1 /\ curve_eval c t = Some x2 /\
    forall j, (j < 3)%nat ->
      deriv_within (in_dom (u_basis s)) (fun y => coord (surface_eval s y v) j) u (nth j cu 0) /\
      deriv_within (in_dom (v_basis s)) (fun y => coord (surface_eval s u y) j) v (nth j cv 0) /\
      deriv_within (in_dom (c_basis c)) (fun y => coord (curve_eval c y) j) t (- nth j ct 0).
Proof.
  intros s c iu iv it u v t P Q A B C. assert (BX : in_box s c iu iv it (u, v, t)) by (split; [exact A|split; [exact B|exact C]]).
  assert (DU := cell_dom _ (proj1 P) iu u A). assert (DV := cell_dom _ (proj1 (proj2 P)) iv v B). assert (DC := cell_dom _ (proj1 Q) it t C).
  do 5 eexists. split; [apply (jacobian_l s c P Q iu iv it u v t BX)|]. split; [apply (eval_SS s 3 P u v DU DV)|]. split; [apply (eval_CC c 3 Q t DC)|]. intros j J. rewrite map_map, !nth_map_seq by exact J.
  split; [now apply (deriv_ss_u s 3 P)|]. split; [now apply (deriv_ss_v s 3 P)|]. rewrite Ropp_involutive. now apply (deriv_cc c 3 Q).
Qed.
Print Assumptions C111_jacobian.
Theorem C111_returns : forall solve s c iu iv it max_it tol, exact_solver solve -> plain s 3 -> plain_curve c 3 ->
  (iu < n_intervals (u_basis s))%nat -> (iv < n_intervals (v_basis s))%nat -> (it < n_intervals (c_basis c))%nat ->
  (forall u v t J x1 x2, in_cell (u_basis s) iu u -> in_cell (v_basis s) iv v -> in_cell (c_basis c) it t -> jacobian s c iu iv it (u, v, t) = Some (J, x1, x2) -> det J <> 0) ->
  succeeds (get_intersection solve s c iu iv it max_it tol) <-> max_it <> 0%nat.
Proof.
  intros solve s c iu iv it max_it tol ES P Q A B C REG. split.
  - intros [r E] ->. discriminate.
  - intros N. assert (G := get_total s c P Q solve tol iu iv it max_it A B C). destruct (get_intersection solve s c iu iv it max_it tol) as [r|]; [now exists r|exfalso; apply G; [|exact N|reflexivity]].
    intros [[u v] t] J x1 x2 (B1 & B2 & B3) E. destruct (ES J (vsub x1 x2) (REG u v t J x1 x2 B1 B2 B3 E)) as (x & y & z & -> & _). discriminate.
Qed.
Print Assumptions C111_returns.
Theorem C111_flat : forall solve s c iu iv it max_it tol a p q e r u0 v0 t0, plain s 3 -> plain_curve c 3 -> exact_solver solve -> 0 < tol -> (2 <= max_it)%nat ->
  flat s iu iv a p q -> straight c it e r -> det [map p (seq 0 3); map q (seq 0 3); map (fun j => - r j) (seq 0 3)] <> 0 ->
  in_cell (u_basis s) iu u0 -> in_cell (v_basis s) iv v0 -> in_cell (c_basis c) it t0 ->
  (forall j, (j < 3)%nat -> coord (surface_eval s u0 v0) j = coord (curve_eval c t0) j) ->
  let mid b i := (kn (knots b) (i + 2) + kn (knots b) (i + 3)) / 2 in
  exists x1 x2 xyz, surface_eval s (mid (u_basis s) iu) (mid (v_basis s) iv) = Some x1 /\ curve_eval c (mid (c_basis c) it) = Some x2 /\
    get_intersection solve s c iu iv it max_it tol =
      Some (if Rlt_dec (distance x1 x2) tol then (mid (u_basis s) iu, mid (v_basis s) iv, mid (c_basis c) it) else (u0, v0, t0), true, xyz).
Proof.
  intros solve s c iu iv it max_it tol a p q e r u0 v0 t0 P Q ES TP MI FL ST D B1 B2 B3 RT. cbv zeta.
  exact (flat_l s c P Q solve tol iu iv it max_it a p q e r u0 v0 t0 ES TP MI FL ST D (conj B1 (conj B2 B3)) RT).
Qed.
Print Assumptions C111_flat.
(** Cramer's rule. *)
Definition cramer (J : list (list R)) (d : list R) : option (R * R * R) :=
  let D := det J in if Req_EM_T D 0 then None else
  Some (det [d; nth 1 J []; nth 2 J []] / D, det [nth 0 J []; d; nth 2 J []] / D, det [nth 0 J []; nth 1 J []; d] / D).
Lemma cramer_exact : exact_solver cramer.
Proof.
  intros J d N. unfold cramer. cbv zeta. destruct (Req_EM_T (det J) 0); [contradiction|]. do 3 eexists. split; [reflexivity|]. intros j L. unfold product.
  apply (Rmult_eq_reg_r (det J)); [|exact N]. unfold Rdiv.
  replace ((nth j (nth 0 J []) 0 * (det [d; nth 1 J []; nth 2 J []] * / det J) + nth j (nth 1 J []) 0 * (det [nth 0 J []; d; nth 2 J []] * / det J) + nth j (nth 2 J []) 0 * (det [nth 0 J []; nth 1 J []; d] * / det J)) * det J)
    with (nth j (nth 0 J []) 0 * det [d; nth 1 J []; nth 2 J []] + nth j (nth 1 J []) 0 * det [nth 0 J []; d; nth 2 J []] + nth j (nth 2 J []) 0 * det [nth 0 J []; nth 1 J []; d]) by (field; exact N).
  unfold det. cbn [nth]. destruct j as [|[|[|j]]]; [ring|ring|ring|lia].
Qed.
(** A curve that comes near the square but leaves the returned parameter. *)
Definition bend : curve := upright (1/2) (1/2) (1/4) (-3/16) (3/8).
Lemma bend_run solve : exact_solver solve -> exists xyz, get_intersection solve square bend 0 0 0 1 (1/16) = Some ((1/2, 1/2, 0), true, xyz).
Proof.
  intros ES. assert (Q := upright_plain (1/2) (1/2) (1/4) (-3/16) (3/8)). unfold get_intersection. cbn [newton].
  assert (M : middle b1 0 = 1/2) by (unfold middle; cbn; lra). cbn [square bend upright u_basis v_basis c_basis]. rewrite M. fold square. change (Curve b1 _ false) with bend.
  assert (H2 : 0 <= 1/2 <= 1) by lra. assert (BX : in_box square bend 0 0 0 (1/2, 1/2, 1/2)) by (split; [|split]; apply b1_in; exact H2).
  rewrite (jacobian_l square bend square_plain Q 0 0 0 (1/2) (1/2) (1/2) BX). unfold SS, CC, spole, pole. cbn [size u_basis v_basis c_basis square bend upright degree b1 knots length Nat.sub rsum map seq s_poles c_poles nth].
  fold b1. destruct (bern (1/2) H2) as (-> & -> & ->). destruct (bern_diff (1/2) H2) as (-> & -> & ->). cbv zeta.
  match goal with |- context [norm ?x] => assert (NE : norm x = 1/16) end.
  { unfold norm, vsub. cbn [combine map fold_right fst snd]. match goal with |- sqrt ?y = _ => replace y with ((1/16) * (1/16)) by lra end. apply sqrt_square. lra. }
  rewrite NE. destruct (Rltb_spec (1/16) (1/16)); [lra|].
  match goal with |- context [solve ?J ?d] => destruct (ES J d) as (x & y & z & SO & PR); [unfold det; cbn [nth]; lra|rewrite SO] end.
  assert (P0 := PR 0%nat ltac:(lia)). assert (P1 := PR 1%nat ltac:(lia)). assert (P2 := PR 2%nat ltac:(lia)). unfold product, vsub in P0, P1, P2. cbn [nth combine map fst snd] in P0, P1, P2.
  assert (x = 0) as -> by lra. assert (y = 0) as -> by lra. assert (z = 1/2) as -> by lra. cbn [Nat.add kn nth]. destruct (Rleb_spec (1/16) (1/16)); [|lra].
  eexists. f_equal. f_equal. f_equal. unfold clip, Rmin, Rmax. f_equal; [f_equal|]; repeat destruct (Rle_dec _ _); lra.
Qed.
Theorem C111_stale_refuted : ~ forall solve s c iu iv it max_it tol u v t xyz x1 x2, exact_solver solve -> plain s 3 -> plain_curve c 3 ->
  (iu < n_intervals (u_basis s))%nat -> (iv < n_intervals (v_basis s))%nat -> (it < n_intervals (c_basis c))%nat ->
  get_intersection solve s c iu iv it max_it tol = Some ((u, v, t), true, xyz) -> surface_eval s u v = Some x1 -> curve_eval c t = Some x2 -> distance x1 x2 <= tol.
Proof.
  intros H. destruct (bend_run cramer cramer_exact) as (xyz & G).
  assert (X := H cramer square bend 0%nat 0%nat 0%nat 1%nat (1/16) (1/2) (1/2) 0 xyz _ _ cramer_exact square_plain (upright_plain _ _ _ _ _) ltac:(cbn; lia) ltac:(cbn; lia) ltac:(cbn; lia) G (square_eval (1/2) (1/2) ltac:(lra) ltac:(lra)) (upright_eval _ _ _ _ _ 0 ltac:(lra))).
  unfold distance in X. cbn [length rsum nth] in X. match type of X with sqrt ?y <= _ => replace y with ((1/4) * (1/4)) in X by lra end. rewrite sqrt_square in X by lra. lra.
Qed.
Print Assumptions C111_stale_refuted.
Example C111_case : plain square 3 /\ plain_curve bend 3 /\ exact_solver cramer /\ exists xyz, get_intersection cramer square bend 0 0 0 1 (1/16) = Some ((1/2, 1/2, 0), true, xyz).
Proof. split; [exact square_plain|]. split; [apply upright_plain|]. split; [exact cramer_exact|]. apply bend_run, cramer_exact. Qed.
(** A line through the square. *)
Definition line : curve := upright (1/4) (3/4) (-1/4) (1/4) (3/4).
Definition e3 (x y z : R) (j : nat) : R := nth j [x; y; z] 0.
Example C111_flat_case : flat square 0 0 (e3 0 0 0) (e3 1 0 0) (e3 0 1 0) /\ straight line 0 (e3 (1/4) (3/4) (-1/4)) (e3 0 0 1) /\
  (forall u v t J x1 x2, in_cell b1 0 u -> in_cell b1 0 v -> in_cell b1 0 t -> jacobian square line 0 0 0 (u, v, t) = Some (J, x1, x2) -> det J <> 0) /\
  exists xyz, get_intersection cramer square line 0 0 0 10 (1/100) = Some ((1/4, 3/4, 1/4), true, xyz).
Proof.
  assert (I : forall t, in_cell b1 0 t -> 0 <= t <= 1) by (intros t [_ H]; cbn in H; lra).
  assert (FL : flat square 0 0 (e3 0 0 0) (e3 1 0 0) (e3 0 1 0)). { intros u v U W j J. rewrite square_eval by auto. cbn [coord]. unfold e3. destruct j as [|[|[|j]]]; cbn; lra || lia. }
  assert (ST : straight line 0 (e3 (1/4) (3/4) (-1/4)) (e3 0 0 1)). { intros t T j J. unfold line. rewrite upright_eval by auto. cbn [coord]. unfold e3. destruct j as [|[|[|j]]]; cbn; lra || lia. }
  split; [exact FL|]. split; [exact ST|]. split.
  - intros u v t J x1 x2 U W T E. assert (BX : in_box square line 0 0 0 (u, v, t)) by (split; [|split]; assumption). rewrite (jacobian_l square line square_plain (upright_plain _ _ _ _ _) 0 0 0 u v t BX) in E. injection E as <- _ _.
    unfold SS, CC, spole, pole. cbn [size u_basis v_basis c_basis square line upright degree b1 knots length Nat.sub rsum map seq s_poles c_poles nth]. fold b1.
    destruct (bern u (I u U)) as (-> & -> & ->). destruct (bern_diff u (I u U)) as (-> & -> & ->). destruct (bern v (I v W)) as (-> & -> & ->). destruct (bern_diff v (I v W)) as (-> & -> & ->). destruct (bern_diff t (I t T)) as (-> & -> & ->).
    unfold det. cbn [nth]. match goal with |- ?y <> 0 => replace y with (-1) by field end. lra.
  - assert (B : forall t, 0 <= t <= 1 -> in_cell b1 0 t) by (intros; now apply b1_in).
    destruct (C111_flat cramer square line 0 0 0 10 (1/100) _ _ _ _ _ (1/4) (3/4) (1/4) square_plain (upright_plain _ _ _ _ _) cramer_exact ltac:(lra) ltac:(lia) FL ST) as (x1 & x2 & xyz & S & C & G).
    + unfold det, e3. cbn. lra.
    + apply B. lra.
    + apply B. lra.
    + apply B. lra.
    + intros j J. unfold line. rewrite square_eval, upright_eval by lra. cbn [coord]. destruct j as [|[|[|j]]]; cbn; lra || lia.
    + cbn [square line upright u_basis v_basis c_basis b1 knots Nat.add kn nth] in S, C. fold b1 in S, C. replace ((0 + 1) / 2) with (1/2) in S, C by lra. change (Surface b1 b1 _ false) with square in S. change (Curve b1 _ false) with line in C.
      rewrite square_eval in S by lra. unfold line in C. rewrite upright_eval in C by lra. injection S as <-. injection C as <-. exists xyz. rewrite G.
      match goal with |- context [Rlt_dec ?y _] => assert (Y : 1/4 <= y) end.
      { unfold distance. cbn [length rsum nth]. rewrite <- (sqrt_square (1/4)) at 1 by lra. apply sqrt_le_1_alt. lra. }
      destruct (Rlt_dec _ _); [exfalso; lra|reflexivity].
Qed.

(** * C112: threads of one surface against patches of the other *)
Theorem C112_points : forall solve find_box s1 s2 max_it tol l q, plain s1 3 -> plain s2 3 ->
  (forall c it id, In id (find_box c it) -> (id < n_intervals (u_basis s2) * n_intervals (v_basis s2))%nat) ->
  get_intersections solve find_box s1 s2 max_it tol = Some l -> In q l ->
  exists o1 o2 p1 p2,
    ((exists i, (i <= n_intervals (u_basis s1))%nat /\ o1 = kn (knots (u_basis s1)) (i + 2)) \/ (exists j, (j <= n_intervals (v_basis s1))%nat /\ o2 = kn (knots (v_basis s1)) (j + 2))) /\
    (exists i j, own q = surface_point s1 i j o1 o2 /\ in_cell (u_basis s1) i o1 /\ in_cell (v_basis s1) j o2) /\
    (exists i j, other q = surface_point s2 i j p1 p2 /\ in_cell (u_basis s2) i p1 /\ in_cell (v_basis s2) j p2) /\
    exists a1 a2 c1 c2 x1 x2, in_dom (u_basis s1) a1 /\ in_dom (v_basis s1) a2 /\ in_dom (u_basis s2) c1 /\ in_dom (v_basis s2) c2 /\
      surface_eval s1 a1 a2 = Some x1 /\ surface_eval s2 c1 c2 = Some x2 /\ distance x2 x1 <= tol /\ middle_of x2 x1 (place q) /\
      (distance x2 x1 < tol -> (a1, a2) = (o1, o2) /\ (c1, c2) = (p1, p2)).
Proof.
  intros solve find_box s1 s2 max_it tol l q P1 P2 FB G I. destruct (surf_l s1 s2 P1 P2 solve find_box FB max_it tol l G) as [OK _].
  destruct (OK q I) as (ax & iw & it & iu & iv & u & v & t & LW & OW & CT & OT & CU & CV & u' & v' & t' & x1 & x2 & CT' & CU' & CV' & S1 & S2 & D & M & EQ).
  assert (MC := main_cell _ iw (fix_cells s1 3 P1 ax) LW). assert (DW := cell_dom _ (fix_cells s1 3 P1 ax) _ _ MC). assert (DT := cell_dom _ (run_cells s1 3 P1 ax) _ _ CT').
  assert (DU := cell_dom _ (proj1 P2) _ _ CU'). assert (DV := cell_dom _ (proj1 (proj2 P2)) _ _ CV'). destruct ax; cbn [fix_basis run_basis point_a on_surface] in *.
  - exists (kn (knots (u_basis s1)) (iw + 2)), t, u, v. split; [left; now exists iw|]. split; [exists (main_patch iw), it; auto|]. split; [exists iu, iv; auto|].
    exists (kn (knots (u_basis s1)) (iw + 2)), t', u', v', x1, x2. do 8 (split; [assumption|]). intros L. specialize (EQ L). injection EQ as -> -> ->. now split.
  - exists t, (kn (knots (v_basis s1)) (iw + 2)), u, v. split; [right; now exists iw|]. split; [exists it, (main_patch iw); auto|]. split; [exists iu, iv; auto|].
    exists t', (kn (knots (v_basis s1)) (iw + 2)), u', v', x1, x2. do 8 (split; [assumption|]). intros L. specialize (EQ L). injection EQ as -> -> ->. now split.
Qed.
Print Assumptions C112_points.
Theorem C112_complete : forall solve find_box s1 s2 max_it tol l ax cs iw c w it id u v t xyz, plain s1 3 -> plain s2 3 ->
  (forall c it id, In id (find_box c it) -> (id < n_intervals (u_basis s2) * n_intervals (v_basis s2))%nat) ->
  get_intersections solve find_box s1 s2 max_it tol = Some l ->
  main_curves s1 ax = Some cs -> nth_error cs iw = Some (c, w) -> (it < n_intervals (run_basis s1 ax))%nat -> In id (find_box c it) ->
  get_intersection solve s2 c (fst (patch_id2pos s2 id)) (snd (patch_id2pos s2 id)) it max_it tol = Some ((u, v, t), true, xyz) ->
  let at_thread y := match ax with AxU => (w, y) | AxV => (y, w) end in
  exists q, In q l /\
    (place q = xyz /\ sp_uv (own q) = at_thread t /\ sp_uv (other q) = (u, v) \/
     sp_uv (own q) = at_thread (kn (knots (run_basis s1 ax)) (it + 2)) \/ sp_uv (own q) = at_thread (kn (knots (run_basis s1 ax)) (it + 3))).
Proof.
  intros solve find_box s1 s2 max_it tol l ax cs iw c w it id u v t xyz P1 P2 FB G MC N L I GI at_thread.
  destruct (surf_l s1 s2 P1 P2 solve find_box FB max_it tol l G) as [_ CO]. destruct (CO ax cs iw c w it MC N L) as (m & [H|(q & A & B)]).
  - destruct (H id I u v t xyz GI) as (q & A & B). exists q. split; [exact A|left; exact B].
  - exists q. split; [exact A|right; exact B].
Qed.
Print Assumptions C112_complete.
(** A wall across the square. *)
Definition wall : surface := Surface b1 b1 [[[1/4; 1/2; -1/4]; [1/4; 1/2; 1/4]; [1/4; 1/2; 3/4]]; [[1/2; 1/2; -1/4]; [1/2; 1/2; 1/4]; [1/2; 1/2; 3/4]]; [[3/4; 1/2; -1/4]; [3/4; 1/2; 1/4]; [3/4; 1/2; 3/4]]] false.
Lemma wall_plain : plain wall 3.
Proof.
  split; [exact b1_cells|]. split; [exact b1_cells|]. split; [reflexivity|]. split; [reflexivity|]. intros r R. repeat (destruct R as [<- |R]; [split; [reflexivity|]; intros p Q; repeat (destruct Q as [<- |Q]; [reflexivity|]); destruct Q|]). destruct R.
Qed.
Lemma wall_eval u v : 0 <= u <= 1 -> 0 <= v <= 1 -> surface_eval wall u v = Some [1/4 + u / 2; 1/2; v - 1/4].
Proof.
  intros U W. rewrite (eval_SS wall 3 wall_plain u v) by (now apply b1_dom). unfold SS, spole. cbn [size u_basis v_basis wall degree b1 knots length Nat.sub rsum map seq s_poles nth].
  destruct (bern u U) as (-> & -> & ->). destruct (bern v W) as (-> & -> & ->). f_equal. f_equal; [lra|]. f_equal; [lra|]. f_equal. lra.
Qed.
Definition brave (J : list (list R)) (d : list R) : option (R * R * R) := match cramer J d with Some x => Some x | None => Some (0, 0, 0) end.
Lemma brave_exact : exact_solver brave.
Proof. intros J d N. unfold brave. destruct (cramer_exact J d N) as (x & y & z & -> & H). now exists x, y, z. Qed.
Example C112_case : plain wall 3 /\ plain square 3 /\ exists l q, get_intersections brave (fun _ _ => [0%nat]) wall square 10 (1/100) = Some l /\ In q l.
Proof.
  split; [exact wall_plain|]. split; [exact square_plain|].
  assert (FB : forall (c : curve) (it id : nat), In id [0%nat] -> (id < n_intervals (u_basis square) * n_intervals (v_basis square))%nat) by (intros c it id [<- |[]]; cbn; lia).
  destruct (get_intersections brave (fun _ _ => [0%nat]) wall square 10 (1/100)) as [l|] eqn:G.
  2:{ exfalso. revert G. apply (surf_total wall square wall_plain square_plain brave (fun _ _ => [0%nat]) FB); [|lia]. intros J d. unfold brave. destruct (cramer J d); discriminate. }
  exists l. destruct (all_threads wall 3 wall_plain AxU) as (cs & MC & LL & X). destruct (nth_error cs 0) as [[c w]|] eqn:N; [|apply nth_error_None in N; rewrite LL in N; cbn in N; lia].
  destruct (X 0%nat c w N) as (_ & W & PC & CB & ON). cbn in W. subst w. cbn [run_basis wall v_basis on_surface] in CB, ON. change (Surface b1 b1 _ false) with wall in ON.
  assert (I : forall t, in_cell b1 0 t -> 0 <= t <= 1) by (intros t [_ H]; cbn in H; lra). assert (B : forall t, 0 <= t <= 1 -> in_cell b1 0 t) by (intros; now apply b1_in).
  assert (CE : forall t, 0 <= t <= 1 -> curve_eval c t = Some [1/4; 1/2; t - 1/4]). { intros t T. rewrite ON by (now apply b1_dom). rewrite wall_eval by lra. f_equal. f_equal. lra. }
  assert (FL : flat square 0 0 (e3 0 0 0) (e3 1 0 0) (e3 0 1 0)) by apply C111_flat_case.
  assert (ST : straight c 0 (e3 (1/4) (1/2) (-1/4)) (e3 0 0 1)). { intros t T j J. rewrite CB in T. rewrite CE by auto. cbn [coord]. unfold e3. destruct j as [|[|[|j]]]; cbn; lra || lia. }
  destruct (C111_flat brave square c 0 0 0 10 (1/100) _ _ _ _ _ (1/4) (1/2) (1/4) square_plain PC brave_exact ltac:(lra) ltac:(lia) FL ST) as (x1 & x2 & xyz & S & C & GI).
  - unfold det, e3. cbn. lra.
  - apply B. lra.
  - apply B. lra.
  - rewrite CB. apply B. lra.
  - intros j J. rewrite square_eval, CE by lra. cbn [coord]. destruct j as [|[|[|j]]]; cbn; lra || lia.
  - match type of GI with _ = Some (?y, true, _) => destruct y as [[u v] t] end.
    destruct (C112_complete brave (fun _ _ => [0%nat]) wall square 10 (1/100) l AxU cs 0 c 0 0 0 u v t xyz wall_plain square_plain FB G MC N ltac:(cbn; lia) (or_introl eq_refl) GI) as (q & Q & _). exists q. split; [reflexivity|exact Q].
Qed.
