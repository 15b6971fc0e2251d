(** Properties C27-C34 (B-spline bases, curves, surfaces). *)
From Coq Require Import List Arith Bool Reals Lia Lra.
From Verif Require Import Spline_Model Spline_Spec Spline_Piece Spline_Proofs Spline_Curve.
Import ListNotations.
Open Scope R_scope.

(** Decide comparisons of concrete reals. *)
Ltac rcmp :=
  repeat match goal with
  | |- context [Rleb ?a ?b] => destruct (Rleb_spec a b); try (exfalso; lra)
  | |- context [Rltb ?a ?b] => destruct (Rltb_spec a b); try (exfalso; lra)
  | |- context [Reqb ?a ?b] => destruct (Reqb_spec a b); try (exfalso; lra)
  end.
Ltac rlist := repeat first [reflexivity | lra | f_equal].
Ltac concrete_valid :=
  constructor;
  [ unfold make_basis, free_ends; cbn; rcmp; reflexivity
  | intros i j Hij Hj; simpl in Hj;
    repeat (destruct j as [|j]; [repeat (destruct i as [|i]; [simpl; lra|try lia])|try lia])
  | simpl; lia ].

(** Sample basis: degree 2, intervals [2,3] and [3,5]; sample curve and surface. *)
Definition sb : basis := Basis 2 [2; 2; 2; 3; 5; 5; 5].
Lemma sb_valid : valid_basis sb.
Proof. concrete_valid. Qed.
Definition sc : curve := Curve sb [[0; 1]; [1; 4]; [2; -1]; [3; 0]] false.
Definition scr : curve := Curve sb [[0; 1; 1]; [1; 4; 2]; [2; -1; 1]; [3; 0; 3]] true.
(** Degree 1 with a double inner knot. *)
Definition sb1 : basis := Basis 1 [0; 0; 1; 1; 2; 2].
Lemma sb1_valid : valid_basis sb1.
Proof. concrete_valid. Qed.

(** C27 *)
Theorem C27_pack_round_trip : forall deg l b ps,
  make_basis deg l = Some b -> pack_knots b = Some ps ->
  unpack ps = l /\ packed_ok ps /\
  make_from_packed_knots deg ps = Some b /\ list_sum (map snd ps) = length l.
Proof. exact pack_unpack_l. Qed.
Print Assumptions C27_pack_round_trip.

Theorem C27_unpack_round_trip : forall deg ps b,
  packed_ok ps -> make_from_packed_knots deg ps = Some b -> pack_knots b = Some ps.
Proof. exact pack_of_packed_l. Qed.
Print Assumptions C27_unpack_round_trip.

Example C27_case : make_basis 2 (knots sb) = Some sb /\
  pack_knots sb = Some [(2, 3%nat); (3, 1%nat); (5, 3%nat)] /\
  make_from_packed_knots 2 [(2, 3%nat); (3, 1%nat); (5, 3%nat)] = Some sb /\
  packed_ok [(2, 3%nat); (3, 1%nat); (5, 3%nat)].
Proof.
  split; [exact (vb_ctor sb sb_valid)|]. split.
  - unfold pack_knots; cbn; rcmp; reflexivity.
  - split.
    + exact (vb_ctor sb sb_valid).
    + cbn. split; [lia|]. split; [lra|]. split; [lia|]. split; [lra|]. split; [lia|]. auto.
Qed.

(** C28 *)
Theorem C28_find_knot_interval : forall b t, valid_basis b -> dom0 b <= t <= dom1 b ->
  exists I, find_knot_interval b t = Some I /\ (I < n_intervals b)%nat /\
    kn (knots b) (degree b + I) <= t /\
    (t < kn (knots b) (degree b + I + 1) \/ (t = dom1 b /\ I + 1 = n_intervals b)%nat).
Proof. exact (fun b t V => find_spec b V t). Qed.
Print Assumptions C28_find_knot_interval.

Theorem C28_below_domain_raises : forall b t, valid_basis b -> t < dom0 b ->
  find_knot_interval b t = None.
Proof. exact (fun b t V => find_out b V t). Qed.
Print Assumptions C28_below_domain_raises.

Theorem C28_make_equidistant : forall deg n r0 r1, (0 < n)%nat -> r0 <= r1 ->
  exists b, make_equidistant deg n r0 r1 = Some b /\ valid_basis b /\ degree b = deg /\
    n_intervals b = n /\ dom0 b = r0 /\ dom1 b = r1 /\
    forall i, (i <= n)%nat -> kn (knots b) (deg + i) = r0 + INR i * ((r1 - r0) / INR n).
Proof. exact make_equidistant_l. Qed.
Print Assumptions C28_make_equidistant.

Theorem C28_check_clamps : forall b t, dom0 b <= dom1 b ->
  (forall t', check b t = Some t' -> dom0 b <= t' <= dom1 b /\ Rabs (t' - t) <= check_tol t) /\
  (dom0 b <= t <= dom1 b -> check b t = Some t) /\
  (t < dom0 b - check_tol t \/ dom1 b + check_tol t < t -> check b t = None).
Proof. exact check_l. Qed.
Print Assumptions C28_check_clamps.

Example C28_case : find_knot_interval sb 2 = Some 0%nat /\ find_knot_interval sb 3 = Some 1%nat /\
  find_knot_interval sb 5 = Some 1%nat /\ find_knot_interval sb1 1 = Some 2%nat /\
  find_knot_interval sb 1 = None.
Proof.
  unfold find_knot_interval, searchsorted_right, interval_knots. cbn.
  repeat split; rcmp; reflexivity.
Qed.

(** C29 *)
Theorem C29_nonnegative : forall b i t, valid_basis b -> dom0 b <= t <= dom1 b ->
  (i < size b)%nat -> exists x, eval b i t = Some x /\ 0 <= x.
Proof. intros b i t V H Hi. eexists. split; [apply eval_ev; auto|apply nonneg_l; auto]. Qed.
Print Assumptions C29_nonnegative.

Theorem C29_local_support : forall b i t I, valid_basis b -> dom0 b <= t <= dom1 b ->
  (i < size b)%nat -> find_knot_interval b t = Some I -> eval b i t <> Some 0 ->
  (I <= i <= I + degree b)%nat /\ fst (fn_supp b i) <= t <= snd (fn_supp b i).
Proof.
  intros b i t I V H Hi F N.
  assert (ev b i t <> 0) as N'. { intros E. apply N. rewrite eval_ev by auto. now rewrite E. }
  split; [apply (support_l b V i t I); auto|apply (supp_interval_l b V); auto].
Qed.
Print Assumptions C29_local_support.

Theorem C29_partition_of_unity : forall b t, valid_basis b -> dom0 b <= t <= dom1 b ->
  rsum (size b) (fun i => value_of (eval b i t)) = 1.
Proof. exact (fun b t V => partition_l b V t). Qed.
Print Assumptions C29_partition_of_unity.

Theorem C29_eval_vector : forall b t I, valid_basis b -> dom0 b <= t <= dom1 b ->
  find_knot_interval b t = Some I ->
  exists v, eval_vector b I t = Some v /\ length v = (degree b + 1)%nat /\
    (forall r, (r <= degree b)%nat -> eval b (I + r) t = Some (nth r v 0)) /\ lsum v = 1.
Proof.
  intros b t I V H F. destruct (find_spec b V t H) as (I' & F' & A & _).
  rewrite F in F'. injection F' as <-.
  eexists. split; [apply eval_vector_l; auto|]. rewrite map_length, seq_length. split; auto. split.
  - intros r Hr. rewrite nth_map_seq by lia. apply eval_ev. pose proof (len_eq b V). lia.
  - rewrite lsum_seq. pose proof (sum_window b V (fun _ => 1) t I H F) as S.
    rewrite (rsum_ext _ _ (fun i => ev b i t)) in S by (intros; ring).
    rewrite (partition_l b V t H) in S. rewrite S. apply rsum_ext. intros; ring.
Qed.
Print Assumptions C29_eval_vector.

Example C29_case : valid_basis sb /\ dom0 sb <= 4 <= dom1 sb /\ size sb = 4%nat /\
  eval sb 0 4 = Some 0 /\ eval sb 1 4 = Some (1/6) /\ eval sb 2 4 = Some (7/12) /\
  eval sb 3 4 = Some (1/4) /\ eval sb 3 5 = Some 1 /\ eval sb 4 4 = None.
Proof.
  split; [exact sb_valid|]. unfold dom0, dom1, eval, size, kn; cbn.
  split; [lra|]. split; [reflexivity|].
  repeat split; rcmp; cbn; f_equal; lra.
Qed.

(** C30 *)
Theorem C30_fast_values : forall b t I, valid_basis b -> degree b = 2%nat ->
  dom0 b <= t <= dom1 b -> find_knot_interval b t = Some I ->
  kn (knots b) (I + 2) < kn (knots b) (I + 3) ->
  eval_vector_deg_2 b I t = eval_vector b I t.
Proof. exact (fun b t I V => fast_eval_l b V t I). Qed.
Print Assumptions C30_fast_values.

Theorem C30_fast_derivatives : forall b t I, valid_basis b -> degree b = 2%nat ->
  (forall i, (0 < i < size b)%nat -> kn (knots b) i < kn (knots b) (i + degree b)) ->
  dom0 b <= t <= dom1 b -> find_knot_interval b t = Some I ->
  kn (knots b) (I + 2) < kn (knots b) (I + 3) ->
  eval_diff_vector_deg_2 b I t = eval_diff_vector b I t.
Proof. exact (fun b t I V D => fast_diff_l b V t I D). Qed.
Print Assumptions C30_fast_derivatives.

Example C30_case : valid_basis sb /\ dom0 sb <= 4 <= dom1 sb /\
  find_knot_interval sb 4 = Some 1%nat /\ kn (knots sb) 3 < kn (knots sb) 4 /\
  (forall i, (0 < i < size sb)%nat -> kn (knots sb) i < kn (knots sb) (i + degree sb)) /\
  eval_vector_deg_2 sb 1 4 = Some [1/6; 7/12; 1/4] /\
  eval_diff_vector_deg_2 sb 1 4 = Some [-1/3; -1/6; 1/2].
Proof.
  split; [exact sb_valid|]. unfold dom0, dom1, kn; cbn. split; [lra|]. split.
  { unfold find_knot_interval, searchsorted_right, interval_knots. cbn. rcmp; reflexivity. }
  split; [lra|]. split.
  { intros i Hi. change (0 < i < 4)%nat in Hi. do 4 (destruct i as [|i]; [cbn; first [lra|lia]|]). lia. }
  unfold eval_vector_deg_2, eval_diff_vector_deg_2, ndiv, kn; cbn.
  split; rcmp; cbn; rlist.
Qed.

(** The last interval may be empty (end knot with multiplicity above degree+1);
    then the fast path divides by zero at the end of the domain. *)
Theorem C30_empty_last_interval_refuted : exists b t I, valid_basis b /\ degree b = 2%nat /\
  dom0 b <= t <= dom1 b /\ find_knot_interval b t = Some I /\
  eval_vector b I t = Some [0; 0; 1] /\ eval_vector_deg_2 b I t = None.
Proof.
  exists (Basis 2 [0; 0; 0; 1; 1; 1; 1]), 1, 1%nat.
  split; [concrete_valid|]. split; [reflexivity|].
  unfold dom0, dom1, kn; cbn. split; [lra|]. split.
  { unfold find_knot_interval, searchsorted_right, interval_knots. cbn. rcmp; reflexivity. }
  split.
  - unfold eval_vector, eval, dom1, kn, size; cbn. rcmp; cbn. rlist.
  - unfold eval_vector_deg_2, ndiv, kn; cbn. rcmp; cbn. reflexivity.
Qed.
Print Assumptions C30_empty_last_interval_refuted.

(** C31 *)
Definition interior_multiplicity_ok (b : basis) : Prop :=
  forall i, (0 < i < size b)%nat -> kn (knots b) i < kn (knots b) (i + degree b).

Lemma deg_S (b : basis) : (1 <= degree b)%nat -> exists d, degree b = S d.
Proof. destruct (degree b); [lia|eauto]. Qed.

Theorem C31_two_sided : forall b i t, valid_basis b -> (1 <= degree b)%nat ->
  interior_multiplicity_ok b -> (i < size b)%nat -> dom0 b < t < dom1 b ->
  (multiplicity (knots b) t < degree b)%nat ->
  exists d, eval_diff b i t = Some d /\
    derivable_pt_lim (fun y => value_of (eval b i y)) t d.
Proof.
  intros b i t V D M Hi H Mu. destruct (deg_S b D) as [d Hd].
  destruct (locate b V t ltac:(lra)) as [(j & L & _)| ->]; [|lra].
  exists (dpc (kn (knots b)) j d i t). split.
  - apply (eval_diff_dpc b V d i j t); auto.
  - apply (diff_full_l b V d i j t); auto.
Qed.
Print Assumptions C31_two_sided.

Theorem C31_right_derivative : forall b i t, valid_basis b -> (1 <= degree b)%nat ->
  interior_multiplicity_ok b -> (i < size b)%nat -> dom0 b <= t < dom1 b ->
  exists d, eval_diff b i t = Some d /\
    deriv_within (fun y => t <= y) (fun y => value_of (eval b i y)) t d.
Proof.
  intros b i t V D M Hi H. destruct (deg_S b D) as [d Hd].
  destruct (locate b V t ltac:(lra)) as [(j & L & _)| ->]; [|lra].
  exists (dpc (kn (knots b)) j d i t). split.
  - apply (eval_diff_dpc b V d i j t); auto.
  - apply (diff_right_l b V d i j t); auto.
    destruct L as (_ & _ & _ & _ & [E|[E _]]); lra.
Qed.
Print Assumptions C31_right_derivative.

Theorem C31_left_derivative_at_end : forall b i, valid_basis b -> (1 <= degree b)%nat ->
  interior_multiplicity_ok b -> (i < size b)%nat ->
  exists d, eval_diff b i (dom1 b) = Some d /\
    deriv_within (fun y => y <= dom1 b) (fun y => value_of (eval b i y)) (dom1 b) d.
Proof.
  intros b i V D M Hi. destruct (deg_S b D) as [d Hd].
  destruct (diff_left_end_l b V d i Hd M Hi) as (j & L & Dd).
  exists (dpc (kn (knots b)) j d i (dom1 b)). split; auto.
  apply (eval_diff_dpc b V d i j); auto.
Qed.
Print Assumptions C31_left_derivative_at_end.

Theorem C31_derivatives_sum_to_zero : forall b t, valid_basis b -> (1 <= degree b)%nat ->
  interior_multiplicity_ok b -> dom0 b <= t <= dom1 b ->
  (forall i, (i < size b)%nat -> succeeds (eval_diff b i t)) /\
  rsum (size b) (fun i => value_of (eval_diff b i t)) = 0.
Proof.
  intros b t V D M H. destruct (deg_S b D) as [d Hd]. split.
  - intros i Hi. destruct (locate b V t H) as [(j & L & _)| ->].
    + eexists. apply (eval_diff_dpc b V d i j t); auto.
    + destruct (diff_left_end_l b V d i Hd M Hi) as (j & L & _).
      eexists. apply (eval_diff_dpc b V d i j); auto.
  - apply (diff_sum_l b V d t Hd M H).
Qed.
Print Assumptions C31_derivatives_sum_to_zero.

Example C31_case : valid_basis sb /\ interior_multiplicity_ok sb /\ dom0 sb < 3 < dom1 sb /\
  (multiplicity (knots sb) 3 < degree sb)%nat /\
  eval_diff sb 1 3 = Some (-2/3) /\ eval_diff sb 2 3 = Some (2/3) /\ eval_diff sb 3 5 = Some 1.
Proof.
  split; [exact sb_valid|]. split.
  { intros i Hi. change (0 < i < 4)%nat in Hi. do 4 (destruct i as [|i]; [cbn; first [lra|lia]|]). lia. }
  unfold dom0, dom1, kn; cbn. split; [lra|]. split.
  { unfold multiplicity. cbn. repeat match goal with |- context [Req_EM_T ?a ?b] =>
      destruct (Req_EM_T a b); try (exfalso; lra) end. lia. }
  unfold eval_diff, ndiv, dom1, size, kn; cbn.
  repeat split; rcmp; cbn; f_equal; lra.
Qed.

(** An inner knot of multiplicity degree+1 is accepted by the constructor and
    makes eval_diff divide by zero at each point of the domain. *)
Theorem C31_full_multiplicity_refuted : exists b i t, valid_basis b /\ (1 <= degree b)%nat /\
  (i < size b)%nat /\ dom0 b < t < dom1 b /\ multiplicity (knots b) t = 0%nat /\
  eval_diff b i t = None.
Proof.
  exists sb1, 2%nat, (1/2). split; [exact sb1_valid|].
  unfold dom0, dom1, kn; cbn. split; [lia|]. split; [unfold size; cbn; lia|]. split; [lra|]. split.
  - unfold multiplicity. cbn. repeat match goal with |- context [Req_EM_T ?a ?b] =>
      destruct (Req_EM_T a b); try (exfalso; lra) end. reflexivity.
  - unfold eval_diff, ndiv, dom1, size, kn; cbn. rcmp; cbn. reflexivity.
Qed.
Print Assumptions C31_full_multiplicity_refuted.

(** C32 *)
Theorem C32_linear_poles : forall b t p, valid_basis b -> (1 <= degree b)%nat ->
  dom0 b <= t <= dom1 b -> make_linear_poles b = Some p ->
  length p = size b /\ rsum (size b) (fun i => nth i p 0 * value_of (eval b i t)) = t - dom0 b.
Proof.
  intros b t p V D. apply (linear_precision_l b V t p). lia.
Qed.
Print Assumptions C32_linear_poles.

Example C32_case : make_linear_poles sb = Some [0; 1/2; 3/2 + 1/2; 3] /\ dom0 sb = 2.
Proof. split; [|reflexivity]. unfold make_linear_poles, kn. cbn. rlist. Qed.

(** The intended f(x) = x holds only for domains starting at 0. *)
Theorem C32_identity_refuted : exists b t p, valid_basis b /\ (1 <= degree b)%nat /\
  dom0 b <= t <= dom1 b /\ make_linear_poles b = Some p /\
  rsum (size b) (fun i => nth i p 0 * value_of (eval b i t)) <> t.
Proof.
  destruct C32_case as [E D].
  exists sb, 4, [0; 1/2; 3/2 + 1/2; 3]. split; [exact sb_valid|]. split; [cbn; lia|].
  assert (dom0 sb <= 4 <= dom1 sb) as H by (unfold dom0, dom1, kn; cbn; lra).
  split; auto. split; [exact E|].
  destruct (C32_linear_poles sb 4 _ sb_valid ltac:(cbn; lia) H E) as [_ ->]. rewrite D. lra.
Qed.
Print Assumptions C32_identity_refuted.

(** C33 *)
Theorem C33_curve_in_aabb : forall c t, valid_basis (c_basis c) ->
  length (c_poles c) = size (c_basis c) -> c_rational c = false ->
  dom0 (c_basis c) <= t <= dom1 (c_basis c) ->
  exists p lo hi, curve_eval c t = Some p /\ curve_aabb c = Some (lo, hi) /\
    length p = c_dim c /\ forall j, (j < c_dim c)%nat -> nth j lo 0 <= nth j p 0 <= nth j hi 0.
Proof. exact (fun c t V N R H => curve_hull_l c V N t H R). Qed.
Print Assumptions C33_curve_in_aabb.

Theorem C33_rational_curve_in_aabb : forall c t, valid_basis (c_basis c) ->
  length (c_poles c) = size (c_basis c) -> c_rational c = true ->
  (forall p, In p (c_poles c) -> length p = S (c_dim c) /\ 0 < nth (c_dim c) p 0) ->
  dom0 (c_basis c) <= t <= dom1 (c_basis c) ->
  exists p lo hi, curve_eval c t = Some p /\ curve_aabb c = Some (lo, hi) /\
    length p = c_dim c /\ forall j, (j < c_dim c)%nat -> nth j lo 0 <= nth j p 0 <= nth j hi 0.
Proof.
  intros c t V N R W H. apply curve_hull_rational_l; auto.
  - intros i Hi. apply (W (nth i (c_poles c) [])). apply nth_In. lia.
  - intros i Hi. apply (W (nth i (c_poles c) [])). apply nth_In. lia.
Qed.
Print Assumptions C33_rational_curve_in_aabb.

Theorem C33_aabb_attained_by_poles : forall c lo hi j, valid_basis (c_basis c) ->
  length (c_poles c) = size (c_basis c) -> curve_aabb c = Some (lo, hi) ->
  (j < length (nth 0 (c_poles c) []))%nat ->
  (exists p, In p (c_poles c) /\ nth j p 0 = nth j lo 0) /\
  (exists p, In p (c_poles c) /\ nth j p 0 = nth j hi 0).
Proof. exact (fun c lo hi j V N => curve_aabb_tight_l c V N lo hi j). Qed.
Print Assumptions C33_aabb_attained_by_poles.

Theorem C33_surface_aabb_attained_by_poles : forall s lo hi j, surface_aabb s = Some (lo, hi) ->
  (j < length (nth 0 (nth 0 (s_poles s) []) []))%nat ->
  (exists p, In p (concat (s_poles s)) /\ nth j p 0 = nth j lo 0) /\
  (exists p, In p (concat (s_poles s)) /\ nth j p 0 = nth j hi 0).
Proof. exact surface_aabb_tight_l. Qed.
Print Assumptions C33_surface_aabb_attained_by_poles.

Theorem C33_curve_ends : forall c, valid_basis (c_basis c) ->
  length (c_poles c) = size (c_basis c) -> c_rational c = false ->
  (forall p, In p (c_poles c) -> length p = c_dim c) ->
  kn (knots (c_basis c)) (degree (c_basis c)) < kn (knots (c_basis c)) (degree (c_basis c) + 1) ->
  curve_eval c (dom0 (c_basis c)) = Some (hd [] (c_poles c)) /\
  curve_eval c (dom1 (c_basis c)) = Some (last (c_poles c) []).
Proof. exact curve_ends_l. Qed.
Print Assumptions C33_curve_ends.

Theorem C33_curve_affine_invariant : forall c A o t, valid_basis (c_basis c) ->
  length (c_poles c) = size (c_basis c) -> c_rational c = false ->
  (forall r, In r A -> length r = c_dim c) ->
  dom0 (c_basis c) <= t <= dom1 (c_basis c) ->
  exists p, curve_eval c t = Some p /\
    curve_eval (Curve (c_basis c) (map (affine A o) (c_poles c)) false) t = Some (affine A o p).
Proof. intros c A o t V N R HA H. eapply curve_affine_l; eauto. Qed.
Print Assumptions C33_curve_affine_invariant.

Theorem C33_surface_in_aabb : forall s u v, valid_basis (u_basis s) -> valid_basis (v_basis s) ->
  make_surface (u_basis s) (v_basis s) (s_poles s) (s_rational s) = Some s ->
  s_rational s = false ->
  dom0 (u_basis s) <= u <= dom1 (u_basis s) -> dom0 (v_basis s) <= v <= dom1 (v_basis s) ->
  exists p lo hi, surface_eval s u v = Some p /\ surface_aabb s = Some (lo, hi) /\
    length p = s_dim s /\ forall j, (j < s_dim s)%nat -> nth j lo 0 <= nth j p 0 <= nth j hi 0.
Proof.
  intros s u v VU VV M R Hu Hv. unfold make_surface in M.
  destruct (_ && _) eqn:E in M; [|discriminate]. apply andb_prop in E as [E1 E2].
  apply surface_hull_l; auto.
  - now apply Nat.eqb_eq.
  - intros r Hr. rewrite forallb_forall in E2. apply Nat.eqb_eq. apply E2; auto.
Qed.
Print Assumptions C33_surface_in_aabb.

Theorem C33_surface_corners : forall s (eu ev : bool), valid_basis (u_basis s) -> valid_basis (v_basis s) ->
  make_surface (u_basis s) (v_basis s) (s_poles s) (s_rational s) = Some s ->
  s_rational s = false ->
  (forall r p, In r (s_poles s) -> In p r -> length p = s_dim s) ->
  kn (knots (u_basis s)) (degree (u_basis s)) < kn (knots (u_basis s)) (degree (u_basis s) + 1) ->
  kn (knots (v_basis s)) (degree (v_basis s)) < kn (knots (v_basis s)) (degree (v_basis s) + 1) ->
  surface_eval s (if eu then dom1 (u_basis s) else dom0 (u_basis s))
                 (if ev then dom1 (v_basis s) else dom0 (v_basis s))
  = Some (nth (if ev then size (v_basis s) - 1 else 0)
              (nth (if eu then size (u_basis s) - 1 else 0) (s_poles s) []) []).
Proof.
  intros s eu ev VU VV M R L Su Sv. unfold make_surface in M.
  destruct (_ && _) eqn:E in M; [|discriminate]. apply andb_prop in E as [E1 E2].
  apply Nat.eqb_eq in E1.
  assert (forall r, In r (s_poles s) -> length r = size (v_basis s)) as NV.
  { intros r Hr. rewrite forallb_forall in E2. apply Nat.eqb_eq. apply E2; auto. }
  rewrite (surface_corner_l s VU VV E1 NV eu ev R Su Sv). f_equal. unfold spole.
  pose proof (len_eq _ VU) as (U1 & U2 & U3). pose proof (len_eq _ VV) as (V1 & V2 & V3).
  set (i := if eu then _ else _). set (k := if ev then _ else _).
  assert (i < size (u_basis s))%nat as Hi by (unfold i; destruct eu; lia).
  assert (k < size (v_basis s))%nat as Hk by (unfold k; destruct ev; lia).
  assert (In (nth i (s_poles s) []) (s_poles s)) as I1 by (apply nth_In; lia).
  rewrite <- (L (nth i (s_poles s) []) (nth k (nth i (s_poles s) []) [])).
  2: exact I1. 2: { apply nth_In. rewrite NV; auto. }
  generalize (nth k (nth i (s_poles s) []) []). intros p.
  apply nth_ext with (d := 0) (d' := 0); rewrite map_length, seq_length; auto.
  intros j Hj. rewrite nth_map_seq by auto. reflexivity.
Qed.
Print Assumptions C33_surface_corners.

Definition ss : surface :=
  Surface sb sb1
    [[[0;0;1]; [0;1;0]; [0;1;2]; [0;2;1]]; [[1;0;0]; [1;1;5]; [1;1;2]; [1;2;1]];
     [[2;0;0]; [2;1;0]; [2;1;-2]; [2;2;1]]; [[3;0;7]; [3;1;0]; [3;1;2]; [3;2;4]]] false.

Example C33_case :
  length (c_poles sc) = size sb /\ c_dim sc = 2%nat /\
  curve_aabb sc = Some ([0; -1], [3; 4]) /\
  curve_eval sc 4 = Some [25/12; 1/12] /\
  c_dim scr = 2%nat /\ (forall p, In p (c_poles scr) -> length p = 3%nat /\ 0 < nth 2 p 0) /\
  kn (knots sb) 2 < kn (knots sb) 3 /\
  make_surface sb sb1 (s_poles ss) false = Some ss /\ s_dim ss = 3%nat /\
  kn (knots sb1) 1 < kn (knots sb1) 2.
Proof.
  split; [reflexivity|]. split; [reflexivity|]. split.
  { unfold curve_aabb. cbn. unfold Rmin, Rmax.
    repeat match goal with |- context [Rle_dec ?a ?b] =>
      lazymatch a with context [Rle_dec _ _] => fail | _ =>
      lazymatch b with context [Rle_dec _ _] => fail | _ =>
      destruct (Rle_dec a b); try (exfalso; lra) end end end; reflexivity. }
  split.
  { rewrite curve_eval_l; try reflexivity; try exact sb_valid.
    - unfold ev, eval, dom1, size, pole, kn, c_dim. cbn. rcmp; cbn. rlist.
    - unfold dom0, dom1, kn; cbn. lra. }
  split; [reflexivity|]. split.
  { intros p Hp. cbn in Hp. repeat (destruct Hp as [<-|Hp]; [cbn; split; [reflexivity|lra]|]).
    destruct Hp. }
  split; [unfold kn; cbn; lra|]. split; [reflexivity|]. split; [reflexivity|].
  unfold kn; cbn; lra.
Qed.

(** With an end knot of multiplicity degree+2 (accepted by the constructor) the
    curve does not start in its first pole. *)
Theorem C33_first_pole_refuted : exists c, valid_basis (c_basis c) /\
  length (c_poles c) = size (c_basis c) /\ c_rational c = false /\
  curve_eval c (dom0 (c_basis c)) = Some [1] /\ hd [] (c_poles c) = [0].
Proof.
  exists (Curve (Basis 1 [0; 0; 0; 1; 1]) [[0]; [1]; [2]] false). cbn [c_basis c_poles c_rational hd].
  assert (valid_basis (Basis 1 [0; 0; 0; 1; 1])) as V by concrete_valid.
  split; auto. split; [reflexivity|]. split; auto. split; auto.
  rewrite curve_eval_l; try reflexivity; auto.
  - unfold ev, eval, dom1, dom0, size, pole, kn, c_dim. cbn. rcmp; cbn. rlist.
  - unfold dom0, dom1, kn; cbn. lra.
Qed.
Print Assumptions C33_first_pole_refuted.

(** C34 *)
Theorem C34_patch_numbering : forall s iu iv id, (0 < n_intervals (v_basis s))%nat ->
  ((iv < n_intervals (v_basis s))%nat -> patch_id2pos s (patch_pos2id s iu iv) = (iu, iv)) /\
  patch_pos2id s (fst (patch_id2pos s id)) (snd (patch_id2pos s id)) = id /\
  (snd (patch_id2pos s id) < n_intervals (v_basis s))%nat /\
  ((id < n_intervals (u_basis s) * n_intervals (v_basis s))%nat <->
     (fst (patch_id2pos s id) < n_intervals (u_basis s))%nat).
Proof. exact patch_l. Qed.
Print Assumptions C34_patch_numbering.

Example C34_case : n_intervals (v_basis ss) = 3%nat /\ patch_pos2id ss 1 2 = 5%nat /\
  patch_id2pos ss 5 = (1%nat, 2%nat).
Proof. repeat split; reflexivity. Qed.
