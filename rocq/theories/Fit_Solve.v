(** From the linear system to the surface. *)
From Coq Require Import List Arith Lia Bool Reals Lra Psatz.
From Verif Require Import Spline_Model Spline_Spec Spline_Piece Spline_Proofs Spline_Curve ZSurf_Spec ZSurf_Model ZSurf_Proofs ZSurf_Grid Rect_Model Rect_Spec Quad_Model
  Fit_Model Fit_Spec Fit_Proofs Fit_Basis Fit_Matrix Fit_Reg Fit_Integral Fit_Rough.
Import ListNotations.
Local Open Scope R_scope.

(** Base functions are linearly independent. *)
Lemma independent1 b n c : (0 < n)%nat -> equal_basis b n -> (forall t, unit_range t -> rsum (size b) (fun i => c i * ev b i t) = 0) -> forall i, (i < size b)%nat -> c i = 0.
Proof.
  intros N E H. destruct (sizes b n N E) as [S1 S2]. assert (V := eb_valid b n E).
  assert (L : forall I, (I < n)%nat -> c I = 0 /\ c (I + 1)%nat = 0 /\ c (I + 2)%nat = 0).
  { intros I LI. destruct (gaps b n N E I LI) as (G1 & G2 & G3). set (k := kn (knots b)) in *.
    assert (X : forall t, k (I + 2)%nat <= t <= k (I + 3)%nat -> c I * ((k (I + 3)%nat - t) * (k (I + 3)%nat - t) / ((k (I + 3)%nat - k (I + 1)%nat) * (k (I + 3)%nat - k (I + 2)%nat))) +
      c (I + 1)%nat * ((t - k (I + 1)%nat) * (k (I + 3)%nat - t) / ((k (I + 3)%nat - k (I + 1)%nat) * (k (I + 3)%nat - k (I + 2)%nat)) + (t - k (I + 2)%nat) * (k (I + 4)%nat - t) / ((k (I + 4)%nat - k (I + 2)%nat) * (k (I + 3)%nat - k (I + 2)%nat))) +
      c (I + 2)%nat * ((t - k (I + 2)%nat) * (t - k (I + 2)%nat) / ((k (I + 4)%nat - k (I + 2)%nat) * (k (I + 3)%nat - k (I + 2)%nat))) = 0).
    { intros t T. assert (C : cell b n I t) by (split; [exact LI|exact T]). assert (U := cell_unit b n N E I t C). specialize (H t U).
      rewrite (window b n c (fun i => ev b i t) I N E LI) in H by (intros i Hi O; apply (outside b n N E I t i C Hi O)). cbn [rsum] in H. rewrite !(cell_ev b n N E I t) in H by (exact C || lia).
      destruct (deg2_pc b V (I + 2) t) as (E0 & E1 & E2); [replace (I + 2 + 1)%nat with (I + 3)%nat by lia; exact G2|lia|lia|].
      replace (I + 2 - 2)%nat with (I + 0)%nat in E0 by lia. replace (I + 2 - 1)%nat with (I + 1)%nat in E0, E1 by lia. replace (I + 2 + 1)%nat with (I + 3)%nat in * by lia. replace (I + 2 + 2)%nat with (I + 4)%nat in * by lia.
      rewrite E0, E1, E2 in H. rewrite Nat.add_0_r in H. rewrite <- H. unfold k. ring. }
    assert (A := X (k (I + 2)%nat) ltac:(lra)). assert (B := X (k (I + 3)%nat) ltac:(lra)). assert (M := X ((k (I + 2)%nat + k (I + 3)%nat) / 2) ltac:(lra)). clear X H.
    revert A B M. generalize (c I) (c (I + 1)%nat) (c (I + 2)%nat). intros x y z.
    set (k1 := k (I + 1)%nat) in *. set (k2 := k (I + 2)%nat) in *. set (k3 := k (I + 3)%nat) in *. set (k4 := k (I + 4)%nat) in *. clearbody k1 k2 k3 k4.
    intros A B M. set (al := (k3 - k2) / (k3 - k1)). set (be := (k3 - k2) / (k4 - k2)).
    assert (AP : 0 < al) by (apply Rdiv_lt_0_compat; lra). assert (BP : 0 < be) by (apply Rdiv_lt_0_compat; lra).
    assert (A' : x * al + y * (1 - al) = 0) by (rewrite <- A; unfold al; field; lra).
    assert (B' : y * (1 - be) + z * be = 0) by (rewrite <- B; unfold be; field; lra).
    assert (M' : x * (al / 4) + y * (1 - al / 4 - be / 4) + z * (be / 4) = 0) by (rewrite <- M; unfold al, be; field; lra).
    assert (Y : y = 0) by lra. subst y. split; [|split; [reflexivity|]]; nra. }
  intros i Hi. destruct (le_lt_dec n i) as [G|G]; [|apply (L i G)]. destruct (L (n - 1)%nat ltac:(lia)) as (_ & A & B).
  destruct (Nat.eq_dec i n) as [-> |D]; [now replace n with (n - 1 + 1)%nat by lia|]. replace i with (n - 1 + 2)%nat by lia. exact B.
Qed.
Section Indep.
Variables (ub vb : basis) (nu nv : nat).
Hypothesis (NU : (0 < nu)%nat) (NV : (0 < nv)%nat) (EU : equal_basis ub nu) (EV : equal_basis vb nv).
Lemma independent x : (forall u v, unit_range u -> unit_range v -> vz ub vb x u v = 0) -> forall c, (c < size ub * size vb)%nat -> x c = 0.
Proof.
  intros H c L. destruct (sizes ub nu NU EU) as [SU _]. assert (P : size ub <> 0%nat) by lia. assert (K : (c / size ub < size vb)%nat) by (apply Nat.div_lt_upper_bound; lia). assert (I := Nat.mod_upper_bound c (size ub) P).
  rewrite (Nat.div_mod c (size ub) P), (Nat.mul_comm (size ub)). revert K I. generalize (c / size ub)%nat (c mod size ub)%nat. intros k i K I.
  apply (independent1 ub nu (fun i => x (k * size ub + i)%nat) NU EU); [|exact I]. intros u U.
  apply (independent1 vb nv (fun k => rsum (size ub) (fun i => x (k * size ub + i)%nat * ev ub i u)) NV EV); [|exact K]. intros v V. now apply H.
Qed.
Lemma constant_value c u v : unit_range u -> unit_range v -> vz ub vb (fun _ => c) u v = c.
Proof.
  intros U V. unfold vz. rewrite (rsum_ext _ _ (fun k => c * ev vb k v)).
  - rewrite rsum_scal, (partition_l vb (eb_valid vb nv EV)); [ring|]. rewrite (eb_dom0 vb nv EV), (eb_dom1 vb nv EV). exact V.
  - intros k _. rewrite rsum_scal, (partition_l ub (eb_valid ub nu EU)); [ring|]. rewrite (eb_dom0 ub nu EU), (eb_dom1 ub nu EU). exact U.
Qed.
(** A surface with these bases and numbers as poles is given by the vector of its poles. *)
Lemma competitor s f : make_surface ub vb (s_poles s) false = Some s -> s_dim s = 1%nat -> (forall u v, unit_range u -> unit_range v -> surface_eval s u v = Some [f u v]) ->
  exists z, forall u v, unit_range u -> unit_range v -> f u v = vz ub vb z u v.
Proof.
  intros M D F. assert (SH : u_basis s = ub /\ v_basis s = vb /\ s_rational s = false).
  { unfold make_surface in M. destruct (_ && _); [|discriminate]. injection M as <-. now repeat split. }
  destruct SH as (BU & BV & BR). assert (M' : make_surface (u_basis s) (v_basis s) (s_poles s) (s_rational s) = Some s) by now rewrite BU, BV, BR. apply make_surface_shape in M' as [L1 L2].
  destruct (sizes ub nu NU EU) as [SU _]. assert (P : size ub <> 0%nat) by lia.
  exists (fun c => spole s (c mod size ub) (c / size ub) 0). intros u v U V. specialize (F u v U V).
  rewrite (surface_eval_l s) in F; try assumption.
  - rewrite D in F. cbn [seq map] in F. injection F as <-. rewrite BU, BV. unfold vz. apply rsum_ext. intros k _. f_equal. apply rsum_ext. intros i I. f_equal.
    rewrite (Nat.add_comm (k * size ub)), Nat.mod_add, Nat.div_add by exact P. rewrite Nat.mod_small, Nat.div_small by exact I. reflexivity.
  - rewrite BU. exact (eb_valid ub nu EU).
  - rewrite BV. exact (eb_valid vb nv EV).
  - rewrite BU, (eb_dom0 ub nu EU), (eb_dom1 ub nu EU). exact U.
  - rewrite BV, (eb_dom0 vb nv EV), (eb_dom1 vb nv EV). exact V.
Qed.
End Indep.

(** Sums over the data. *)
Lemma misfit_sum f uv : forall g, length g = length uv -> misfit f uv g = rsum (length uv) (fun k => (f (fst (nth k uv (0, 0))) (snd (nth k uv (0, 0))) - nth k g 0) * (f (fst (nth k uv (0, 0))) (snd (nth k uv (0, 0))) - nth k g 0)).
Proof. induction uv as [|p uv IH]; intros [|z g] L; try discriminate L; [reflexivity|]. cbn [misfit length]. rewrite rsum_shift. cbn [nth]. rewrite IH by (cbn in L; lia). reflexivity. Qed.
Lemma misfit_ext f g uv : forall d, (forall p, In p uv -> f (fst p) (snd p) = g (fst p) (snd p)) -> misfit f uv d = misfit g uv d.
Proof. induction uv as [|p uv IH]; intros [|z d] H; try reflexivity. cbn [misfit]. rewrite (H p (or_introl eq_refl)), (IH d) by (intros; apply H; now right). reflexivity. Qed.
Lemma rough_ext f g r : (forall u v, unit_range u -> unit_range v -> f u v = g u v) -> roughness f r -> roughness g r.
Proof.
  intros H (Du & Dv & I & F & RI & R). exists Du, Dv, I. split; [|split; assumption]. intros u v U V. destruct (F u v U V) as [A B]. split.
  - apply (deriv_ext unit_range (fun t => f t v)); [exact U| |exact A]. intros y Y. now apply H.
  - apply (deriv_ext unit_range (fun t => f u t)); [exact V| |exact B]. intros y Y. now apply H.
Qed.
Lemma znew_height h l s h1 : znew h l s = Some h1 -> forall u v, z_eval h1 (length h) (u, v) = option_map (fun l => nth 0 l 0) (surface_eval s u v).
Proof.
  unfold znew. destruct (s_dim s =? 1)%nat; [|discriminate]. destruct (quad_of l) as [q|]; [|discriminate]. unfold reset_xy.
  destruct (is_linear q); [destruct (inv _) as [im|]; [|discriminate]|]; intros X; injection X as <-; intros u v; unfold z_eval; rewrite nth_error_app2, Nat.sub_diag by lia; cbn [nth_error fst snd]; unfold obj_z, reset_z, base_z; cbn [have_z z_base];
    destruct (surface_eval s u v); reflexivity.
Qed.
(** What is asked of scipy.sparse.linalg: solver - a vector it returns solves the system; complete - it returns one for every
    regular matrix. *)
Definition solver (la : linalg) : Prop := forall n M r x, spsolve la n M r = Some x -> length x = n /\ forall i, (i < n)%nat -> rsum n (fun c => M i c * nth c x 0) = r i.
Definition complete (la : linalg) : Prop := forall n M r, (forall x, (forall i, (i < n)%nat -> rsum n (fun c => M i c * x c) = 0) -> forall i, (i < n)%nat -> x i = 0) -> exists x, spsolve la n M r = Some x.

Section Core.
Variables (la : linalg) (weight : R) (ub vb : basis) (nu nv : nat) (uv : list pt) (g : list R) (bm am : coo).
Hypothesis (NU : (0 < nu)%nat) (NV : (0 < nv)%nat) (EU : equal_basis ub nu) (EV : equal_basis vb nv).
Hypothesis UV : forall p, In p uv -> 0 <= fst p <= 1 /\ 0 <= snd p <= 1.
Hypothesis LG : length g = length uv.
Hypothesis EB : ls_matrix ub vb uv = Some bm.
Hypothesis EA : reg_matrix ub vb = Some am.
Hypothesis (WP : 0 <= weight) (BP : 0 <= bb_norm la) (AP : 0 < a_norm la).
Let lam := weight * (bb_norm la / a_norm la).
Let n := (size ub * size vb)%nat.
Lemma lam_nonneg : 0 <= lam.
Proof. unfold lam. apply Rmult_le_pos; [exact WP|]. apply Rmult_le_pos; [exact BP|]. apply Rlt_le, Rinv_0_lt_compat, AP. Qed.
Lemma b_value z k : (k < length uv)%nat -> fit n (entry bm) z k = vz ub vb z (fst (nth k uv (0, 0))) (snd (nth k uv (0, 0))).
Proof.
  intros L. destruct (ls_matrix_ok ub vb nu nv NU NV EU EV uv UV) as (m & E & _ & F). rewrite EB in E. injection E as <-. exact (F z k L).
Qed.
Lemma a_value x y : Fit_Matrix.pair n (entry am) x y = total ub vb nu nv x y.
Proof.
  destruct (reg_matrix_ok ub vb nu nv NU NV EU EV) as (m & E & W & F). rewrite EA in E. injection E as <-. unfold Fit_Matrix.pair, total. rewrite <- F. exact (entry_form am n n x y W).
Qed.
Let cst := Fit_Matrix.cost (length uv) n (entry bm) (entry am) lam (fun k => nth k g 0).
Lemma penalised_cost z : penalised (4 * lam) uv g (vz ub vb z) (cst z).
Proof.
  exists (total ub vb nu nv z z / 4). split; [now apply rough_total|]. unfold cst, Fit_Matrix.cost. rewrite a_value, misfit_sum by exact LG.
  replace (4 * lam * (total ub vb nu nv z z / 4)) with (lam * total ub vb nu nv z z) by field. f_equal. apply rsum_ext. intros k L. rewrite (b_value z k L). reflexivity.
Qed.
Lemma penalised_ext f f' x : (forall u v, unit_range u -> unit_range v -> f u v = f' u v) -> penalised (4 * lam) uv g f x -> penalised (4 * lam) uv g f' x.
Proof.
  intros H (r & R & X). exists r. split; [now apply (rough_ext f)|]. rewrite X. f_equal. apply misfit_ext. intros p P. destruct (UV p P). now apply H.
Qed.
Lemma penalised_unique f f' x x' : (forall u v, unit_range u -> unit_range v -> f u v = f' u v) -> penalised (4 * lam) uv g f x -> penalised (4 * lam) uv g f' x' -> x = x'.
Proof.
  intros H (r & R & X) (r' & R' & X'). rewrite X, X', (rough_unique f f' r r' H R R'). f_equal. apply misfit_ext. intros p P. destruct (UV p P). now apply H.
Qed.
Lemma sym x y : Fit_Matrix.pair n (entry am) x y = Fit_Matrix.pair n (entry am) y x.
Proof. rewrite !a_value. apply total_sym. Qed.
Lemma pos x : 0 <= Fit_Matrix.pair n (entry am) x x.
Proof. rewrite a_value. now apply total_nonneg. Qed.
Lemma solution z : solver la -> spsolve la n (system bm am (length uv) lam) (right_side bm g) = Some z ->
  length z = n /\ solves (length uv) n (entry bm) (entry am) lam (fun k => nth k g 0) (fun c => nth c z 0).
Proof.
  intros S E. destruct (S _ _ _ _ E) as [L H]. split; [exact L|]. intros r R. specialize (H r R). unfold right_side in H. rewrite (sum_to_rsum (length g)), LG in H. rewrite <- H. unfold system. apply rsum_ext. intros c _. reflexivity.
Qed.
Lemma least z y : solves (length uv) n (entry bm) (entry am) lam (fun k => nth k g 0) z -> cst z <= cst y.
Proof. intros S. apply cost_least; [exact sym|exact pos|exact lam_nonneg|exact S]. Qed.
Lemma strict z y : 0 < lam -> uv <> [] -> solves (length uv) n (entry bm) (entry am) lam (fun k => nth k g 0) z -> cst y <= cst z -> forall u v, unit_range u -> unit_range v -> vz ub vb y u v = vz ub vb z u v.
Proof.
  intros LP NE S C. assert (G := cost_gap (length uv) n (entry bm) (entry am) lam (fun k => nth k g 0) sym z y S). cbv zeta in G. fold cst in G. set (d := fun i => y i - z i) in *.
  assert (Q := pos d). assert (F := rsum_nonneg (length uv) (fun k => fit n (entry bm) d k * fit n (entry bm) d k) ltac:(intros; nra)).
  assert (P0 : Fit_Matrix.pair n (entry am) d d = 0) by nra. assert (F0 : rsum (length uv) (fun k => fit n (entry bm) d k * fit n (entry bm) d k) = 0) by nra.
  rewrite a_value in P0. assert (CT := total_zero ub vb nu nv NU NV EU EV d P0).
  assert (K0 : (0 < length uv)%nat) by (destruct (length uv) eqn:EQ; [apply length_zero_iff_nil in EQ; contradiction|lia]).
  assert (Z0 := rsum_nonneg_zero _ _ (fun k _ => Rle_0_sqr (fit n (entry bm) d k)) F0 0%nat K0). cbv beta in Z0.
  assert (B0 := b_value d 0%nat K0). destruct (UV (nth 0 uv (0, 0)) (nth_In uv (0, 0) K0)) as [U0 V0].
  assert (Z1 : vz ub vb d 0 0 = 0). { rewrite <- (CT _ _ U0 V0). rewrite <- B0. exact (Rsqr_0_uniq _ Z0). }
  intros u v U V. assert (D := CT u v U V). rewrite Z1 in D. unfold vz in *. unfold d in D.
  rewrite (rsum_ext _ _ (fun k => rsum (size ub) (fun i => y (k * size ub + i)%nat * ev ub i u) * ev vb k v - rsum (size ub) (fun i => z (k * size ub + i)%nat * ev ub i u) * ev vb k v)) in D.
  - rewrite rsum_minus in D. lra.
  - intros k _. rewrite <- Rmult_minus_distr_r, <- rsum_minus. f_equal. apply rsum_ext. intros i _. ring.
Qed.
End Core.
