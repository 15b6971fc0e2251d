(** Sparse matrices, the matrix of values, and the least squares problem of SurfaceApprox. *)
From Coq Require Import List Arith Lia Bool Reals Lra Psatz.
From Verif Require Import Spline_Model Spline_Spec Spline_Piece Spline_Proofs Spline_Curve Fit_Model Fit_Basis.
Import ListNotations.
Local Open Scope R_scope.

Lemma sum_to_rsum n f : sum_to n f = rsum n f.
Proof. induction n as [|n IH]; [reflexivity|]. cbn. now rewrite IH. Qed.
Lemma rsum_minus n f g : rsum n (fun i => f i - g i) = rsum n f - rsum n g.
Proof. induction n as [|n IH]; cbn; [ring|]. rewrite IH. ring. Qed.
Lemma rsum_zero n : rsum n (fun _ => 0) = 0.
Proof. apply rsum_0. reflexivity. Qed.
Lemma rsum_swap n m (f : nat -> nat -> R) : rsum n (fun i => rsum m (f i)) = rsum m (fun j => rsum n (fun i => f i j)).
Proof. induction n as [|n IH]; cbn; [now rewrite rsum_zero|]. rewrite IH, <- rsum_plus. reflexivity. Qed.
Lemma rsum_scal_r n c f : rsum n (fun i => f i * c) = rsum n f * c.
Proof. rewrite Rmult_comm, <- rsum_scal. apply rsum_ext. intros. ring. Qed.
Lemma rsum_nonneg n f : (forall i, (i < n)%nat -> 0 <= f i) -> 0 <= rsum n f.
Proof. intros H. rewrite <- (rsum_zero n). apply rsum_le. exact H. Qed.
Lemma rsum_nonneg_zero n f : (forall i, (i < n)%nat -> 0 <= f i) -> rsum n f = 0 -> forall i, (i < n)%nat -> f i = 0.
Proof.
  induction n as [|n IH]; intros H Z i L; [lia|]. cbn in Z. assert (A := rsum_nonneg n f ltac:(intros; apply H; lia)). assert (B := H n ltac:(lia)).
  destruct (Nat.eq_dec i n) as [-> |D]; [lra|]. apply IH; [intros; apply H; lia|lra|lia].
Qed.

(** A bilinear form: f on rows, g on columns. *)
Definition form (m : coo) (f g : nat -> R) : R := fold_right (fun e s => snd e * f (fst (fst e)) * g (snd (fst e)) + s) 0 m.
Definition within (m : coo) (rows cols : nat) : Prop := forall e, In e m -> (fst (fst e) < rows)%nat /\ (snd (fst e) < cols)%nat.
Lemma form_app m1 m2 f g : form (m1 ++ m2) f g = form m1 f g + form m2 f g.
Proof. unfold form. rewrite fold_right_app. induction m1 as [|e m1 IH]; cbn; [ring|]. rewrite IH. ring. Qed.
Lemma entry_form m rows cols f g : within m rows cols -> rsum rows (fun r => rsum cols (fun c => entry m r c * f r * g c)) = form m f g.
Proof.
  induction m as [|[[r0 c0] d] m IH]; intros W.
  - cbn. apply rsum_0. intros r _. apply rsum_0. intros c _. ring.
  - assert (W' : within m rows cols) by (intros e I; apply W; now right). destruct (W (r0, c0, d) (or_introl eq_refl)) as [A B]. cbn in A, B.
    transitivity (rsum rows (fun r => if (r =? r0)%nat then rsum cols (fun c => if (c =? c0)%nat then d * f r * g c else 0) else 0) + rsum rows (fun r => rsum cols (fun c => entry m r c * f r * g c))).
    + rewrite <- rsum_plus. apply rsum_ext. intros r _. destruct (Nat.eqb_spec r r0) as [-> |N].
      * rewrite <- rsum_plus. apply rsum_ext. intros c _. cbn. fold (entry m r0 c). rewrite Nat.eqb_refl, (Nat.eqb_sym c0 c). cbn. destruct (c =? c0)%nat; ring.
      * rewrite Rplus_0_l. apply rsum_ext. intros c _. cbn. fold (entry m r c). destruct (Nat.eqb_spec r0 r); [congruence|]. cbn. reflexivity.
    + rewrite (IH W'). rewrite (rsum_delta rows r0 (fun r => rsum cols (fun c => if (c =? c0)%nat then d * f r * g c else 0)) A), (rsum_delta cols c0 (fun c => d * f r0 * g c) B). cbn. fold (form m f g). ring.
Qed.
Definition unit_at (k : nat) (r : nat) : R := if (r =? k)%nat then 1 else 0.
Lemma row_form m rows cols k g : within m rows cols -> (k < rows)%nat -> rsum cols (fun c => entry m k c * g c) = form m (unit_at k) g.
Proof.
  intros W L. rewrite <- (entry_form m rows cols (unit_at k) g W). rewrite <- (rsum_delta rows k (fun r => rsum cols (fun c => entry m r c * g c)) L).
  apply rsum_ext. intros r _. unfold unit_at. destruct (Nat.eqb_spec r k) as [-> |N].
  - apply rsum_ext. intros c _. ring.
  - symmetry. apply rsum_0. intros c _. ring.
Qed.
Lemma sparse_some m rows cols : within m rows cols -> sparse m rows cols = Some m.
Proof.
  intros W. unfold sparse. replace (forallb _ m) with true; [reflexivity|]. symmetry. apply forallb_forall. intros e I. destruct (W e I) as [A B].
  apply andb_true_intro. split; now apply Nat.ltb_lt.
Qed.

(** Least squares. *)
Section Least.
Variables (rows n : nat) (B A : nat -> nat -> R) (lam : R) (g : nat -> R).
Definition fit (z : nat -> R) (k : nat) : R := rsum n (fun c => B k c * z c).
Definition pair (x y : nat -> R) : R := rsum n (fun r => rsum n (fun c => A r c * x r * y c)).
Definition cost (z : nat -> R) : R := rsum rows (fun k => (fit z k - g k) * (fit z k - g k)) + lam * pair z z.
Hypothesis SYM : forall x y, pair x y = pair y x.
Hypothesis POS : forall x, 0 <= pair x x.
Hypothesis LAM : 0 <= lam.
Definition solves (z : nat -> R) : Prop :=
  forall r, (r < n)%nat -> rsum n (fun c => (rsum rows (fun k => B k r * B k c) + lam * A r c) * z c) = rsum rows (fun k => B k r * g k).
Lemma solves_weak z d : solves z -> rsum rows (fun k => fit d k * (fit z k - g k)) + lam * pair d z = 0.
Proof.
  intros S. assert (H : rsum n (fun r => d r * (rsum n (fun c => (rsum rows (fun k => B k r * B k c) + lam * A r c) * z c) - rsum rows (fun k => B k r * g k))) = 0).
  { apply rsum_0. intros r L. rewrite (S r L). ring. }
  rewrite <- H. clear H S. transitivity (rsum n (fun r => rsum rows (fun k => d r * B k r * (fit z k - g k)) + lam * rsum n (fun c => A r c * d r * z c))).
  - rewrite rsum_plus, rsum_scal. f_equal. rewrite rsum_swap. apply rsum_ext. intros k _. unfold fit at 1. rewrite <- rsum_scal_r. apply rsum_ext. intros. ring.
  - apply rsum_ext. intros r _. transitivity (d r * (rsum rows (fun k => B k r * (fit z k - g k)) + lam * rsum n (fun c => A r c * z c))).
    + rewrite Rmult_plus_distr_l. f_equal; [rewrite <- rsum_scal; apply rsum_ext; intros; ring|]. rewrite <- !rsum_scal. apply rsum_ext. intros. ring.
    + f_equal. transitivity (rsum n (fun c => rsum rows (fun k => B k r * B k c) * z c) + lam * rsum n (fun c => A r c * z c) - rsum rows (fun k => B k r * g k)).
      * assert (X : rsum rows (fun k => B k r * (fit z k - g k)) = rsum n (fun c => rsum rows (fun k => B k r * B k c) * z c) - rsum rows (fun k => B k r * g k)); [|rewrite X; ring].
        transitivity (rsum rows (fun k => B k r * fit z k) - rsum rows (fun k => B k r * g k)).
        { rewrite <- rsum_minus. apply rsum_ext. intros. ring. }
        f_equal. unfold fit. rewrite (rsum_ext rows _ (fun k => rsum n (fun c => B k r * B k c * z c))) by (intros k _; rewrite <- rsum_scal; apply rsum_ext; intros; ring).
        rewrite rsum_swap. apply rsum_ext. intros c _. rewrite <- rsum_scal_r. apply rsum_ext. intros; ring.
      * f_equal. rewrite <- rsum_scal, <- rsum_plus. apply rsum_ext. intros. ring.
Qed.
Lemma fit_lin x y s k : fit (fun i => x i + s * y i) k = fit x k + s * fit y k.
Proof. unfold fit. rewrite <- rsum_scal, <- rsum_plus. apply rsum_ext. intros. ring. Qed.
Lemma pair_lin x y s w : pair (fun i => x i + s * y i) w = pair x w + s * pair y w.
Proof.
  unfold pair. rewrite <- rsum_scal, <- rsum_plus. apply rsum_ext. intros r _. rewrite <- rsum_scal, <- rsum_plus. apply rsum_ext. intros. ring.
Qed.
Lemma fit_ext x y k : (forall i, (i < n)%nat -> x i = y i) -> fit x k = fit y k.
Proof. intros H. unfold fit. apply rsum_ext. intros i L. now rewrite H. Qed.
Lemma pair_ext x y x' y' : (forall i, (i < n)%nat -> x i = x' i) -> (forall i, (i < n)%nat -> y i = y' i) -> pair x y = pair x' y'.
Proof. intros H H'. unfold pair. apply rsum_ext. intros r L. apply rsum_ext. intros c M. now rewrite H, H'. Qed.
Lemma cost_gap z y : solves z -> let d i := y i - z i in cost y = cost z + rsum rows (fun k => fit d k * fit d k) + lam * pair d d.
Proof.
  intros S d. assert (W := solves_weak z d S). assert (D : forall i, (i < n)%nat -> y i = z i + 1 * d i) by (intros i _; unfold d; ring).
  assert (F : forall k, fit y k = fit z k + fit d k). { intros k. rewrite (fit_ext y _ k D), fit_lin. ring. }
  assert (P : pair y y = pair z z + 2 * pair d z + pair d d).
  { rewrite (pair_ext y y _ _ D D), pair_lin. rewrite (SYM z), (SYM d (fun i => z i + 1 * d i)), !pair_lin, (SYM z d). ring. }
  unfold cost. rewrite P. transitivity (rsum rows (fun k => (fit z k - g k) * (fit z k - g k)) + 2 * rsum rows (fun k => fit d k * (fit z k - g k)) + rsum rows (fun k => fit d k * fit d k) + lam * (pair z z + 2 * pair d z + pair d d)); [|lra].
  f_equal. rewrite <- rsum_scal, <- !rsum_plus. apply rsum_ext. intros k _. rewrite F. ring.
Qed.
Lemma cost_least z y : solves z -> cost z <= cost y.
Proof.
  intros S. rewrite (cost_gap z y S). set (d := fun i => y i - z i). assert (H := rsum_nonneg rows (fun k => fit d k * fit d k) ltac:(intros; nra)). assert (Q := POS d). nra.
Qed.
End Least.

Lemma window (b : basis) n (f g : nat -> R) I : (0 < n)%nat -> equal_basis b n -> (I < n)%nat -> (forall i, (i < size b)%nat -> (i < I \/ I + 2 < i)%nat -> g i = 0) ->
  rsum (size b) (fun i => f i * g i) = rsum 3 (fun r => f (I + r)%nat * g (I + r)%nat).
Proof.
  intros Np E L Z. destruct (sizes b n Np E) as [S1 _]. apply (rsum_window (size b) I 3 (fun i => f i * g i)); [lia|]. intros i H1 H2. rewrite Z; [ring|exact H1|lia].
Qed.
(** The matrix of values. *)
Section Values.
Variables (ub vb : basis) (nu nv : nat).
Hypothesis (NU : (0 < nu)%nat) (NV : (0 < nv)%nat) (EU : equal_basis ub nu) (EV : equal_basis vb nv).
Definition vz (z : nat -> R) (u v : R) : R := rsum (size vb) (fun k => rsum (size ub) (fun i => z (k * size ub + i)%nat * ev ub i u) * ev vb k v).
Lemma ls_row_ok idx u v : 0 <= u <= 1 -> 0 <= v <= 1 -> exists m, ls_row ub vb idx (u, v) = Some m /\
  (forall e, In e m -> fst (fst e) = idx /\ (snd (fst e) < size ub * size vb)%nat) /\ forall f z, form m f z = f idx * vz z u v.
Proof.
  intros U V. destruct (cell_of ub nu NU EU u U) as (iu & CU & FU). destruct (cell_of vb nv NV EV v V) as (iv & CV & FV).
  destruct (sizes ub nu NU EU) as [SU _]. destruct (sizes vb nv NV EV) as [SV _]. assert (LU := proj1 CU). assert (LV := proj1 CV).
  unfold ls_row. cbn [fst snd]. rewrite FU, FV, (base_vec ub nu NU EU iu u CU), (base_vec vb nv NV EV iv v CV). eexists. split; [reflexivity|]. split.
  - intros e I. apply in_flat_map in I as (a & A & I). apply in_map_iff in I as (c & <- & Cc). apply in_seq in A, Cc. cbn [fst snd]. split; [reflexivity|].
    assert (X : (iv + a + 1 <= size vb)%nat) by lia. assert (Y : (iu + c < size ub)%nat) by lia. nia.
  - intros f z. unfold vz. rewrite (window vb nv (fun k => rsum (size ub) (fun i => z (k * size ub + i)%nat * ev ub i u)) (fun k => ev vb k v) iv NV EV LV) by (intros i Hi O; apply (outside vb nv NV EV iv v i CV Hi O)).
    rewrite (rsum_ext 3 _ (fun r => rsum 3 (fun s => z ((iv + r) * size ub + (iu + s))%nat * ev ub (iu + s) u) * ev vb (iv + r) v)).
    + cbn [seq flat_map map app nth form fold_right fst snd rsum]. rewrite !Nat.add_assoc. ring.
    + intros r _. f_equal. apply (window ub nu (fun i => z ((iv + r) * size ub + i)%nat) (fun i => ev ub i u) iu NU EU LU). intros i Hi O. apply (outside ub nu NU EU iu u i CU Hi O).
Qed.
Lemma ls_rows_ok uv : (forall p, In p uv -> 0 <= fst p <= 1 /\ 0 <= snd p <= 1) -> forall idx, exists m, ls_rows ub vb idx uv = Some m /\
  (forall e, In e m -> (idx <= fst (fst e) < idx + length uv)%nat /\ (snd (fst e) < size ub * size vb)%nat) /\
  forall f z, form m f z = rsum (length uv) (fun k => f (idx + k)%nat * vz z (fst (nth k uv (0, 0))) (snd (nth k uv (0, 0)))).
Proof.
  induction uv as [|[u v] uv IH]; intros H idx; cbn [ls_rows].
  - exists []. split; [reflexivity|]. split; [intros e []|]. reflexivity.
  - destruct (H (u, v) (or_introl eq_refl)) as [U V]. cbn in U, V. destruct (ls_row_ok idx u v U V) as (m1 & E1 & I1 & F1).
    destruct (IH (fun p Q => H p (or_intror Q)) (S idx)) as (m2 & E2 & I2 & F2). rewrite E1, E2. exists (m1 ++ m2). split; [reflexivity|]. split.
    + intros e I. apply in_app_or in I as [I|I]; [destruct (I1 e I) as [-> X]|destruct (I2 e I) as [Y X]]; cbn [length]; lia.
    + intros f z. rewrite form_app, F1, F2. cbn [length]. rewrite rsum_shift. cbn [nth fst snd]. f_equal; [now rewrite Nat.add_0_r|]. apply rsum_ext. intros k _. now rewrite <- plus_n_Sm.
Qed.
Lemma ls_matrix_ok uv : (forall p, In p uv -> 0 <= fst p <= 1 /\ 0 <= snd p <= 1) -> exists m, ls_matrix ub vb uv = Some m /\ within m (length uv) (size ub * size vb) /\
  forall z k, (k < length uv)%nat -> rsum (size ub * size vb) (fun c => entry m k c * z c) = vz z (fst (nth k uv (0, 0))) (snd (nth k uv (0, 0))).
Proof.
  intros H. destruct (ls_rows_ok uv H 0) as (m & E & I & F). exists m. assert (W : within m (length uv) (size ub * size vb)) by (intros e J; destruct (I e J); split; lia).
  unfold ls_matrix. rewrite E. split; [exact (sparse_some m _ _ W)|]. split; [exact W|]. intros z k L. rewrite (row_form m (length uv) _ k z W L), F.
  rewrite <- (rsum_delta (length uv) k (fun k => vz z (fst (nth k uv (0, 0))) (snd (nth k uv (0, 0)))) L). apply rsum_ext. intros i _. unfold unit_at. cbn. destruct (Nat.eqb_spec i k); [subst; ring|ring].
Qed.
Lemma pole_nth z i k : (i < size ub)%nat -> (k < size vb)%nat -> nth 0 (nth k (nth i (poles_of ub vb z) []) []) 0 = nth (k * size ub + i) z 0.
Proof.
  intros I K. unfold poles_of. rewrite (nth_map_lt _ _ i [] 0%nat) by (rewrite seq_length; exact I). rewrite seq_nth by exact I.
  rewrite (nth_map_lt _ _ k [] 0%nat) by (rewrite seq_length; exact K). rewrite seq_nth by exact K. reflexivity.
Qed.
Lemma make_poles z : exists s, make_surface ub vb (poles_of ub vb z) false = Some s /\ s = Surface ub vb (poles_of ub vb z) false /\ s_dim s = 1%nat /\
  forall u v, 0 <= u <= 1 -> 0 <= v <= 1 -> surface_eval s u v = Some [vz (fun c => nth c z 0) u v].
Proof.
  destruct (sizes ub nu NU EU) as [SU _]. destruct (sizes vb nv NV EV) as [SV _]. unfold make_surface.
  assert (L1 : length (poles_of ub vb z) = size ub) by (unfold poles_of; now rewrite map_length, seq_length).
  assert (L2 : forall r, In r (poles_of ub vb z) -> length r = size vb). { intros r I. apply in_map_iff in I as (i & <- & _). now rewrite map_length, seq_length. }
  rewrite L1, Nat.eqb_refl. replace (forallb _ _) with true by (symmetry; apply forallb_forall; intros r I; rewrite (L2 r I); apply Nat.eqb_refl). cbn [andb].
  eexists. split; [reflexivity|]. split; [reflexivity|]. assert (SD : s_dim (Surface ub vb (poles_of ub vb z) false) = 1%nat).
  { unfold s_dim. cbn [s_poles s_rational rat_cols]. unfold poles_of. rewrite SU, SV. replace (nu + 2)%nat with (S (nu + 1)) by lia. replace (nv + 2)%nat with (S (nv + 1)) by lia. reflexivity. }
  split; [exact SD|]. intros u v U V. rewrite (surface_eval_l (Surface ub vb (poles_of ub vb z) false) (eb_valid ub nu EU) (eb_valid vb nv EV) L1 L2 u v); [|cbn [u_basis]; rewrite (eb_dom0 ub nu EU), (eb_dom1 ub nu EU); exact U|cbn [v_basis]; rewrite (eb_dom0 vb nv EV), (eb_dom1 vb nv EV); exact V|reflexivity].
  rewrite SD. cbn [seq map u_basis v_basis]. f_equal. f_equal. unfold vz. apply rsum_ext. intros k K. f_equal. apply rsum_ext. intros i I. f_equal. unfold spole. cbn [s_poles]. now apply pole_nth.
Qed.
End Values.
