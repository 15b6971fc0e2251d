(** The regularisation matrix as a quadratic form. *)
From Coq Require Import List Arith Lia Bool Reals Lra Psatz.
From Verif Require Import Spline_Model Spline_Spec Spline_Piece Spline_Proofs Spline_Curve Fit_Model Fit_Basis Fit_Matrix.
Import ListNotations.
Local Open Scope R_scope.

Definition sum4 (F : nat -> nat -> nat -> nat -> R) : R := rsum 3 (fun a => rsum 3 (fun b => rsum 3 (fun c => rsum 3 (fun d => F a b c d)))).
Lemma sum4_ext F G : (forall a b c d, F a b c d = G a b c d) -> sum4 F = sum4 G.
Proof. intros H. unfold sum4. do 4 (apply rsum_ext; intros ? _). apply H. Qed.
Lemma sum4_plus F G : sum4 (fun a b c d => F a b c d + G a b c d) = sum4 F + sum4 G.
Proof.
  unfold sum4. rewrite <- rsum_plus. apply rsum_ext. intros a _. rewrite <- rsum_plus. apply rsum_ext. intros b _. rewrite <- rsum_plus. apply rsum_ext. intros c _. now rewrite <- rsum_plus.
Qed.
Lemma sum4_scal k F : sum4 (fun a b c d => k * F a b c d) = k * sum4 F.
Proof.
  unfold sum4. rewrite <- rsum_scal. apply rsum_ext. intros a _. rewrite <- rsum_scal. apply rsum_ext. intros b _. rewrite <- rsum_scal. apply rsum_ext. intros c _. now rewrite <- rsum_scal.
Qed.
Lemma sum4_zero : sum4 (fun _ _ _ _ => 0) = 0.
Proof. unfold sum4. do 3 (apply rsum_0; intros ? _). apply rsum_zero. Qed.
Lemma sum4_sum m (F : nat -> nat -> nat -> nat -> nat -> R) : sum4 (fun a b c d => rsum m (fun p => F p a b c d)) = rsum m (fun p => sum4 (F p)).
Proof. induction m as [|m IH]; cbn [rsum]; [apply sum4_zero|]. rewrite <- IH. apply sum4_plus. Qed.
Definition tensor (al be : nat -> R) (x : nat -> nat -> R) : R := rsum 3 (fun c => rsum 3 (fun d => x c d * be d) * al c).
Lemma sum4_tensor al be x y : sum4 (fun a b c d => (al a * al c) * (be b * be d) * x c d * y a b) = tensor al be x * tensor al be y.
Proof.
  transitivity (rsum 3 (fun a => rsum 3 (fun b => y a b * be b * al a * tensor al be x))).
  - unfold sum4. apply rsum_ext. intros a _. apply rsum_ext. intros b _. unfold tensor. rewrite <- rsum_scal. apply rsum_ext. intros c _.
    transitivity (y a b * be b * al a * al c * rsum 3 (fun d => x c d * be d)); [|ring]. rewrite <- rsum_scal. apply rsum_ext. intros d _. ring.
  - unfold tensor at 3. rewrite <- rsum_scal. apply rsum_ext. intros a _. rewrite <- rsum_scal_r, <- rsum_scal. apply rsum_ext. intros b _. ring.
Qed.
Lemma forms m (w : nat -> R) (al be : nat -> nat -> R) x y :
  sum4 (fun a b c d => rsum m (fun q => w q * al q a * al q c) * rsum m (fun p => w p * be p b * be p d) * x c d * y a b) =
  rsum m (fun p => rsum m (fun q => w p * w q * (tensor (al q) (be p) x * tensor (al q) (be p) y))).
Proof.
  rewrite (sum4_ext _ (fun a b c d => rsum m (fun p => rsum m (fun q => w p * w q * ((al q a * al q c) * (be p b * be p d) * x c d * y a b))))).
  - rewrite sum4_sum. apply rsum_ext. intros p _. rewrite sum4_sum. apply rsum_ext. intros q _. now rewrite sum4_scal, sum4_tensor.
  - intros a b c d. set (A := rsum m (fun q => w q * al q a * al q c)).
    transitivity (A * x c d * y a b * rsum m (fun p => w p * be p b * be p d)); [ring|]. rewrite <- rsum_scal. apply rsum_ext. intros p _.
    transitivity (w p * be p b * be p d * x c d * y a b * A); [ring|]. unfold A. rewrite <- rsum_scal. apply rsum_ext. intros q _. ring.
Qed.
Lemma form_flat n (F : nat -> coo) f g : form (flat_map F (seq 0 n)) f g = rsum n (fun i => form (F i) f g).
Proof.
  assert (H : forall s, form (flat_map F (seq s n)) f g = rsum n (fun i => form (F (s + i)%nat) f g)).
  { induction n as [|n IH]; intros s; [reflexivity|]. cbn [seq flat_map]. rewrite form_app, IH, rsum_shift. rewrite Nat.add_0_r. f_equal. apply rsum_ext. intros i _. now rewrite <- plus_n_Sm. }
  apply (H 0%nat).
Qed.
Lemma form_map n (F : nat -> nat * nat * R) f g : form (map F (seq 0 n)) f g = rsum n (fun i => snd (F i) * f (fst (fst (F i))) * g (snd (fst (F i)))).
Proof.
  assert (H : forall s, form (map F (seq s n)) f g = rsum n (fun i => snd (F (s + i)%nat) * f (fst (fst (F (s + i)%nat))) * g (snd (fst (F (s + i)%nat))))).
  { induction n as [|n IH]; intros s; [reflexivity|]. cbn [seq map]. rewrite rsum_shift. rewrite Nat.add_0_r. cbn [form fold_right]. f_equal. fold (form (map F (seq (S s) n)) f g). rewrite IH. apply rsum_ext. intros i _. now rewrite <- plus_n_Sm. }
  apply (H 0%nat).
Qed.

(** Places and weights of the quadrature. *)
Definition qp (j : nat) : R := nth j q_points 0.
Definition qw (j : nat) : R := nth j q_weights 0.
Lemma root20 : 0 < 1 / sqrt 20 < 1 / 2.
Proof.
  assert (S : 2 < sqrt 20). { rewrite <- (sqrt_square 2) by lra. apply sqrt_lt_1; lra. }
  split; [apply Rdiv_lt_0_compat; lra|]. apply Rmult_lt_reg_r with (sqrt 20); [lra|]. unfold Rdiv. rewrite Rmult_assoc, Rinv_l by lra. lra.
Qed.
Lemma qp_unit j : 0 <= qp j <= 1.
Proof. assert (H := root20). unfold qp, q_points. destruct j as [|[|[|[|j]]]]; cbn; try lra. destruct j; lra. Qed.
Lemma qw_pos j : (j < 4)%nat -> 0 < qw j.
Proof. intros L. unfold qw, q_weights. destruct j as [|[|[|[|j]]]]; cbn; try lra. lia. Qed.
Lemma all_some_some {A B} (f : A -> option B) g l : (forall x, In x l -> f x = Some (g x)) -> all_some (map f l) = Some (map g l).
Proof. induction l as [|x l IH]; intros H; [reflexivity|]. cbn. rewrite H by now left. rewrite IH by (intros y Y; apply H; now right). reflexivity. Qed.
Definition node (b : basis) (i j : nat) : R := kn (knots b) (i + 2) + (kn (knots b) (i + 3) - kn (knots b) (i + 2)) * qp j.
Lemma node_cell b n i j : (0 < n)%nat -> equal_basis b n -> (i < n)%nat -> cell b n i (node b i j).
Proof. intros N E L. split; [exact L|]. destruct (gaps b n N E i L) as (_ & G & _). assert (Q := qp_unit j). unfold node. nra. Qed.
Lemma q_vectors_ok f g b i : (forall j, f b i (node b i j) = Some (map (fun r => g (i + r)%nat (node b i j)) (seq 0 3))) ->
  exists l, q_vectors f b i = Some l /\ forall a c, (a < 3)%nat -> (c < 3)%nat -> outer_sum l a c = rsum 4 (fun j => qw j * g (i + a)%nat (node b i j) * g (i + c)%nat (node b i j)).
Proof.
  intros H. unfold q_vectors. set (l := map (fun q => map (fun r => g (i + r)%nat (kn (knots b) (i + 2) + (kn (knots b) (i + 3) - kn (knots b) (i + 2)) * q)) (seq 0 3)) q_points).
  exists l. split.
  - unfold l. apply all_some_some. intros x I. apply (In_nth _ _ 0) in I as (j & _ & <-). exact (H j).
  - intros a c A C. assert (T : forall h, nth a (map h (seq 0 3)) 0 = h a) by (intros h; destruct a as [|[|[|a]]]; [reflexivity|reflexivity|reflexivity|lia]).
    assert (T' : forall h, nth c (map h (seq 0 3)) 0 = h c) by (intros h; destruct c as [|[|[|c]]]; [reflexivity|reflexivity|reflexivity|lia]).
    unfold outer_sum, l, q_points. cbn [map]. rewrite !T, !T'. unfold q_weights. cbn [inner rsum]. unfold node, qw, qp, q_points, q_weights. cbn [nth]. ring.
Qed.

Section Reg.
Variables (ub vb : basis) (nu nv : nat).
Hypothesis (NU : (0 < nu)%nat) (NV : (0 < nv)%nat) (EU : equal_basis ub nu) (EV : equal_basis vb nv).
(** The two derivatives of the surface with the poles z. *)
Definition vdu (z : nat -> R) (u v : R) : R := rsum (size vb) (fun k => rsum (size ub) (fun i => z (k * size ub + i)%nat * dev ub i u) * ev vb k v).
Definition vdv (z : nat -> R) (u v : R) : R := rsum (size vb) (fun k => rsum (size ub) (fun i => z (k * size ub + i)%nat * ev ub i u) * dev vb k v).
Lemma local_sum (f g : nat -> R -> R) z iu iv u v : cell ub nu iu u -> cell vb nv iv v ->
  (forall i, (i < size ub)%nat -> (i < iu \/ iu + 2 < i)%nat -> f i u = 0) -> (forall i, (i < size vb)%nat -> (i < iv \/ iv + 2 < i)%nat -> g i v = 0) ->
  tensor (fun c => g (iv + c)%nat v) (fun d => f (iu + d)%nat u) (fun c d => z ((iu + iv * size ub) + (size ub * c + d))%nat) =
  rsum (size vb) (fun k => rsum (size ub) (fun i => z (k * size ub + i)%nat * f i u) * g k v).
Proof.
  intros CU CV ZF ZG. rewrite (window vb nv (fun k => rsum (size ub) (fun i => z (k * size ub + i)%nat * f i u)) (fun k => g k v) iv NV EV (proj1 CV) ZG).
  unfold tensor. apply rsum_ext. intros c _. f_equal. rewrite (window ub nu (fun i => z ((iv + c) * size ub + i)%nat) (fun i => f i u) iu NU EU (proj1 CU) ZF).
  apply rsum_ext. intros d _. f_equal. f_equal. ring.
Qed.
Definition both (x y : nat -> R) (u v : R) : R := vdu x u v * vdu y u v + vdv x u v * vdv y u v.
Definition block_sum (iu iv : nat) (x y : nat -> R) : R := 1 / INR nu / INR nv * rsum 4 (fun p => rsum 4 (fun q => qw p * qw q * both x y (node ub iu p) (node vb iv q))).
Lemma reg_block_ok iu iv : (iu < nu)%nat -> (iv < nv)%nat -> exists m, reg_block ub vb iu iv = Some m /\ within m (size ub * size vb) (size ub * size vb) /\
  forall x y, form m x y = block_sum iu iv x y.
Proof.
  intros LU LV. destruct (sizes ub nu NU EU) as [SU _]. destruct (sizes vb nv NV EV) as [SV _].
  assert (CU : forall j, cell ub nu iu (node ub iu j)) by (intros; now apply node_cell). assert (CV : forall j, cell vb nv iv (node vb iv j)) by (intros; now apply node_cell).
  destruct (q_vectors_ok base_vector (ev ub) ub iu) as (lu & Eu & Ou); [intros j; now apply (base_vec ub nu)|].
  destruct (q_vectors_ok diff_base_vector (dev ub) ub iu) as (du & Edu & Odu); [intros j; now apply (diff_vec ub nu)|].
  destruct (q_vectors_ok base_vector (ev vb) vb iv) as (lv & Ev & Ov); [intros j; now apply (base_vec vb nv)|].
  destruct (q_vectors_ok diff_base_vector (dev vb) vb iv) as (dv & Edv & Odv); [intros j; now apply (diff_vec vb nv)|].
  unfold reg_block. rewrite Eu, Edu, Ev, Edv. cbv zeta. eexists. split; [reflexivity|]. split.
  - assert (B : forall a c, (a < 3)%nat -> (c < 3)%nat -> (iu + iv * size ub + (size ub * a + c) < size ub * size vb)%nat).
    { intros a c A C. assert (X : (iv + a + 1 <= size vb)%nat) by lia. assert (Y : (iu + c < size ub)%nat) by lia. nia. }
    intros e I. apply in_flat_map in I as (a & A & I). apply in_flat_map in I as (b & B1 & I). apply in_flat_map in I as (c & C & I). apply in_map_iff in I as (d & <- & D). apply in_seq in A, B1, C, D. cbn [fst snd]. split; apply B; lia.
  - intros x y. rewrite (eb_n ub nu EU), (eb_n vb nv EV). rewrite form_flat.
    set (X := fun c d => x (iu + iv * size ub + (size ub * c + d))%nat). set (Y := fun c d => y (iu + iv * size ub + (size ub * c + d))%nat). set (jac := 1 / INR nu / INR nv).
    transitivity (sum4 (fun a b c d => jac * (rsum 4 (fun q => qw q * ev vb (iv + a) (node vb iv q) * ev vb (iv + c) (node vb iv q)) * rsum 4 (fun p => qw p * dev ub (iu + b) (node ub iu p) * dev ub (iu + d) (node ub iu p)) * X c d * Y a b
                                          + rsum 4 (fun q => qw q * dev vb (iv + a) (node vb iv q) * dev vb (iv + c) (node vb iv q)) * rsum 4 (fun p => qw p * ev ub (iu + b) (node ub iu p) * ev ub (iu + d) (node ub iu p)) * X c d * Y a b))).
    + unfold sum4. apply rsum_ext. intros a A. rewrite form_flat. apply rsum_ext. intros b B. rewrite form_flat. apply rsum_ext. intros c C. rewrite form_map. apply rsum_ext. intros d D. cbn [fst snd].
      rewrite Ou, Odu, Ov, Odv by assumption. unfold X, Y, jac. ring.
    + rewrite sum4_scal, sum4_plus. rewrite (forms 4 qw (fun q c => ev vb (iv + c) (node vb iv q)) (fun p d => dev ub (iu + d) (node ub iu p)) X Y).
      rewrite (forms 4 qw (fun q c => dev vb (iv + c) (node vb iv q)) (fun p d => ev ub (iu + d) (node ub iu p)) X Y).
      unfold block_sum. fold jac. f_equal. rewrite <- rsum_plus. apply rsum_ext. intros p _. rewrite <- rsum_plus. apply rsum_ext. intros q _. rewrite <- Rmult_plus_distr_l. f_equal. unfold both, X, Y.
      assert (ZU : forall i, (i < size ub)%nat -> (i < iu \/ iu + 2 < i)%nat -> ev ub i (node ub iu p) = 0 /\ dev ub i (node ub iu p) = 0) by (intros i Hi O; exact (outside ub nu NU EU iu _ i (CU p) Hi O)).
      assert (ZV : forall i, (i < size vb)%nat -> (i < iv \/ iv + 2 < i)%nat -> ev vb i (node vb iv q) = 0 /\ dev vb i (node vb iv q) = 0) by (intros i Hi O; exact (outside vb nv NV EV iv _ i (CV q) Hi O)).
      assert (P1 := fun z => local_sum (dev ub) (ev vb) z iu iv _ _ (CU p) (CV q) (fun i Hi O => proj2 (ZU i Hi O)) (fun i Hi O => proj1 (ZV i Hi O))).
      assert (P2 := fun z => local_sum (ev ub) (dev vb) z iu iv _ _ (CU p) (CV q) (fun i Hi O => proj1 (ZU i Hi O)) (fun i Hi O => proj2 (ZV i Hi O))).
      cbv beta in *. rewrite !P1, !P2. reflexivity.
Qed.
Lemma reg_matrix_ok : exists m, reg_matrix ub vb = Some m /\ within m (size ub * size vb) (size ub * size vb) /\
  forall x y, form m x y = rsum nv (fun iv => rsum nu (fun iu => block_sum iu iv x y)).
Proof.
  set (blk := fun iu iv => match reg_block ub vb iu iv with Some m => m | None => [] end).
  assert (B : forall iu iv, (iu < nu)%nat -> (iv < nv)%nat -> reg_block ub vb iu iv = Some (blk iu iv)) by (intros iu iv L1 L2; unfold blk; destruct (reg_block_ok iu iv L1 L2) as (m & -> & _); reflexivity).
  assert (F : forall l, (forall iv, In iv l -> (iv < nv)%nat) -> all_some (flat_map (fun iv => map (fun iu => reg_block ub vb iu iv) (seq 0 nu)) l) = Some (flat_map (fun iv => map (fun iu => blk iu iv) (seq 0 nu)) l)).
  { assert (AA : forall (l1 : list (option coo)) k1 l2 k2, all_some l1 = Some k1 -> all_some l2 = Some k2 -> all_some (l1 ++ l2) = Some (k1 ++ k2)).
    { induction l1 as [|o l1 IH]; intros k1 l2 k2 E1 E2; [cbn in E1; injection E1 as <-; exact E2|]. cbn in *. destruct o as [a|]; [|discriminate]. destruct (all_some l1) as [k|]; [|discriminate]. injection E1 as <-. now rewrite (IH k l2 k2 eq_refl E2). }
    induction l as [|iv l IH]; intros H; [reflexivity|]. cbn [flat_map]. apply AA; [|apply IH; intros; apply H; now right]. apply all_some_some. intros iu I. apply in_seq in I. apply B; [lia|]. apply H. now left. }
  unfold reg_matrix. rewrite (eb_n ub nu EU), (eb_n vb nv EV). rewrite F by (intros iv I; apply in_seq in I; lia).
  assert (CC : concat (flat_map (fun iv => map (fun iu => blk iu iv) (seq 0 nu)) (seq 0 nv)) = flat_map (fun iv => flat_map (fun iu => blk iu iv) (seq 0 nu)) (seq 0 nv)).
  { induction (seq 0 nv) as [|iv l IH]; [reflexivity|]. cbn [flat_map]. rewrite concat_app, IH. f_equal. now rewrite flat_map_concat_map. }
  rewrite CC. assert (W : within (flat_map (fun iv => flat_map (fun iu => blk iu iv) (seq 0 nu)) (seq 0 nv)) (size ub * size vb) (size ub * size vb)).
  { intros e I. apply in_flat_map in I as (iv & V & I). apply in_flat_map in I as (iu & U & I). apply in_seq in U, V. destruct (reg_block_ok iu iv ltac:(lia) ltac:(lia)) as (m & E & Wm & _). unfold blk in I. rewrite E in I. apply Wm. exact I. }
  eexists. split; [exact (sparse_some _ _ _ W)|]. split; [exact W|]. intros x y. rewrite form_flat. apply rsum_ext. intros iv V. rewrite form_flat. apply rsum_ext. intros iu U.
  destruct (reg_block_ok iu iv U V) as (m & E & _ & Fm). unfold blk. rewrite E. apply Fm.
Qed.
End Reg.
