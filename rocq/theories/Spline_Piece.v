(** Polynomial pieces of the Cox-de Boor recursion (proof device). *)
From Coq Require Import List Arith Bool Reals Lia Lra.
From Verif Require Import Spline_Spec.
Import ListNotations.
Open Scope R_scope.

Lemma rsum_ext n f g : (forall i, (i < n)%nat -> f i = g i) -> rsum n f = rsum n g.
Proof. induction n; simpl; intros H; auto. rewrite IHn, H; auto. Qed.
Lemma rsum_plus n f g : rsum n (fun i => f i + g i) = rsum n f + rsum n g.
Proof. induction n; simpl; [|rewrite IHn]; ring. Qed.
Lemma rsum_scal n c f : rsum n (fun i => c * f i) = c * rsum n f.
Proof. induction n; simpl; [|rewrite IHn]; ring. Qed.
Lemma rsum_shift n f : rsum (S n) f = f 0%nat + rsum n (fun i => f (S i)).
Proof. induction n; simpl in *; [ring|]. rewrite IHn. ring. Qed.
Lemma rsum_0 n f : (forall i, (i < n)%nat -> f i = 0) -> rsum n f = 0.
Proof. induction n; simpl; intros H; auto. rewrite IHn, H; auto; ring. Qed.
Lemma rsum_app n m f : rsum (n + m) f = rsum n f + rsum m (fun i => f (n + i)%nat).
Proof.
  induction m; simpl.
  - rewrite Nat.add_0_r. ring.
  - rewrite Nat.add_succ_r. simpl. rewrite IHm. ring.
Qed.
Lemma rsum_le n f g : (forall i, (i < n)%nat -> f i <= g i) -> rsum n f <= rsum n g.
Proof. induction n; simpl; intros H; [lra|]. apply Rplus_le_compat; auto. Qed.
Lemma rsum_delta n j f : (j < n)%nat ->
  rsum n (fun i => if (i =? j)%nat then f i else 0) = f j.
Proof.
  induction n; simpl; intros H; [lia|].
  destruct (Nat.eq_dec j n) as [->|E].
  - rewrite Nat.eqb_refl, rsum_0; [ring|].
    intros i Hi. destruct (Nat.eqb_spec i n); [lia|reflexivity].
  - rewrite IHn by lia. destruct (Nat.eqb_spec n j); [lia|ring].
Qed.

Section Piece.
Variable k : nat -> R.
Variable m : nat.
Hypothesis mono : forall i j, (i <= j)%nat -> (j < m)%nat -> k i <= k j.

Fixpoint pc (j d i : nat) (t : R) : R :=
  match d with
  | O => if (i =? j)%nat then 1 else 0
  | S d' => (t - k i) / (k (i + d)%nat - k i) * pc j d' i t
            + (k (i + d + 1)%nat - t) / (k (i + d + 1)%nat - k (i + 1)%nat)
              * pc j d' (i + 1) t
  end.

Lemma pc_out j d : forall i t, (j < i \/ i + d < j)%nat -> pc j d i t = 0.
Proof.
  induction d; intros i t H; cbn [pc].
  - destruct (Nat.eqb_spec i j); [lia|reflexivity].
  - rewrite (IHd i), (IHd (i + 1)%nat) by lia. ring.
Qed.

(** Denominators in the window of a non-empty interval. *)
Lemma denom_pos j a b : (k j < k (j + 1)%nat) -> (a <= j)%nat -> (j + 1 <= b)%nat ->
  (b < m)%nat -> 0 < k b - k a.
Proof.
  intros H Ha Hb Hm.
  pose proof (mono a j Ha ltac:(lia)). pose proof (mono (j + 1) b Hb Hm). lra.
Qed.

Definition W (j d : nat) (c : nat -> R) (t : R) : R :=
  rsum (d + 1) (fun r => c (j - d + r)%nat * pc j d (j - d + r) t).

Definition alpha (d i : nat) (t : R) := (t - k i) / (k (i + d)%nat - k i).
Definition deboor (d : nat) (c : nat -> R) (t : R) (i : nat) : R :=
  alpha d i t * c i + (1 - alpha d i t) * c (i - 1)%nat.

Lemma W_step j d c t : (k j < k (j + 1)%nat) -> (S d <= j)%nat -> (j + S d < m)%nat ->
  W j (S d) c t = W j d (deboor (S d) c t) t.
Proof.
  intros Hj Hd Hm. unfold W.
  set (f1 := fun r => c (j - S d + r)%nat * (alpha (S d) (j - S d + r) t
                        * pc j d (j - S d + r) t)).
  set (f2 := fun r => c (j - S d + r)%nat * ((1 - alpha (S d) (j - S d + r + 1) t)
                        * pc j d (j - S d + r + 1) t)).
  rewrite (rsum_ext _ _ (fun r => f1 r + f2 r)).
  2:{ intros r Hr. unfold f1, f2. cbn [pc]. unfold alpha.
      rewrite Rmult_plus_distr_l. f_equal.
      destruct (le_lt_dec (j - S d + r + 1) j) as [Hle|Hgt].
      - pose proof (denom_pos j (j - S d + r + 1) (j - S d + r + S d + 1) Hj Hle
                      ltac:(lia) ltac:(lia)) as P.
        replace (j - S d + r + 1 + S d)%nat with (j - S d + r + S d + 1)%nat by lia.
        f_equal. f_equal. field. lra.
      - rewrite !(pc_out j d (j - S d + r + 1)) by lia. ring. }
  rewrite rsum_plus.
  replace (S d + 1)%nat with (S (d + 1)) by lia.
  rewrite (rsum_shift (d + 1) f1).
  assert (f1 0%nat = 0) as ->. { unfold f1. rewrite (pc_out j d) by lia. ring. }
  cbn [rsum]. assert (f2 (d + 1)%nat = 0) as ->.
  { unfold f2. rewrite (pc_out j d) by lia. ring. }
  rewrite Rplus_0_l, Rplus_0_r. rewrite <- rsum_plus. apply rsum_ext.
  intros r Hr. unfold f1, f2, deboor.
  replace (j - S d + S r)%nat with (j - d + r)%nat by lia.
  replace (j - S d + r + 1)%nat with (j - d + r)%nat by lia.
  replace (j - d + r - 1)%nat with (j - S d + r)%nat by lia. ring.
Qed.

Lemma W_0 j c t : W j 0 c t = c j.
Proof. unfold W; cbn. replace (j - 0 + 0)%nat with j by lia. rewrite Nat.eqb_refl. ring. Qed.

Lemma W_ext j d c c' t : (forall i, (j - d <= i <= j)%nat -> c i = c' i) -> (d <= j)%nat ->
  W j d c t = W j d c' t.
Proof. intros H Hd. apply rsum_ext. intros r Hr. rewrite H; auto. lia. Qed.

Lemma W_scal j d a c t : W j d (fun i => a * c i) t = a * W j d c t.
Proof. unfold W. rewrite <- rsum_scal. apply rsum_ext. intros. ring. Qed.
Lemma W_plus j d c c' t : W j d (fun i => c i + c' i) t = W j d c t + W j d c' t.
Proof. unfold W. rewrite <- rsum_plus. apply rsum_ext. intros. ring. Qed.

(** Partition of unity. *)
Lemma W_one j d t : (k j < k (j + 1)%nat) -> (d <= j)%nat -> (j + d < m)%nat ->
  W j d (fun _ => 1) t = 1.
Proof.
  intros Hj. induction d; intros Hd Hm; [apply W_0|].
  rewrite W_step by auto. transitivity (W j d (fun _ => 1) t); [|apply IHd; lia].
  apply W_ext; [|lia].
  intros. unfold deboor. ring.
Qed.

(** Linear precision: the sums of the inner knots. *)
Fixpoint ksum (d i : nat) : R :=
  match d with O => 0 | S d' => ksum d' i + k (i + d)%nat end.
Lemma ksum_shift d i : ksum (S d) i = k (i + 1)%nat + ksum d (i + 1).
Proof.
  induction d; [unfold ksum; ring|].
  change (ksum (S (S d)) i) with (ksum (S d) i + k (i + S (S d))%nat).
  rewrite IHd. change (ksum (S d) (i + 1)) with (ksum d (i + 1) + k (i + 1 + S d)%nat).
  replace (i + 1 + S d)%nat with (i + S (S d))%nat by lia. ring.
Qed.

Lemma W_linear j d t : (k j < k (j + 1)%nat) -> (d <= j)%nat -> (j + d < m)%nat ->
  W j d (ksum d) t = INR d * t.
Proof.
  intros Hj. induction d; intros Hd Hm.
  - rewrite W_0. cbn. ring.
  - rewrite W_step by auto.
    rewrite (W_ext j d _ (fun i => ksum d i + t * 1)).
    + rewrite W_plus, W_scal, W_one, IHd, S_INR by (auto; lia). ring.
    + intros i Hi. unfold deboor, alpha.
      pose proof (denom_pos j i (i + S d)).
      destruct (Nat.eq_dec i 0) as [->|Hi0]; [lia|].
      destruct (le_lt_dec (j + 1) (i + S d)) as [Hw|Hw]; [|lia].
      specialize (H Hj ltac:(lia) Hw ltac:(lia)).
      rewrite (ksum_shift d (i - 1)).
      replace (i - 1 + 1)%nat with i by lia.
      change (ksum (S d) i) with (ksum d i + k (i + S d)%nat).
      field. lra.
    + lia.
Qed.

(** Values at the ends of an interval whose end knot is repeated. *)
Lemma pc_left_end j d t : k j < t ->
  (forall r, (1 <= r <= d)%nat -> k (j + r)%nat = t) ->
  forall i, pc j d i t = if (i =? j)%nat then 1 else 0.
Proof.
  intros Hj. induction d; intros H i; cbn [pc]; [reflexivity|].
  rewrite !IHd by (intros; apply H; lia).
  destruct (Nat.eqb_spec i j) as [->|E].
  - rewrite (H (S d)) by lia. destruct (Nat.eqb_spec (j + 1) j); [lia|].
    rewrite Rmult_0_r. field. lra.
  - destruct (Nat.eqb_spec (i + 1) j) as [E1|E1]; [|ring].
    replace (i + S d + 1)%nat with (j + S d)%nat by lia. rewrite (H (S d)) by lia.
    unfold Rdiv. ring.
Qed.

Lemma pc_right_end j d t : t < k (j + 1)%nat -> (d <= j)%nat -> (j + d < m)%nat ->
  (forall r, (r < d)%nat -> k (j - r)%nat = t) ->
  forall i, pc j d i t = if (i + d =? j)%nat then 1 else 0.
Proof.
  intros Hj. induction d; intros Hd Hm H i; cbn [pc].
  - rewrite Nat.add_0_r. reflexivity.
  - rewrite !IHd by (try lia; intros; apply H; lia).
    destruct (Nat.eqb_spec (i + d) j) as [E|E].
    + assert (k i = t) as ->.
      { replace i with (j - d)%nat by lia. apply H. lia. }
      destruct (Nat.eqb_spec (i + 1 + d) j); [lia|].
      destruct (Nat.eqb_spec (i + S d) j); [lia|]. unfold Rdiv. ring.
    + replace (i + 1 + d)%nat with (i + S d)%nat by lia.
      destruct (Nat.eqb_spec (i + S d) j) as [E1|E1]; [|ring].
      assert (k (i + 1)%nat = t) as ->.
      { replace (i + 1)%nat with (j - d)%nat by lia. apply H. lia. }
      replace (i + S d + 1)%nat with (j + 1)%nat by lia. rewrite Rmult_0_r. field. lra.
Qed.

(** Continuity at knots. *)
Lemma pc_cont p j d t : (p <= j)%nat -> (j - p <= d)%nat -> (d <= j)%nat -> (j + d < m)%nat ->
  k p < t -> t < k (j + 1)%nat ->
  (forall i, (p < i <= j)%nat -> k i = t) ->
  forall i, pc p d i t = pc j d i t.
Proof.
  intros Hpj Hmu. induction d; intros Hd Hm Hp Hj Hk i.
  - replace p with j by lia. reflexivity.
  - destruct (Nat.eq_dec (j - p) (S d)) as [E|E].
    + rewrite pc_left_end by (auto; intros; apply Hk; lia).
      rewrite pc_right_end by (auto; intros; apply Hk; lia).
      destruct (Nat.eqb_spec i p), (Nat.eqb_spec (i + S d) j); auto; lia.
    + cbn [pc]. rewrite !IHd by (auto; lia). reflexivity.
Qed.

(** Derivative of a piece. *)
Definition dpc (j d i : nat) (t : R) : R :=
  INR (S d) * pc j d i t / (k (i + S d)%nat - k i)
  - INR (S d) * pc j d (i + 1) t / (k (i + S d + 1)%nat - k (i + 1)%nat).

Lemma pc_deriv j d : (k j < k (j + 1)%nat) -> (j + S d < m)%nat -> forall i t,
  derivable_pt_lim (pc j (S d) i) t (dpc j d i t).
Proof.
  intros Hj. induction d; intros Hm i t.
  - unfold dpc. cbn [pc].
    set (A := if (i =? j)%nat then 1 else 0). set (B := if (i + 1 =? j)%nat then 1 else 0).
    assert (forall a b (c : R), derivable_pt_lim (fun x => (x - a) / b * c) t (c / b)) as D1.
    { intros a b c.
      replace (c / b) with ((1 - 0) * (/ b) * c + (t - a) * / b * 0) by (unfold Rdiv; ring).
      apply (derivable_pt_lim_mult (fun x => (x - a) / b) (fun _ => c)).
      - replace ((1 - 0) * / b) with ((1 - 0) * / b + (t - a) * 0) by ring.
        apply (derivable_pt_lim_mult (fun x => x - a) (fun _ => / b)).
        + apply (derivable_pt_lim_minus id (fun _ => a)).
          apply derivable_pt_lim_id. apply derivable_pt_lim_const.
        + apply derivable_pt_lim_const.
      - apply derivable_pt_lim_const. }
    assert (forall a b (c : R), derivable_pt_lim (fun x => (a - x) / b * c) t (- (c / b))) as D2.
    { intros a b c.
      replace (- (c / b)) with ((0 - 1) * (/ b) * c + (a - t) * / b * 0) by (unfold Rdiv; ring).
      apply (derivable_pt_lim_mult (fun x => (a - x) / b) (fun _ => c)).
      - replace ((0 - 1) * / b) with ((0 - 1) * / b + (a - t) * 0) by ring.
        apply (derivable_pt_lim_mult (fun x => a - x) (fun _ => / b)).
        + apply (derivable_pt_lim_minus (fun _ => a) id).
          apply derivable_pt_lim_const. apply derivable_pt_lim_id.
        + apply derivable_pt_lim_const.
      - apply derivable_pt_lim_const. }
    replace (INR 1) with 1 by reflexivity. rewrite !Rmult_1_l.
    unfold Rminus at 1.
    apply (derivable_pt_lim_plus (fun x => (x - k i) / (k (i + 1)%nat - k i) * A)
             (fun x => (k (i + 1 + 1)%nat - x) / (k (i + 1 + 1)%nat - k (i + 1)%nat) * B)).
    apply D1. apply D2.
  - specialize (IHd ltac:(lia)).
    set (n := S d) in *.
    assert (derivable_pt_lim (pc j (S n) i) t
      ((1 - 0) * / (k (i + S n)%nat - k i) * pc j n i t
        + (t - k i) / (k (i + S n)%nat - k i) * dpc j d i t
       + ((0 - 1) * / (k (i + S n + 1)%nat - k (i + 1)%nat) * pc j n (i + 1) t
        + (k (i + S n + 1)%nat - t) / (k (i + S n + 1)%nat - k (i + 1)%nat)
            * dpc j d (i + 1) t))) as D.
    { apply (derivable_pt_lim_plus
        (fun x => (x - k i) / (k (i + S n)%nat - k i) * pc j n i x)
        (fun x => (k (i + S n + 1)%nat - x) / (k (i + S n + 1)%nat - k (i + 1)%nat)
                  * pc j n (i + 1) x)).
      - apply (derivable_pt_lim_mult (fun x => (x - k i) / (k (i + S n)%nat - k i))
                 (pc j n i)); [|apply IHd].
        set (b := k (i + S n)%nat - k i).
        replace ((1 - 0) * / b) with ((1 - 0) * / b + (t - k i) * 0) by ring.
        apply (derivable_pt_lim_mult (fun x => x - k i) (fun _ => / b)).
        + apply (derivable_pt_lim_minus id (fun _ => k i)).
          apply derivable_pt_lim_id. apply derivable_pt_lim_const.
        + apply derivable_pt_lim_const.
      - apply (derivable_pt_lim_mult
                 (fun x => (k (i + S n + 1)%nat - x) / (k (i + S n + 1)%nat - k (i + 1)%nat))
                 (pc j n (i + 1))); [|apply IHd].
        set (b := k (i + S n + 1)%nat - k (i + 1)%nat).
        replace ((0 - 1) * / b) with ((0 - 1) * / b + (k (i + S n + 1)%nat - t) * 0) by ring.
        apply (derivable_pt_lim_mult (fun x => k (i + S n + 1)%nat - x) (fun _ => / b)).
        + apply (derivable_pt_lim_minus (fun _ => k (i + S n + 1)%nat) id).
          apply derivable_pt_lim_const. apply derivable_pt_lim_id.
        + apply derivable_pt_lim_const. }
    replace (dpc j n i t) with
      ((1 - 0) * / (k (i + S n)%nat - k i) * pc j n i t
        + (t - k i) / (k (i + S n)%nat - k i) * dpc j d i t
       + ((0 - 1) * / (k (i + S n + 1)%nat - k (i + 1)%nat) * pc j n (i + 1) t
        + (k (i + S n + 1)%nat - t) / (k (i + S n + 1)%nat - k (i + 1)%nat)
            * dpc j d (i + 1) t)); [exact D|].
    unfold dpc. fold n.
    assert (pc j n i t = (t - k i) / (k (i + n)%nat - k i) * pc j d i t
       + (k (i + n + 1)%nat - t) / (k (i + n + 1)%nat - k (i + 1)%nat) * pc j d (i + 1) t)
      as -> by reflexivity.
    assert (pc j n (i + 1) t
       = (t - k (i + 1)%nat) / (k (i + 1 + n)%nat - k (i + 1)%nat) * pc j d (i + 1) t
       + (k (i + 1 + n + 1)%nat - t) / (k (i + 1 + n + 1)%nat - k (i + 1 + 1)%nat)
           * pc j d (i + 1 + 1) t)
      as -> by reflexivity.
    replace (i + S n + 1)%nat with (i + 1 + n + 1)%nat by lia.
    replace (i + S n)%nat with (i + 1 + n)%nat by lia.
    replace (i + n + 1)%nat with (i + 1 + n)%nat by lia.
    rewrite (S_INR n).
    set (R0 := pc j d i t). set (R1 := pc j d (i + 1) t) in *.
    set (R2 := pc j d (i + 1 + 1) t).
    set (N := INR n).
    destruct (Req_EM_T R1 0) as [E|E].
    + rewrite E. unfold Rdiv. ring.
    + assert ((i + 1 <= j)%nat /\ (j <= i + 1 + d)%nat) as [B1 B2].
      { destruct (le_lt_dec (i + 1) j), (le_lt_dec j (i + 1 + d)); auto;
        exfalso; apply E; apply pc_out; lia. }
      pose proof (denom_pos j i (i + 1 + n) Hj ltac:(lia) ltac:(lia) ltac:(lia)) as P1.
      pose proof (mono (i+1) j B1 ltac:(lia)) as Q1.
      assert (0 < k (i + 1 + n + 1)%nat - k (i + 1)%nat \/ (m <= i + 1 + n + 1)%nat) as P2.
      { destruct (le_lt_dec m (i + 1 + n + 1)); [now right|left].
        apply (denom_pos j); auto; lia. }
      destruct P2 as [P2|P2]; [|lia].
      unfold Rdiv.
      set (Y := / (k (i + 1 + n)%nat - k (i + 1)%nat)).
      set (X := / (k (i + n)%nat - k i)).
      set (Z := / (k (i + 1 + n + 1)%nat - k (i + 1 + 1)%nat)).
      field. split; lra.
Qed.

(** Signs. *)
Lemma pc_nonneg j d : (j + d < m)%nat -> (k j < k (j + 1)%nat) -> forall i t,
  k j <= t -> t <= k (j + 1)%nat -> 0 <= pc j d i t.
Proof.
  intros Hm Hj. revert Hm. induction d; intros Hm i t H1 H2; cbn [pc].
  - destruct (i =? j)%nat; lra.
  - specialize (IHd ltac:(lia)).
    apply Rplus_le_le_0_compat.
    + destruct (le_lt_dec i j) as [Hi|Hi]; [destruct (le_lt_dec j (i + d)) as [Hd|Hd]|].
      * apply Rmult_le_pos; [|apply IHd; auto].
        pose proof (denom_pos j i (i + S d) Hj Hi ltac:(lia) ltac:(lia)).
        pose proof (mono i j Hi ltac:(lia)).
        apply Rmult_le_pos; [lra|]. left. apply Rinv_0_lt_compat. lra.
      * rewrite (pc_out j d i) by lia. lra.
      * rewrite (pc_out j d i) by lia. lra.
    + destruct (le_lt_dec (i + 1) j) as [Hi|Hi]; [destruct (le_lt_dec j (i + 1 + d)) as [Hd|Hd]|].
      * apply Rmult_le_pos; [|apply IHd; auto].
        pose proof (denom_pos j (i + 1) (i + S d + 1) Hj Hi ltac:(lia) ltac:(lia)).
        pose proof (mono (j + 1) (i + S d + 1) ltac:(lia) ltac:(lia)).
        apply Rmult_le_pos; [lra|]. left. apply Rinv_0_lt_compat. lra.
      * rewrite (pc_out j d (i + 1)) by lia. lra.
      * rewrite (pc_out j d (i + 1)) by lia. lra.
Qed.

(** Sum of the derivatives over a window. *)
Lemma dpc_sum j d t : (k j < k (j + 1)%nat) -> (S d <= j)%nat -> (j + S d < m)%nat ->
  rsum (S d + 1) (fun r => dpc j d (j - S d + r) t) = 0.
Proof.
  intros Hj Hd Hm.
  set (g := fun i => INR (S d) * pc j d i t / (k (i + S d)%nat - k i)).
  assert (forall n a, rsum n (fun r => dpc j d (a + r) t) = g a - g (a + n)%nat) as T.
  { induction n; intros a; cbn [rsum].
    - rewrite Nat.add_0_r. ring.
    - rewrite IHn. unfold dpc.
      replace (a + n + S d + 1)%nat with (a + S n + S d)%nat by lia.
      replace (a + n + 1)%nat with (a + S n)%nat by lia.
      fold (g (a + S n)%nat). fold (g (a + n)%nat). ring. }
  rewrite T. unfold g. rewrite !(pc_out j d) by lia. unfold Rdiv. ring.
Qed.
End Piece.
