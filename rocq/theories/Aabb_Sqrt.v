(** The test a < sqrt 2 * b of the model agrees with the one on real numbers. *)
From Coq Require Import QArith Qreals Reals Lra Lia.
From Verif Require Import Aabb_Model Aabb_Proofs.
Open Scope R_scope.

Lemma lt_sqrt2_real_l : forall a b : Q,
  lt_sqrt2 a b = true <-> Q2R a < sqrt 2 * Q2R b.
Proof.
  intros a b.
  assert (S2 : sqrt 2 * sqrt 2 = 2) by (apply sqrt_sqrt; lra).
  assert (S1 : 1 < sqrt 2).
  { rewrite <- sqrt_1 at 1. apply sqrt_lt_1; lra. }
  assert (Z : Q2R 0 = 0) by (unfold Q2R; simpl; lra).
  assert (LE : forall x y : Q, Qle_bool x y = true <-> Q2R x <= Q2R y).
  { intros x y. rewrite Qle_bool_iff. split; [apply Qle_Rle|apply Rle_Qle]. }
  assert (LT : forall x y : Q, Qle_bool x y = false <-> Q2R y < Q2R x).
  { intros x y. rewrite Qle_bool_false. split; [apply Qlt_Rlt|apply Rlt_Qlt]. }
  assert (M2 : Q2R (2 * (b * b))%Q = 2 * (Q2R b * Q2R b)).
  { rewrite !Q2R_mult. f_equal. unfold Q2R; simpl; lra. }
  assert (MA : Q2R (a * a)%Q = Q2R a * Q2R a) by apply Q2R_mult.
  unfold lt_sqrt2.
  set (x := Q2R a) in *. set (y := Q2R b) in *.
  destruct (Qle_bool 0 a) eqn:Ea.
  - apply LE in Ea. rewrite Z in Ea. fold x in Ea.
    rewrite Bool.andb_true_iff, !Bool.negb_true_iff, !LT, M2, MA, Z. fold y.
    split.
    + intros [Hy Hs]. apply Rnot_le_lt. intros C.
      assert (0 <= sqrt 2 * y) by nra.
      assert (sqrt 2 * y * (sqrt 2 * y) <= x * x) by nra. nra.
    + intros H. assert (0 < y) by nra. split; [assumption|].
      assert (x * x < sqrt 2 * y * (sqrt 2 * y)) by nra. nra.
  - apply LT in Ea. rewrite Z in Ea. fold x in Ea.
    rewrite Bool.orb_true_iff, Bool.negb_true_iff, LE, LT, M2, MA, Z. fold y.
    split.
    + intros [Hy|Hs]; [nra|]. apply Rnot_le_lt. intros C.
      destruct (Rle_or_lt 0 y) as [|Hy]; [nra|].
      assert (Hz : sqrt 2 * y < 0) by nra.
      assert (x * x <= sqrt 2 * y * (sqrt 2 * y)) by (clear Hs; set (z := sqrt 2 * y) in *; clearbody z; nra).
      nra.
    + intros H. destruct (Rle_or_lt 0 y) as [|Hy]; [now left|right].
      assert (Hz : sqrt 2 * y < 0) by nra.
      assert (sqrt 2 * y * (sqrt 2 * y) < x * x) by (set (z := sqrt 2 * y) in *; clearbody z; nra).
      nra.
Qed.
