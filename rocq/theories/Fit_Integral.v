(** The quadrature is exact: integrals of piecewise polynomials. *)
From Coq Require Import List Arith Lia Bool Reals Lra Psatz.
From Coquelicot Require Import Coquelicot.
From Verif Require Import Spline_Model Spline_Spec Spline_Piece Spline_Proofs Spline_Curve Fit_Model Fit_Basis Fit_Matrix Fit_Reg.
Import ListNotations.
Local Open Scope R_scope.

Definition p4 (c0 c1 c2 c3 c4 t : R) : R := c0 + c1 * t + c2 * (t * t) + c3 * (t * t * t) + c4 * (t * t * t * t).
Lemma lobatto f a b c0 c1 c2 c3 c4 : a <= b -> (forall t, a <= t <= b -> f t = p4 c0 c1 c2 c3 c4 t) ->
  is_RInt f a b ((b - a) / 2 * rsum 4 (fun j => qw j * f (a + (b - a) * qp j))).
Proof.
  intros AB H. set (F := fun t => c0 * t + c1 * (t * t) / 2 + c2 * (t * t * t) / 3 + c3 * (t * t * t * t) / 4 + c4 * (t * t * t * t * t) / 5).
  assert (E : (b - a) / 2 * rsum 4 (fun j => qw j * f (a + (b - a) * qp j)) = minus (F b) (F a)).
  { assert (N : forall j, a <= a + (b - a) * qp j <= b) by (intros j; assert (Q := qp_unit j); nra).
    cbn [rsum]. rewrite !H by apply N. unfold qw, qp, q_weights, q_points, p4. cbn [nth]. set (s := 1 / sqrt 20).
    assert (S2 : s * s = 1 / 20). { unfold s. replace (1 / sqrt 20 * (1 / sqrt 20)) with (1 / (sqrt 20 * sqrt 20)) by (field; apply Rgt_not_eq, sqrt_lt_R0; lra). rewrite sqrt_def by lra. reflexivity. }
    set (m := (a + b) / 2). set (h := (b - a)). assert (A : a = m - h / 2) by (unfold m, h; field). assert (B : b = m + h / 2) by (unfold m, h; field).
    unfold minus, plus, opp, F; cbn. replace (a + h * (1 / 2 - s)) with (m - h * s) by (rewrite A; field). replace (a + h * (1 / 2 + s)) with (m + h * s) by (rewrite A; field).
    replace (a + h * 0) with (m - h / 2) by (rewrite A; field). replace (a + h * 1) with (m + h / 2) by (rewrite A; field). rewrite A, B. clear A B. clearbody m h s. clear - S2.
    assert (PR : forall x y, x + 5 / 6 * (c0 + c1 * (m - h * s) + c2 * ((m - h * s) * (m - h * s)) + c3 * ((m - h * s) * (m - h * s) * (m - h * s)) + c4 * ((m - h * s) * (m - h * s) * (m - h * s) * (m - h * s)))
      + 5 / 6 * (c0 + c1 * (m + h * s) + c2 * ((m + h * s) * (m + h * s)) + c3 * ((m + h * s) * (m + h * s) * (m + h * s)) + c4 * ((m + h * s) * (m + h * s) * (m + h * s) * (m + h * s))) + y =
      x + 5 / 3 * (c0 + c1 * m + c2 * (m * m + h * h * (s * s)) + c3 * (m * m * m + 3 * m * h * h * (s * s)) + c4 * (m * m * m * m + 6 * m * m * h * h * (s * s) + h * h * h * h * (s * s) * (s * s))) + y) by (intros; field).
    rewrite PR, S2. field. }
  rewrite E. apply (is_RInt_ext (p4 c0 c1 c2 c3 c4)).
  - intros t T. rewrite Rmin_left, Rmax_right in T by exact AB. symmetry. apply H. lra.
  - apply (is_RInt_derive F (p4 c0 c1 c2 c3 c4)).
    + intros x _. unfold F, p4. auto_derive; [exact I|]. field.
    + intros x _. unfold p4. apply (ex_derive_continuous (fun t => c0 + c1 * t + c2 * (t * t) + c3 * (t * t * t) + c4 * (t * t * t * t))). auto_derive. exact I.
Qed.

Section One.
Variables (b : basis) (n : nat).
Definition poly2 (I : nat) (f : R -> R) : Prop := exists c0 c1 c2, forall t, cell b n I t -> f t = p4 c0 c1 c2 0 0 t.
Definition poly4 (I : nat) (f : R -> R) : Prop := exists c0 c1 c2 c3 c4, forall t, cell b n I t -> f t = p4 c0 c1 c2 c3 c4 t.
Lemma poly2_scal I f c : poly2 I f -> poly2 I (fun t => f t * c).
Proof. intros (a0 & a1 & a2 & H). exists (a0 * c), (a1 * c), (a2 * c). intros t T. rewrite (H t T). unfold p4. ring. Qed.
Lemma poly2_scal_l I f c : poly2 I f -> poly2 I (fun t => c * f t).
Proof. intros (a0 & a1 & a2 & H). exists (a0 * c), (a1 * c), (a2 * c). intros t T. rewrite (H t T). unfold p4. ring. Qed.
Lemma poly2_sum I m (f : nat -> R -> R) : (forall i, (i < m)%nat -> poly2 I (f i)) -> poly2 I (fun t => rsum m (fun i => f i t)).
Proof.
  induction m as [|m IH]; intros H; cbn [rsum]; [exists 0, 0, 0; intros; unfold p4; ring|].
  destruct (IH ltac:(intros; apply H; lia)) as (a0 & a1 & a2 & A). destruct (H m ltac:(lia)) as (d0 & d1 & d2 & D).
  exists (a0 + d0), (a1 + d1), (a2 + d2). intros t T. rewrite (A t T), (D t T). unfold p4. ring.
Qed.
Lemma poly4_mult I f g : poly2 I f -> poly2 I g -> poly4 I (fun t => f t * g t).
Proof.
  intros (a0 & a1 & a2 & A) (d0 & d1 & d2 & D). exists (a0 * d0), (a0 * d1 + a1 * d0), (a0 * d2 + a1 * d1 + a2 * d0), (a1 * d2 + a2 * d1), (a2 * d2).
  intros t T. rewrite (A t T), (D t T). unfold p4. ring.
Qed.
Lemma poly4_scal I f c : poly4 I f -> poly4 I (fun t => c * f t).
Proof. intros (a0 & a1 & a2 & a3 & a4 & H). exists (c * a0), (c * a1), (c * a2), (c * a3), (c * a4). intros t T. rewrite (H t T). unfold p4. ring. Qed.
Lemma poly4_plus I f g : poly4 I f -> poly4 I g -> poly4 I (fun t => f t + g t).
Proof.
  intros (a0 & a1 & a2 & a3 & a4 & A) (d0 & d1 & d2 & d3 & d4 & D). exists (a0 + d0), (a1 + d1), (a2 + d2), (a3 + d3), (a4 + d4).
  intros t T. rewrite (A t T), (D t T). unfold p4. ring.
Qed.
Lemma poly4_sum I m (f : nat -> R -> R) : (forall i, (i < m)%nat -> poly4 I (f i)) -> poly4 I (fun t => rsum m (fun i => f i t)).
Proof.
  induction m as [|m IH]; intros H; cbn [rsum]; [exists 0, 0, 0, 0, 0; intros; unfold p4; ring|]. apply poly4_plus; [apply IH; intros; apply H; lia|apply H; lia].
Qed.
Hypothesis (N : (0 < n)%nat) (E : equal_basis b n).
Lemma ev_poly I i : (i < size b)%nat -> poly2 I (ev b i).
Proof.
  intros L. assert (P : exists c0 c1 c2, forall t, pc (kn (knots b)) (I + 2) 2 i t = p4 c0 c1 c2 0 0 t).
  { cbn [pc]. unfold Rdiv.
    set (e0 := if (i =? I + 2)%nat then 1 else 0). set (e1 := if (i + 1 =? I + 2)%nat then 1 else 0). set (e2 := if (i + 1 + 1 =? I + 2)%nat then 1 else 0). generalize e0 e1 e2. clear. intros e0 e1 e2.
    repeat match goal with |- context [/ ?d] => generalize (/ d) end. repeat match goal with |- context [kn ?a ?c] => generalize (kn a c) end. intros.
    match goal with |- exists _ _ _, forall t, @?f t = _ => pose (g := f); exists (g 0), (- (3 * g 0 - 4 * g 1 + g 2) / 2), ((g 0 - 2 * g 1 + g 2) / 2); intros t; unfold g, p4 end. field. }
  destruct P as (c0 & c1 & c2 & P). exists c0, c1, c2. intros t T. rewrite (cell_ev b n N E I t i T L). apply P.
Qed.
Lemma dev_poly I i : (i < size b)%nat -> poly2 I (dev b i).
Proof.
  intros L. assert (P : exists c0 c1 c2, forall t, dpc (kn (knots b)) (I + 2) 1 i t = p4 c0 c1 c2 0 0 t).
  { unfold dpc. cbn [pc]. unfold Rdiv.
    set (e0 := if (i =? I + 2)%nat then 1 else 0). set (e1 := if (i + 1 =? I + 2)%nat then 1 else 0). set (e2 := if (i + 1 + 1 =? I + 2)%nat then 1 else 0). generalize e0 e1 e2 (INR 2). clear. intros e0 e1 e2 r2.
    repeat match goal with |- context [/ ?d] => generalize (/ d) end. repeat match goal with |- context [kn ?a ?c] => generalize (kn a c) end. intros.
    match goal with |- exists _ _ _, forall t, @?f t = _ => pose (g := f); exists (g 0), (- (3 * g 0 - 4 * g 1 + g 2) / 2), ((g 0 - 2 * g 1 + g 2) / 2); intros t; unfold g, p4 end. field. }
  destruct P as (c0 & c1 & c2 & P). exists c0, c1, c2. intros t T. unfold dev. rewrite (cell_dev b n N E I t i T L). apply P.
Qed.
(** The integral over [0, 1]. *)
Lemma integral f : (forall I, (I < n)%nat -> poly4 I f) -> is_RInt f 0 1 (rsum n (fun I => 1 / INR n / 2 * rsum 4 (fun j => qw j * f (node b I j)))).
Proof.
  intros P. assert (NP := n_pos n N).
  assert (H : forall m, (m <= n)%nat -> is_RInt f 0 (INR m / INR n) (rsum m (fun I => 1 / INR n / 2 * rsum 4 (fun j => qw j * f (node b I j))))).
  { induction m as [|m IH]; intros L.
    - cbn [rsum INR]. replace (0 / INR n) with 0 by (field; lra). apply (is_RInt_point (V := R_NormedModule)).
    - cbn [rsum]. apply (is_RInt_Chasles (V := R_NormedModule) f 0 (INR m / INR n)); [apply IH; lia|].
      destruct (P m ltac:(lia)) as (c0 & c1 & c2 & c3 & c4 & Q). assert (K := knot_at b n E m ltac:(lia)). assert (K1 := knot_at b n E (S m) ltac:(lia)). replace (S m + 2)%nat with (m + 3)%nat in K1 by lia.
      assert (KS := knot_step b n N E m ltac:(lia)). assert (SP := step_pos n N).
      assert (L0 := lobatto f (INR m / INR n) (INR (S m) / INR n) c0 c1 c2 c3 c4). 
      assert (D : INR (S m) / INR n - INR m / INR n = 1 / INR n) by (rewrite S_INR; field; lra). rewrite D in L0. unfold node. rewrite K, K1, D. apply L0; [lra|]. intros t T. apply Q. split; [lia|]. rewrite K, K1. exact T. }
  specialize (H n (Nat.le_refl n)). replace (INR n / INR n) with 1 in H by (field; lra). exact H.
Qed.
End One.
