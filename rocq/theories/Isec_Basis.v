(** Bases of degree 2 without empty intervals: values and derivatives on closed intervals. *)
From Coq Require Import List Arith Lia Bool Reals Lra Psatz.
From Verif Require Import Spline_Model Spline_Spec Spline_Piece Spline_Proofs Spline_Curve Fit_Basis Isec_Spec.
Import ListNotations.
Local Open Scope R_scope.

Section Cells.
Variable b : basis.
Hypothesis E : cells_basis b.
Notation k := (kn (knots b)).
Notation n := (n_intervals b).
Let V := cb_valid b E.
Let D := cb_deg b E.
Lemma csizes : size b = (n + 2)%nat /\ length (knots b) = (n + 5)%nat /\ (1 <= n)%nat.
Proof. destruct (len_eq b V) as (A & B & C). rewrite D in *. lia. Qed.
Lemma strict I : (I < n)%nat -> k (I + 2)%nat < k (I + 3)%nat.
Proof. apply (cb_strict b E). Qed.
Lemma strict_lt i : forall j, (i < j <= n)%nat -> k (i + 2)%nat < k (j + 2)%nat.
Proof.
  destruct csizes as (S1 & S2 & S3). intros j L. assert (A := strict i ltac:(lia)). assert (M := mono b V (i + 3) (j + 2) ltac:(lia) ltac:(lia)). lra.
Qed.
Lemma cdom0 : dom0 b = k 2%nat.
Proof. unfold dom0. now rewrite D. Qed.
Lemma cdom1 : dom1 b = k (n + 2)%nat.
Proof. rewrite (dom1_k b). now rewrite (proj1 csizes). Qed.
Lemma clow : low_multiplicity b.
Proof.
  intros i L. destruct csizes as (S1 & S2 & S3). rewrite D. rewrite S1 in L.
  destruct (Nat.eq_dec i 1) as [-> |N1].
  - assert (K := strict 0 ltac:(lia)). cbn in K. assert (M := mono b V 1 2 ltac:(lia) ltac:(lia)). cbn. lra.
  - replace (i + 2)%nat with ((i - 2) + 4)%nat by lia. assert (K := strict (i - 2) ltac:(lia)). assert (M := mono b V (i - 2 + 3) (i - 2 + 4) ltac:(lia) ltac:(lia)).
    replace (i - 2 + 2)%nat with i in K by lia. lra.
Qed.
Lemma cell_dom I t : in_cell b I t -> in_dom b t.
Proof.
  intros [L C]. destruct csizes as (S1 & S2 & S3). unfold in_dom. split.
  - rewrite cdom0. assert (M := mono b V 2 (I + 2) ltac:(lia) ltac:(lia)). lra.
  - assert (M := k_le_end b V (I + 3) ltac:(lia)). lra.
Qed.
Lemma clocated I t : in_cell b I t -> (t < k (I + 3)%nat \/ S I = n) -> located b (I + 2) t.
Proof.
  intros [L C] H. destruct csizes as (S1 & S2 & S3). assert (K := strict I L). unfold located. rewrite D, S1.
  replace (I + 2 + 1)%nat with (I + 3)%nat by lia. split; [lia|]. split; [lia|]. split; [lra|]. split; [lra|].
  destruct H as [H|H]; [left; exact H|]. destruct (Rlt_dec t (k (I + 3)%nat)) as [X|X]; [left; exact X|right]. split; [|lia].
  assert (Q := k_end b V (I + 3) ltac:(lia) ltac:(lia)). lra.
Qed.
Lemma cnext I t : in_cell b I t -> ~ (t < k (I + 3)%nat \/ S I = n) -> in_cell b (S I) t /\ located b (I + 3) t /\ k (I + 2)%nat < t < k (I + 3 + 1)%nat /\ forall q, (I + 2 < q <= I + 3)%nat -> k q = t.
Proof.
  intros [L C] H. assert (t = k (I + 3)%nat) as T. { destruct (Rlt_dec t (k (I + 3)%nat)); [exfalso; apply H; now left|lra]. }
  assert (L2 : (S I < n)%nat). { destruct (Nat.eq_dec (S I) n); [exfalso; apply H; now right|lia]. }
  assert (K := strict (S I) L2). replace (S I + 2)%nat with (I + 3)%nat in K by lia.
  assert (CN : in_cell b (S I) t). { split; [exact L2|]. replace (S I + 2)%nat with (I + 3)%nat by lia. lra. }
  split; [exact CN|]. split; [|split; [replace (I + 3 + 1)%nat with (S I + 3)%nat by lia; assert (K' := strict I L); lra|intros q Q; replace q with (I + 3)%nat by lia; now symmetry]]. replace (I + 3)%nat with (S I + 2)%nat by lia. apply clocated; [exact CN|]. left. lra.
Qed.
Lemma cev I t i : in_cell b I t -> (i < size b)%nat -> ev b i t = pc k (I + 2) 2 i t.
Proof.
  intros C L. destruct csizes as (S1 & S2 & S3). destruct (Rlt_dec t (k (I + 3)%nat)) as [H|H]; [|destruct (Nat.eq_dec (S I) n) as [H2|H2]].
  - rewrite (ev_pc b V i (I + 2) t L) by (apply clocated; auto). now rewrite D.
  - rewrite (ev_pc b V i (I + 2) t L) by (apply clocated; auto). now rewrite D.
  - destruct (cnext I t C) as (C' & LO & T); [tauto|]. rewrite (ev_pc b V i (I + 3) t L LO), D. assert (CI := proj1 C'). symmetry.
    apply (pc_cont k (length (knots b)) (I + 2) (I + 3) 2 t); try lia; try apply T.
Qed.
Lemma cdev I t i : in_cell b I t -> (i < size b)%nat -> eval_diff b i t = Some (dpc k (I + 2) 1 i t).
Proof.
  intros C L. destruct csizes as (S1 & S2 & S3). destruct (Rlt_dec t (k (I + 3)%nat)) as [H|H]; [|destruct (Nat.eq_dec (S I) n) as [H2|H2]].
  - apply (eval_diff_dpc b V 1 i (I + 2) t D clow L). apply clocated; auto.
  - apply (eval_diff_dpc b V 1 i (I + 2) t D clow L). apply clocated; auto.
  - destruct (cnext I t C) as (C' & LO & T); [tauto|]. rewrite (eval_diff_dpc b V 1 i (I + 3) t D clow L LO). assert (CI := proj1 C'). f_equal.
    unfold dpc. rewrite !(pc_cont k (length (knots b)) (I + 2) (I + 3) 1 t); try lia; try reflexivity; apply T.
Qed.
Lemma coutside I t i : in_cell b I t -> (i < size b)%nat -> (i < I \/ I + 3 <= i)%nat -> ev b i t = 0 /\ dev b i t = 0.
Proof.
  intros C L H. unfold dev. rewrite (cev I t i C L), (cdev I t i C L). cbn [value_of]. split; [apply pc_out; lia|].
  unfold dpc. rewrite !(pc_out k (I + 2) 1) by lia. unfold Rdiv. ring.
Qed.
Lemma csimple t : dom0 b < t < dom1 b -> (multiplicity (knots b) t < 2)%nat.
Proof.
  intros T. destruct (le_lt_dec 2 (multiplicity (knots b) t)) as [M|M]; [exfalso|exact M]. apply (twice 1 ltac:(lia)) in M as (i & j & L & A & B). destruct csizes as (S1 & S2 & S3).
  assert (I2 : (2 < i)%nat). { destruct (le_lt_dec i 2) as [X|X]; [|exact X]. assert (K := k_start b V i ltac:(rewrite D; lia)). unfold kn in K. rewrite A in K. lra. }
  assert (JN : (j < n + 2)%nat). { destruct (le_lt_dec (n + 2) j) as [X|X]; [|exact X]. assert (K := k_end b V j ltac:(lia) ltac:(lia)). unfold kn in K. rewrite B in K. lra. }
  assert (K := strict (i - 2) ltac:(lia)). replace (i - 2 + 2)%nat with i in K by lia. assert (MM := mono b V (i - 2 + 3) j ltac:(lia) ltac:(lia)). unfold kn in *. rewrite A in K. rewrite B in MM. lra.
Qed.
Lemma cderiv i t : (i < size b)%nat -> in_dom b t -> deriv_within (in_dom b) (ev b i) t (dev b i t).
Proof.
  intros L T. unfold dev. destruct (locate b V t T) as [(j & LO & _)|X].
  - rewrite (eval_diff_dpc b V 1 i j t D clow L LO). cbn [value_of]. unfold in_dom in *. destruct (Req_dec t (dom1 b)) as [N1|N1]; [|destruct (Req_dec t (dom0 b)) as [N0|N0]].
    + destruct (diff_left_end_l b V 1 i D clow L) as (j' & LO' & H). assert (X := eval_diff_dpc b V 1 i j' _ D clow L LO'). rewrite <- N1 in X, H. rewrite (eval_diff_dpc b V 1 i j t D clow L LO) in X. injection X as ->.
      refine (deriv_sub _ _ _ _ _ _ H). intros y; lra.
    + refine (deriv_sub _ _ _ _ _ _ (diff_right_l b V 1 i j t D clow L LO _)). { intros y; lra. } destruct LO as (_ & _ & _ & _ & [Q|[Q _]]); [exact Q|lra].
    + assert (H := diff_full_l b V 1 i j t D clow L LO ltac:(lra)). rewrite D in H. specialize (H (csimple t ltac:(lra))).
      apply (deriv_within_agree _ _ (ev b i)); [exact H|reflexivity|]. exists 1. split; [lra|]. reflexivity.
  - destruct (diff_left_end_l b V 1 i D clow L) as (j' & LO' & H). rewrite X. rewrite (eval_diff_dpc b V 1 i j' _ D clow L LO'). cbn [value_of].
    refine (deriv_sub _ _ _ _ _ _ H). unfold in_dom. intros y; lra.
Qed.
Lemma cvec I t : (I < n)%nat -> eval_vector b I t = Some (map (fun r => ev b (I + r) t) (seq 0 3)).
Proof. intros L. rewrite (eval_vector_l b V t I L), D. reflexivity. Qed.
Lemma cdvec I t : in_cell b I t -> eval_diff_vector b I t = Some (map (fun r => dev b (I + r) t) (seq 0 3)).
Proof.
  intros C. destruct csizes as (S1 & S2 & S3). assert (L := proj1 C). unfold eval_diff_vector. rewrite D. cbn [Nat.add seq map].
  unfold dev. replace (I + 0)%nat with I by lia. replace (I + 2)%nat with (S (S I)) by lia. replace (I + 1)%nat with (S I) by lia.
  rewrite (cdev I t I C), (cdev I t (S I) C), (cdev I t (S (S I)) C) by lia. reflexivity.
Qed.
Lemma cwindow c I t : in_cell b I t -> rsum 3 (fun r => c (I + r)%nat * ev b (I + r) t) = rsum (size b) (fun i => c i * ev b i t).
Proof.
  intros C. destruct csizes as (S1 & S2 & S3). assert (L := proj1 C). symmetry. rewrite (rsum_window _ I 3); [reflexivity|lia|]. intros i Hi O.
  rewrite (proj1 (coutside I t i C Hi O)). ring.
Qed.
Lemma cdwindow c I t : in_cell b I t -> rsum 3 (fun r => c (I + r)%nat * dev b (I + r) t) = rsum (size b) (fun i => c i * dev b i t).
Proof.
  intros C. destruct csizes as (S1 & S2 & S3). assert (L := proj1 C). symmetry. rewrite (rsum_window _ I 3); [reflexivity|lia|]. intros i Hi O.
  rewrite (proj2 (coutside I t i C Hi O)). ring.
Qed.
(** A point of several closed intervals. *)
Lemma cell_other I J t : in_cell b I t -> in_cell b J t -> (I < J)%nat -> J = S I /\ t = k (I + 3)%nat /\ t = k (J + 2)%nat.
Proof.
  intros [L A] [M B] H. destruct csizes as (S1 & S2 & S3). destruct (Nat.eq_dec J (S I)) as [-> |X].
  - split; [reflexivity|]. replace (S I + 2)%nat with (I + 3)%nat in * by lia. split; lra.
  - assert (K := strict_lt (S I) J ltac:(lia)). replace (S I + 2)%nat with (I + 3)%nat in K by lia. lra.
Qed.
End Cells.
