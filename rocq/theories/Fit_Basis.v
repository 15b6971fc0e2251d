(** Bases of degree 2 with equal intervals: values and derivatives on closed intervals. *)
From Coq Require Import List Arith Lia Bool Reals Lra Psatz.
From Verif Require Import Spline_Model Spline_Spec Spline_Piece Spline_Proofs Spline_Curve Fit_Model.
Import ListNotations.
Local Open Scope R_scope.

Record equal_basis (b : basis) (n : nat) : Prop := {
  eb_valid : valid_basis b; eb_deg : degree b = 2%nat; eb_n : n_intervals b = n; eb_dom0 : dom0 b = 0; eb_dom1 : dom1 b = 1;
  eb_kn : forall i, (i <= n)%nat -> kn (knots b) (2 + i) = INR i / INR n }.
Definition dev (b : basis) (i : nat) (t : R) : R := value_of (eval_diff b i t).

Lemma make_equal n b : make_equidistant 2 n 0 1 = Some b -> (0 < n)%nat /\ equal_basis b n.
Proof.
  intros E. assert (N : (0 < n)%nat). { destruct n; [discriminate E|lia]. } split; [exact N|].
  destruct (make_equidistant_l 2 n 0 1 N ltac:(lra)) as (b' & E' & V & D & I & D0 & D1 & K). rewrite E in E'. injection E' as <-.
  constructor; auto. intros i L. rewrite K by exact L. unfold Rdiv. ring.
Qed.

Section Equal.
Variables (b : basis) (n : nat).
Hypothesis N : (0 < n)%nat.
Hypothesis E : equal_basis b n.
Notation k := (kn (knots b)).
Let V := eb_valid b n E.
Lemma n_pos : 0 < INR n.
Proof. apply lt_0_INR. exact N. Qed.
Lemma sizes : size b = (n + 2)%nat /\ length (knots b) = (n + 5)%nat.
Proof. destruct (len_eq b V) as (A & _ & C). rewrite (eb_deg b n E), (eb_n b n E) in *. lia. Qed.
Lemma knot_at I : (I <= n)%nat -> k (I + 2)%nat = INR I / INR n.
Proof. intros L. rewrite Nat.add_comm. apply (eb_kn b n E). exact L. Qed.
Lemma knot_step I : (I < n)%nat -> k (I + 3)%nat = k (I + 2)%nat + / INR n.
Proof. intros L. replace (I + 3)%nat with (S I + 2)%nat by lia. rewrite !knot_at by lia. rewrite S_INR. unfold Rdiv. ring. Qed.
Lemma step_pos : 0 < / INR n.
Proof. apply Rinv_0_lt_compat, n_pos. Qed.
Lemma low : low_multiplicity b.
Proof.
  intros i L. destruct sizes as [S1 S2]. rewrite (eb_deg b n E). assert (P := step_pos). rewrite S1 in L.
  destruct (Nat.eq_dec i 1) as [-> |N1].
  - assert (K := knot_step 0 N). cbn in K. assert (M := mono b V 1 2 ltac:(lia) ltac:(lia)). cbn. lra.
  - replace (i + 2)%nat with ((i - 2) + 4)%nat by lia. assert (K := knot_step (i - 2) ltac:(lia)). assert (M := mono b V (i - 2 + 3) (i - 2 + 4) ltac:(lia) ltac:(lia)).
    replace (i - 2 + 2)%nat with i in K by lia. lra.
Qed.
Definition cell (I : nat) (t : R) : Prop := (I < n)%nat /\ k (I + 2)%nat <= t <= k (I + 3)%nat.
Lemma cell_unit I t : cell I t -> 0 <= t <= 1.
Proof.
  intros [L C]. destruct sizes as [S1 S2]. rewrite <- (eb_dom0 b n E), <- (eb_dom1 b n E). split.
  - unfold dom0. rewrite (eb_deg b n E). assert (M := mono b V 2 (I + 2) ltac:(lia) ltac:(lia)). lra.
  - assert (M := k_le_end b V (I + 3) ltac:(lia)). lra.
Qed.
Lemma located_cell I t : cell I t -> (t < k (I + 3)%nat \/ S I = n) -> located b (I + 2) t.
Proof.
  intros [L C] H. destruct sizes as [S1 S2]. assert (P := step_pos). assert (K := knot_step I L). unfold located. rewrite (eb_deg b n E), S1.
  replace (I + 2 + 1)%nat with (I + 3)%nat by lia. split; [lia|]. split; [lia|]. split; [lra|]. split; [lra|].
  destruct H as [H|H]; [left; exact H|]. destruct (Rlt_dec t (k (I + 3)%nat)) as [X|X]; [left; exact X|right]. split; [|lia].
  assert (Q := k_end b V (I + 3) ltac:(lia) ltac:(lia)). lra.
Qed.
Lemma cell_next I t : cell I t -> ~ (t < k (I + 3)%nat \/ S I = n) -> cell (S I) t /\ located b (I + 3) t /\ k (I + 2)%nat < t < k (I + 3 + 1)%nat /\ forall q, (I + 2 < q <= I + 3)%nat -> k q = t.
Proof.
  intros [L C] H. assert (P := step_pos). assert (t = k (I + 3)%nat) as T. { destruct (Rlt_dec t (k (I + 3)%nat)); [exfalso; apply H; now left|lra]. }
  assert (L2 : (S I < n)%nat). { destruct (Nat.eq_dec (S I) n); [exfalso; apply H; now right|lia]. }
  assert (K := knot_step (S I) L2). replace (S I + 2)%nat with (I + 3)%nat in K by lia.
  assert (CN : cell (S I) t). { split; [exact L2|]. replace (S I + 2)%nat with (I + 3)%nat by lia. lra. }
  split; [exact CN|]. split; [|split; [replace (I + 3 + 1)%nat with (S I + 3)%nat by lia; assert (K' := knot_step I L); lra|intros q Q; replace q with (I + 3)%nat by lia; now symmetry]]. replace (I + 3)%nat with (S I + 2)%nat by lia. apply located_cell; [exact CN|]. left. lra.
Qed.
Lemma cell_ev I t i : cell I t -> (i < size b)%nat -> ev b i t = pc k (I + 2) 2 i t.
Proof.
  intros C L. destruct sizes as [S1 S2]. assert (D := eb_deg b n E). destruct (Rlt_dec t (k (I + 3)%nat)) as [H|H]; [|destruct (Nat.eq_dec (S I) n) as [H2|H2]].
  - rewrite (ev_pc b V i (I + 2) t L) by (apply located_cell; auto). now rewrite D.
  - rewrite (ev_pc b V i (I + 2) t L) by (apply located_cell; auto). now rewrite D.
  - destruct (cell_next I t C) as (C' & LO & T); [tauto|]. rewrite (ev_pc b V i (I + 3) t L LO), D. assert (CI := proj1 C'). symmetry.
    apply (pc_cont k (length (knots b)) (I + 2) (I + 3) 2 t); try lia; try apply T.
Qed.
Lemma cell_dev I t i : cell I t -> (i < size b)%nat -> eval_diff b i t = Some (dpc k (I + 2) 1 i t).
Proof.
  intros C L. destruct sizes as [S1 S2]. assert (D := eb_deg b n E). destruct (Rlt_dec t (k (I + 3)%nat)) as [H|H]; [|destruct (Nat.eq_dec (S I) n) as [H2|H2]].
  - apply (eval_diff_dpc b V 1 i (I + 2) t D low L). apply located_cell; auto.
  - apply (eval_diff_dpc b V 1 i (I + 2) t D low L). apply located_cell; auto.
  - destruct (cell_next I t C) as (C' & LO & T); [tauto|]. rewrite (eval_diff_dpc b V 1 i (I + 3) t D low L LO). assert (CI := proj1 C'). f_equal.
    unfold dpc. rewrite !(pc_cont k (length (knots b)) (I + 2) (I + 3) 1 t); try lia; try reflexivity; apply T.
Qed.
Lemma cell_of t : 0 <= t <= 1 -> exists I, cell I t /\ find_knot_interval b t = Some I.
Proof.
  intros T. rewrite <- (eb_dom0 b n E), <- (eb_dom1 b n E) in T. destruct (find_spec b V t T) as (I & F & L & A & B). exists I. split; [|exact F].
  rewrite (eb_deg b n E), (eb_n b n E) in *. replace (2 + I)%nat with (I + 2)%nat in * by lia. replace (I + 2 + 1)%nat with (I + 3)%nat in B by lia. split; [exact L|].
  destruct B as [B|[B C]]; [lra|]. destruct sizes as [S1 S2]. assert (Q := k_end b V (I + 3) ltac:(lia) ltac:(lia)). lra.
Qed.
Lemma outside I t i : cell I t -> (i < size b)%nat -> (i < I \/ I + 2 < i)%nat -> ev b i t = 0 /\ dev b i t = 0.
Proof.
  intros C L H. unfold dev. rewrite (cell_ev I t i C L), (cell_dev I t i C L). cbn [value_of]. split; [apply pc_out; lia|].
  unfold dpc. rewrite !(pc_out k (I + 2) 1) by lia. unfold Rdiv. ring.
Qed.
Lemma gaps I : (I < n)%nat -> k (I + 1)%nat <= k (I + 2)%nat /\ k (I + 2)%nat < k (I + 3)%nat /\ k (I + 3)%nat <= k (I + 4)%nat.
Proof.
  intros L. destruct sizes as [S1 S2]. assert (K := knot_step I L). assert (P := step_pos). assert (M1 := mono b V (I + 1) (I + 2) ltac:(lia) ltac:(lia)). assert (M2 := mono b V (I + 3) (I + 4) ltac:(lia) ltac:(lia)). lra.
Qed.
Lemma base_vec I t : cell I t -> base_vector b I t = Some (map (fun r => ev b (I + r) t) (seq 0 3)).
Proof.
  intros C. assert (L := proj1 C). destruct sizes as [S1 S2]. destruct (gaps I L) as (G1 & G2 & G3). unfold base_vector. rewrite (eb_deg b n E). cbn [Nat.eqb seq map].
  destruct (deg2_pc b V (I + 2) t) as (E0 & E1 & E2); [replace (I + 2 + 1)%nat with (I + 3)%nat by lia; lra|lia|lia|].
  rewrite !(cell_ev I t) by (exact C || lia). replace (I + 2 - 2)%nat with (I + 0)%nat in E0 by lia. replace (I + 2 - 1)%nat with (I + 1)%nat in E0, E1 by lia.
  replace (I + 2 + 1)%nat with (I + 3)%nat in * by lia. replace (I + 2 + 2)%nat with (I + 4)%nat in * by lia. rewrite E0, E1, E2. unfold eval_vector_deg_2.
  destruct (Nat.leb_spec (I + 5) (length (knots b))); [|lia].
  assert ((k (I + 3)%nat - k (I + 1)%nat) * (k (I + 3)%nat - k (I + 2)%nat) <> 0) by (apply Rmult_integral_contrapositive; split; lra).
  assert ((k (I + 4)%nat - k (I + 2)%nat) * (k (I + 3)%nat - k (I + 2)%nat) <> 0) by (apply Rmult_integral_contrapositive; split; lra).
  cbv zeta. rewrite !ndiv_some by auto. reflexivity.
Qed.
Lemma diff_values I t : cell I t -> dev b I t = - 2 * (k (I + 3)%nat - t) / ((k (I + 3)%nat - k (I + 1)%nat) * (k (I + 3)%nat - k (I + 2)%nat)) /\
  dev b (I + 1) t = 2 * (k (I + 3)%nat - t) / ((k (I + 3)%nat - k (I + 1)%nat) * (k (I + 3)%nat - k (I + 2)%nat)) - 2 * (t - k (I + 2)%nat) / ((k (I + 4)%nat - k (I + 2)%nat) * (k (I + 3)%nat - k (I + 2)%nat)) /\
  dev b (I + 2) t = 2 * (t - k (I + 2)%nat) / ((k (I + 4)%nat - k (I + 2)%nat) * (k (I + 3)%nat - k (I + 2)%nat)).
Proof.
  intros C. assert (L := proj1 C). destruct sizes as [S1 S2]. destruct (gaps I L) as (G1 & G2 & G3).
  assert (Q1 : pc k (I + 2) 1 (I + 1) t = (k (I + 3)%nat - t) / (k (I + 3)%nat - k (I + 2)%nat)).
  { cbn [pc]. destruct (Nat.eqb_spec (I + 1) (I + 2)); [lia|]. destruct (Nat.eqb_spec (I + 1 + 1) (I + 2)); [|lia].
    replace (I + 1 + 1 + 1)%nat with (I + 3)%nat by lia. replace (I + 1 + 1)%nat with (I + 2)%nat by lia. ring. }
  assert (Q2 : pc k (I + 2) 1 (I + 2) t = (t - k (I + 2)%nat) / (k (I + 3)%nat - k (I + 2)%nat)).
  { cbn [pc]. rewrite Nat.eqb_refl. destruct (Nat.eqb_spec (I + 2 + 1) (I + 2)); [lia|]. replace (I + 2 + 1)%nat with (I + 3)%nat by lia. ring. }
  assert (Q0 : pc k (I + 2) 1 I t = 0) by (apply pc_out; lia). assert (Q3 : pc k (I + 2) 1 (I + 3) t = 0) by (apply pc_out; lia).
  unfold dev. rewrite !(cell_dev I t) by (exact C || lia). cbn [value_of]. unfold dpc. replace (I + 2 + 1)%nat with (I + 3)%nat by lia. replace (I + 1 + 1)%nat with (I + 2)%nat by lia.
  replace (I + 1 + 2 + 1)%nat with (I + 4)%nat by lia. replace (I + 1 + 2)%nat with (I + 3)%nat by lia. replace (I + 2 + 2)%nat with (I + 4)%nat by lia.
  rewrite Q0, Q1, Q2, Q3. replace (INR 2) with 2 by reflexivity. unfold Rdiv. rewrite ?Rmult_0_r, ?Rmult_0_l.
  split; [|split]; field; repeat split; lra.
Qed.
Lemma diff_vec I t : cell I t -> diff_base_vector b I t = Some (map (fun r => dev b (I + r) t) (seq 0 3)).
Proof.
  intros C. assert (L := proj1 C). destruct sizes as [S1 S2]. destruct (gaps I L) as (G1 & G2 & G3). unfold diff_base_vector. rewrite (eb_deg b n E). cbn [Nat.eqb seq map].
  replace (I + 0)%nat with I by lia. destruct (diff_values I t C) as (E0 & E1 & E2). rewrite E0, E1, E2. unfold eval_diff_vector_deg_2.
  destruct (Nat.leb_spec (I + 5) (length (knots b))); [|lia].
  assert ((k (I + 3)%nat - k (I + 1)%nat) * (k (I + 3)%nat - k (I + 2)%nat) <> 0) by (apply Rmult_integral_contrapositive; split; lra).
  assert ((k (I + 4)%nat - k (I + 2)%nat) * (k (I + 3)%nat - k (I + 2)%nat) <> 0) by (apply Rmult_integral_contrapositive; split; lra).
  cbv zeta. rewrite !ndiv_some by auto. cbn [oplus all_some]. f_equal. f_equal; f_equal. field; repeat split; lra.
Qed.
Lemma twice (l : list R) t : (2 <= multiplicity l t)%nat -> exists i j, (i < j < length l)%nat /\ nth i l 0 = t /\ nth j l 0 = t.
Proof.
  unfold multiplicity. induction l as [|x l IH]; cbn; [lia|]. destruct (Req_EM_T x t) as [-> |D].
  - intros M. assert (M1 : (count_occ Req_EM_T l t > 0)%nat) by lia. apply count_occ_In in M1. apply (In_nth _ _ 0) in M1 as (j & J & H). exists 0%nat, (S j). split; [lia|]. now split.
  - intros M. destruct (IH M) as (i & j & L & A & B). exists (S i), (S j). split; [lia|]. now split.
Qed.
Lemma simple t : 0 < t < 1 -> (multiplicity (knots b) t < 2)%nat.
Proof.
  intros T. destruct (le_lt_dec 2 (multiplicity (knots b) t)) as [M|M]; [exfalso|exact M]. apply twice in M as (i & j & L & A & B). destruct sizes as [S1 S2].
  assert (I2 : (2 < i)%nat). { destruct (le_lt_dec i 2) as [X|X]; [|exact X]. assert (K := k_start b V i ltac:(rewrite (eb_deg b n E); lia)). unfold kn in K. rewrite A, (eb_dom0 b n E) in K. lra. }
  assert (JN : (j < n + 2)%nat). { destruct (le_lt_dec (n + 2) j) as [X|X]; [|exact X]. assert (K := k_end b V j ltac:(lia) ltac:(lia)). unfold kn in K. rewrite B, (eb_dom1 b n E) in K. lra. }
  assert (K := knot_step (i - 2) ltac:(lia)). assert (P := step_pos). replace (i - 2 + 2)%nat with i in K by lia. assert (MM := mono b V (i - 2 + 3) j ltac:(lia) ltac:(lia)). unfold kn in *. rewrite A in K. rewrite B in MM. lra.
Qed.
Definition unit_interval (y : R) : Prop := 0 <= y <= 1.
Lemma deriv_sub (D D' : R -> Prop) f x d : (forall y, D y -> D' y) -> deriv_within D' f x d -> deriv_within D f x d.
Proof. intros S H e P. destruct (H e P) as (del & Q & F). exists del. split; [exact Q|]. intros y Y. apply F. now apply S. Qed.
Lemma deriv_ev i t : (i < size b)%nat -> 0 <= t <= 1 -> deriv_within unit_interval (ev b i) t (dev b i t).
Proof.
  intros L T. assert (D := eb_deg b n E). assert (D0 := eb_dom0 b n E). assert (D1 := eb_dom1 b n E). unfold dev.
  destruct (locate b V t ltac:(lra)) as [(j & LO & _)|X].
  - rewrite (eval_diff_dpc b V 1 i j t D low L LO). cbn [value_of]. destruct (Req_dec t 1) as [-> |N1]; [|destruct (Req_dec t 0) as [-> |N0]].
    + destruct (diff_left_end_l b V 1 i D low L) as (j' & LO' & H). rewrite D1 in *. assert (X := eval_diff_dpc b V 1 i j' 1 D low L LO'). rewrite (eval_diff_dpc b V 1 i j 1 D low L LO) in X. injection X as ->.
      refine (deriv_sub _ _ _ _ _ _ H). unfold unit_interval. intros y; lra.
    + refine (deriv_sub _ _ _ _ _ _ (diff_right_l b V 1 i j 0 D low L LO _)). { unfold unit_interval. intros y; lra. } destruct LO as (_ & _ & _ & _ & [Q|[Q _]]); [exact Q|lra].
    + assert (H := diff_full_l b V 1 i j t D low L LO ltac:(lra)). rewrite D in H. specialize (H (simple t ltac:(lra))).
      apply (deriv_within_agree _ _ (ev b i)); [exact H|reflexivity|]. exists 1. split; [lra|]. reflexivity.
  - destruct (diff_left_end_l b V 1 i D low L) as (j' & LO' & H). rewrite X. rewrite (eval_diff_dpc b V 1 i j' _ D low L LO'). cbn [value_of].
    refine (deriv_sub _ _ _ _ _ _ H). unfold unit_interval. intros y; lra.
Qed.
End Equal.
