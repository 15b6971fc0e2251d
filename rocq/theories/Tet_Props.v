(** Property C115 (shapes of tetrahedra). *)
From Coq Require Import List Arith Lia Bool Reals Lra Psatz.
From Verif Require Import Spline_Model Spline_Proofs Tet_Model Tet_Spec Tet_Proofs.
Import ListNotations.
Local Open Scope R_scope.

Definition nodes4 (a b c d : vec) (i : nat) : vec := match i with O => a | 1%nat => b | 2%nat => c | _ => d end.
Lemma lens n : edge_lens n = [norm (minus (n 1%nat) (n 0%nat)); norm (minus (n 2%nat) (n 0%nat)); norm (minus (n 3%nat) (n 0%nat)); norm (minus (n 3%nat) (n 2%nat)); norm (minus (n 3%nat) (n 1%nat)); norm (minus (n 2%nat) (n 1%nat))].
Proof. reflexivity. Qed.
(** The product of the code, by the vector K. *)
Lemma gamma_K n : gmsh_gamma n = if Rltb 0 (4 * dot (K n) (K n)) then Some (3 * (3 * (Rabs (D n) / 6) / SF n) / at_least (sqrt (4 * dot (K n) (K n)) / 24 / at_least (Rabs (D n) / 6))) else None.
Proof. unfold gmsh_gamma. rewrite lens, x_area_K, measure_D, areas. reflexivity. Qed.
Lemma least_pos x : 0 < at_least x.
Proof. unfold at_least. assert (0 < / 10 ^ 300) by (apply Rinv_0_lt_compat, pow_lt; lra). apply Rlt_le_trans with (1 := H). apply Rmax_l. Qed.
Lemma least_id x : / 10 ^ 300 <= x -> at_least x = x.
Proof. intros H. now apply Rmax_right. Qed.
Lemma least_ge x : x <= at_least x.
Proof. apply Rmax_r. Qed.

(** * C115: the quality is three times the ratio of the radii *)
Theorem C115_gamma : forall n, volume6 (n 0%nat) (n 1%nat) (n 2%nat) (n 3%nat) <> 0 -> exists g c ro m ri, gmsh_gamma n = Some g /\ 0 < g /\
  circumscribed n c ro /\ inscribed n m ri /\ 0 < ri /\ 3 * ri <= ro /\
  (/ 10 ^ 300 <= Rabs (volume6 (n 0%nat) (n 1%nat) (n 2%nat) (n 3%nat)) / 6 -> g <= 1 /\ (/ 10 ^ 300 <= ro -> g * ro = 3 * ri)).
Proof.
  intros n V. rewrite <- D_volume in *. assert (KP := K_pos n V). assert (RP := rr_pos n V).
  eexists _, (centre n), (RR n), (inner_point n), (rr n). rewrite gamma_K, (rr_code n V). destruct (Rltb_spec 0 (4 * dot (K n) (K n))); [|exfalso; lra]. split; [reflexivity|].
  split; [apply Rmult_lt_0_compat; [lra|apply Rinv_0_lt_compat, least_pos]|]. split; [now apply centre_nodes|]. split; [now apply inner_sphere|]. split; [exact RP|]. assert (T := third n V). split; [exact T|].
  intros L. rewrite (least_id _ L), (RR_code n V). split.
  - apply Rmult_le_reg_r with (at_least (RR n)); [apply least_pos|]. unfold Rdiv. rewrite Rmult_assoc, Rinv_l by (apply Rgt_not_eq, least_pos). rewrite Rmult_1_l, Rmult_1_r. apply Rle_trans with (1 := T). apply least_ge.
  - intros H. rewrite (least_id _ H). field. assert (X := RR_pos n V). lra.
Qed.
Print Assumptions C115_gamma.

(** * C115: flat tetrahedra; nodes on one circle fail the assertion *)
Theorem C115_flat : forall n g, volume6 (n 0%nat) (n 1%nat) (n 2%nat) (n 3%nat) = 0 -> gmsh_gamma n = Some g -> g = 0.
Proof.
  intros n g V E. rewrite <- D_volume in V. rewrite gamma_K, V, Rabs_R0 in E. destruct (Rltb 0 (4 * dot (K n) (K n))); [|discriminate]. injection E as <-. unfold Rdiv. ring.
Qed.
Print Assumptions C115_flat.
Theorem C115_circle : forall n c r, volume6 (n 0%nat) (n 1%nat) (n 2%nat) (n 3%nat) = 0 -> circumscribed n c r -> gmsh_gamma n = None.
Proof.
  intros n c r V C. rewrite <- D_volume in V. assert (Q : forall i, (i < 4)%nat -> dot (minus c (n i)) (minus c (n i)) = r * r) by (intros i I; rewrite <- (C i I), distance_norm; symmetry; apply norm_sq).
  assert (Z : K n = (0, 0, 0)).
  { assert (X0 := Q 0%nat ltac:(lia)). assert (X1 := Q 1%nat ltac:(lia)). assert (X2 := Q 2%nat ltac:(lia)). assert (X3 := Q 3%nat ltac:(lia)). unfold K.
    assert (H : forall i, (i < 4)%nat -> dot (minus (n i) (n 0%nat)) (minus (n i) (n 0%nat)) = 2 * dot (minus c (n 0%nat)) (minus (n i) (n 0%nat))).
    { intros i I. assert (Y := Q i I). rewrite <- X0 in Y. clear - Y. destruct (n 0%nat) as [[? ?] ?], (n i) as [[? ?] ?], c as [[? ?] ?]. spell. lra. }
    rewrite (H 1%nat), (H 2%nat), (H 3%nat) by lia. unfold D in V. clear - V. set (p := minus (n 1%nat) _) in *. set (q := minus (n 2%nat) _) in *. set (w := minus (n 3%nat) _) in *. set (o := minus c _) in *. clearbody p q w o. 
    transitivity (let '(x, y, z) := o in (2 * dot p (cross q w) * x, 2 * dot p (cross q w) * y, 2 * dot p (cross q w) * z)); [|rewrite V; destruct o as [[? ?] ?]; f_equal; [f_equal|]; ring].
    clear V. destruct p as [[? ?] ?], q as [[? ?] ?], w as [[? ?] ?], o as [[? ?] ?]. unfold lin3. spell. f_equal; [f_equal|]; ring. }
  rewrite gamma_K, Z. destruct (Rltb_spec 0 (4 * dot (0, 0, 0) (0, 0, 0))) as [H|]; [|reflexivity]. exfalso. spell. lra.
Qed.
Print Assumptions C115_circle.

(** * C115: the distance of opposite edges *)
Lemma parallel_cross a b c d : norm (cross (minus b a) (minus d c)) = 0 <-> ~ not_parallel a b c d.
Proof.
  rewrite norm_zero. set (e := minus b a). set (f := minus d c). assert (W : not_parallel a b c d <-> forall s t, comb (0, 0, 0) e f s t = (0, 0, 0) -> s = 0 /\ t = 0).
  { unfold not_parallel, e, f, comb. clear. destruct a as [[? ?] ?], b as [[? ?] ?], c as [[? ?] ?], d as [[? ?] ?]. spell. split; intros H s t.
    - intros E. injection E as E1 E2 E3. apply H; lra.
    - intros E1 E2 E3. apply H. f_equal; [f_equal|]; lra. }
  rewrite W. clearbody e f. clear W. split.
  - intros Z H. destruct (Req_dec (dot f f) 0) as [F|F].
    + assert (N : norm f = 0) by (unfold norm; rewrite F; apply sqrt_0). apply norm_zero in N. subst f. destruct (H 0 1) as [_ X]; [|lra]. unfold comb. coords. f_equal; [f_equal|]; ring.
    + destruct (H (dot f f) (- dot e f)) as [X _]; [|contradiction]. clear H F. transitivity (cross (cross e f) f); [clear Z; unfold comb; coords; spell; f_equal; [f_equal|]; ring|]. rewrite Z. clear. coords. spell. f_equal; [f_equal|]; ring.
  - intros H. assert (P := dot_pos (cross e f)). destruct (Req_dec (dot (cross e f) (cross e f)) 0) as [Z|Z]; [apply norm_zero; unfold norm; rewrite Z; apply sqrt_0|].
    exfalso. apply H. intros s t E. assert (E1 : s * dot (cross e f) (cross e f) = - dot (cross (comb (0, 0, 0) e f s t) f) (cross e f)) by (clear; unfold comb; coords; spell; ring).
    assert (E2 : t * dot (cross e f) (cross e f) = - dot (cross e (comb (0, 0, 0) e f s t)) (cross e f)) by (clear; unfold comb; coords; spell; ring). rewrite E in E1, E2.
    assert (Y1 : dot (cross (0, 0, 0) f) (cross e f) = 0) by (clear; coords; spell; ring). assert (Y2 : dot (cross e (0, 0, 0)) (cross e f) = 0) by (clear; coords; spell; ring). rewrite Y1 in E1. rewrite Y2 in E2.
    split; [destruct (Rmult_integral s (dot (cross e f) (cross e f)))|destruct (Rmult_integral t (dot (cross e f) (cross e f)))]; try assumption; try lra; contradiction.
Qed.
Definition steps (a b : point) : point := (px b - px a, py b - py a, pz b - pz a).
Definition across (u e : point) : Prop := px u * px e + py u * py e + pz u * pz e = 0.
Definition towards (p q : point) (d : R) (u : point) : Prop := px p - px q = d * px u /\ py p - py q = d * py u /\ pz p - pz q = d * pz u.
Theorem C115_skew : forall n,
  (not_parallel (n 0%nat) (n 1%nat) (n 2%nat) (n 3%nat) -> exists d u, skew_line_dist n = Some (d, u) /\ distance u (0, 0, 0) = 1 /\
    across u (steps (n 0%nat) (n 1%nat)) /\ across u (steps (n 2%nat) (n 3%nat)) /\ 0 < volume6 (0, 0, 0) (steps (n 0%nat) (n 1%nat)) (steps (n 2%nat) (n 3%nat)) u /\
    (forall s t, Rabs d <= distance (on_line (n 0%nat) (n 1%nat) s) (on_line (n 2%nat) (n 3%nat) t)) /\
    exists s t, towards (on_line (n 0%nat) (n 1%nat) s) (on_line (n 2%nat) (n 3%nat) t) d u /\ distance (on_line (n 0%nat) (n 1%nat) s) (on_line (n 2%nat) (n 3%nat) t) = Rabs d) /\
  (~ not_parallel (n 0%nat) (n 1%nat) (n 2%nat) (n 3%nat) -> skew_line_dist n = None).
Proof.
  intros n. assert (P := parallel_cross (n 0%nat) (n 1%nat) (n 2%nat) (n 3%nat)). unfold skew_line_dist. split.
  - intros NP. destruct (Reqb_spec (norm (cross (minus (n 1%nat) (n 0%nat)) (minus (n 3%nat) (n 2%nat)))) 0) as [Z|Z]; [exfalso; now apply P in Z|]. clear P NP.
    assert (L : forall s t, distance (on_line (n 0%nat) (n 1%nat) s) (on_line (n 2%nat) (n 3%nat) t) = norm (comb (minus (n 0%nat) (n 2%nat)) (minus (n 1%nat) (n 0%nat)) (minus (n 3%nat) (n 2%nat)) (- s) t)).
    { intros s t. rewrite distance_norm. f_equal. unfold comb. destruct (n 0%nat) as [[? ?] ?], (n 1%nat) as [[? ?] ?], (n 2%nat) as [[? ?] ?], (n 3%nat) as [[? ?] ?]. spell. f_equal; [f_equal|]; ring. }
    assert (FL := flat_least (minus (n 0%nat) (n 2%nat)) _ _ Z). destruct (flat_foot (minus (n 0%nat) (n 2%nat)) _ _ Z) as (s & t & E & N).
    set (c := cross (minus (n 1%nat) (n 0%nat)) (minus (n 3%nat) (n 2%nat))) in *. assert (NP := norm_pos c). assert (Q := norm_sq c).
    assert (A : Rabs (dot (over c (norm c)) (minus (n 0%nat) (n 2%nat))) = Rabs (dot (minus (n 0%nat) (n 2%nat)) c) / norm c).
    { replace (dot (over c (norm c)) (minus (n 0%nat) (n 2%nat))) with (dot (minus (n 0%nat) (n 2%nat)) c / norm c).
      - unfold Rdiv. rewrite Rabs_mult. f_equal. apply Rabs_pos_eq. left. apply Rinv_0_lt_compat. lra.
      - generalize dependent (norm c). intros k. intros. clear - Z. clearbody c. generalize (minus (n 0%nat) (n 2%nat)). intros v. coords. spell. field. exact Z. }
    eexists _, _. split; [reflexivity|]. split; [|split; [|split; [|split; [|split]]]].
    + rewrite distance_norm. apply norm_is; [lra|]. generalize dependent (norm c). intros k. intros. clear - Z Q. clearbody c. coords. spell. field_simplify; [|exact Z]. replace (r ^ 2 + r0 ^ 2 + r1 ^ 2) with (k * k) by (rewrite Q; ring). field. exact Z.
    + clear - Z. unfold across, steps. generalize dependent (norm c). intros k Z. unfold c. clear c. destruct (n 0%nat) as [[? ?] ?], (n 1%nat) as [[? ?] ?], (n 2%nat) as [[? ?] ?], (n 3%nat) as [[? ?] ?]. spell. field. exact Z.
    + clear - Z. unfold across, steps. generalize dependent (norm c). intros k Z. unfold c. clear c. destruct (n 0%nat) as [[? ?] ?], (n 1%nat) as [[? ?] ?], (n 2%nat) as [[? ?] ?], (n 3%nat) as [[? ?] ?]. spell. field. exact Z.
    + replace (volume6 _ _ _ _) with (norm c); [lra|]. transitivity (dot c c / norm c); [rewrite <- Q; field; exact Z|]. clear - Z. unfold steps. generalize dependent (norm c). intros k Z. unfold c. clear c. destruct (n 0%nat) as [[? ?] ?], (n 1%nat) as [[? ?] ?], (n 2%nat) as [[? ?] ?], (n 3%nat) as [[? ?] ?]. spell. field. exact Z.
    + intros s' t'. rewrite A, L. apply FL.
    + exists (- s), t. split; [|rewrite L, Ropp_involutive, A; exact N]. clear - E. generalize dependent (norm c). intros k E. set (d := dot (over c k) _) in *. cbv zeta in E. clearbody d. unfold towards. generalize dependent (over c k). intros u E. clear c.
      unfold comb in E. destruct (n 0%nat) as [[? ?] ?], (n 1%nat) as [[? ?] ?], (n 2%nat) as [[? ?] ?], (n 3%nat) as [[? ?] ?], u as [[? ?] ?]. spell. injection E as E1 E2 E3. repeat split; lra.
  - intros NP. destruct (Reqb_spec (norm (cross (minus (n 1%nat) (n 0%nat)) (minus (n 3%nat) (n 2%nat)))) 0) as [Z|Z]; [reflexivity|]. exfalso. apply Z. now apply P.
Qed.
Print Assumptions C115_skew.
(** A corner of the cube; the nodes of a square; the edges over each other. *)
Example C115_case : let n := nodes4 (0, 0, 0) (1, 0, 0) (0, 1, 0) (0, 0, 1) in (exists g c ro m ri, gmsh_gamma n = Some g /\ 0 < g /\ g <= 1 /\ circumscribed n c ro /\ inscribed n m ri) /\
  gmsh_gamma (nodes4 (0, 0, 0) (1, 0, 0) (0, 1, 0) (1, 1, 0)) = None /\
  exists u, skew_line_dist (nodes4 (0, 0, 5) (1, 0, 5) (3, 1, 2) (3, 2, 2)) = Some (3, u).
Proof.
  intros n. split; [|split].
  - destruct (C115_gamma n) as (g & c & ro & m & ri & E & G & C & I & _ & _ & B); [unfold n, nodes4, volume6, px, py, pz; cbn [fst snd]; lra|]. exists g, c, ro, m, ri. repeat (split; [assumption|]). split; [|split; assumption].
    apply B. unfold n, nodes4, volume6, px, py, pz. cbn [fst snd]. rewrite Rabs_pos_eq by lra. replace ((1 - 0) * ((1 - 0) * (1 - 0) - (0 - 0) * (0 - 0)) + (0 - 0) * ((0 - 0) * (0 - 0) - (0 - 0) * (1 - 0)) + (0 - 0) * ((0 - 0) * (0 - 0) - (1 - 0) * (0 - 0))) with 1 by ring.
    apply Rle_trans with (/ 10 ^ 1); [|lra]. apply Rinv_le_contravar; [lra|]. apply Rle_pow; [lra|lia].
  - apply (C115_circle _ (1/2, 1/2, 0) (sqrt (1/2))).
    + unfold nodes4, volume6, px, py, pz. cbn [fst snd]. lra.
    + intros i I. unfold distance, px, py, pz. destruct i as [|[|[|[|i]]]]; [| | | |lia]; cbn [nodes4 fst snd]; f_equal; field.
  - unfold skew_line_dist. cbn [nodes4]. replace (cross (minus (1, 0, 5) (0, 0, 5)) (minus (3, 2, 2) (3, 1, 2))) with ((0, 0, 1) : vec) by (spell; f_equal; [f_equal|]; ring).
    assert (N : norm (0, 0, 1) = 1) by (apply norm_is; spell; lra). rewrite N. destruct (Reqb_spec 1 0); [lra|]. eexists. f_equal. f_equal. spell. field.
Qed.
