(** Spheres of tetrahedra and skew lines. *)
From Coq Require Import List Arith Lia Reals Lra Psatz.
From Verif Require Import Spline_Model Spline_Proofs Tet_Model Tet_Spec.
Import ListNotations.
Local Open Scope R_scope.

Ltac coords := repeat match goal with p : vec |- _ => destruct p as [[? ?] ?] | p : point |- _ => destruct p as [[? ?] ?] end.
Ltac spell := unfold on_line, on_plane, volume6, px, py, pz, dot, cross, minus, over in *; cbn [fst snd] in *.
Lemma distance_norm p q : distance p q = norm (minus p q).
Proof. coords. unfold distance, norm. f_equal. spell. ring. Qed.
Lemma dot_pos p : 0 <= dot p p.
Proof. coords. spell. nra. Qed.
Lemma norm_sq p : norm p * norm p = dot p p.
Proof. apply sqrt_sqrt, dot_pos. Qed.
Lemma norm_pos p : 0 <= norm p.
Proof. apply sqrt_pos. Qed.
Lemma norm_zero p : norm p = 0 <-> p = (0, 0, 0).
Proof.
  split.
  - intros H. assert (X := norm_sq p). rewrite H in X. coords. spell. assert (r = 0) by nra. assert (r0 = 0) by nra. assert (r1 = 0) by nra. now subst.
  - intros ->. unfold norm. spell. replace (0 * 0 + 0 * 0 + 0 * 0) with 0 by ring. apply sqrt_0.
Qed.
Lemma norm_is p r : 0 <= r -> r * r = dot p p -> norm p = r.
Proof. intros R0 E. unfold norm. rewrite <- E. now apply sqrt_square. Qed.
Lemma le_of_sq a b : 0 <= b -> a * a <= b * b -> a <= b.
Proof. intros B H. destruct (Rle_dec a b); [assumption|]. nra. Qed.
Lemma cauchy p q : dot p q * dot p q <= dot p p * dot q q.
Proof.
  assert (X := dot_pos (cross p q)). assert (E : dot (cross p q) (cross p q) = dot p p * dot q q - dot p q * dot p q) by (coords; spell; ring). lra.
Qed.

(** Combination of two directions. *)
Definition comb (w e f : vec) (s t : R) : vec := let '(x, y, z) := w in let '(a, b, c) := e in let '(a', b', c') := f in (x - s * a - t * a', y - s * b - t * b', z - s * c - t * c').
Lemma flat_least w e f : norm (cross e f) <> 0 -> forall s t, Rabs (dot w (cross e f)) / norm (cross e f) <= norm (comb w e f s t).
Proof.
  intros N s t. assert (P := norm_pos (cross e f)). assert (P' : 0 < norm (cross e f)) by lra. apply Rmult_le_reg_r with (norm (cross e f)); [exact P'|]. unfold Rdiv. rewrite Rmult_assoc, Rinv_l, Rmult_1_r by exact N.
  apply le_of_sq; [apply Rmult_le_pos; apply norm_pos|]. rewrite <- Rabs_mult. rewrite Rabs_pos_eq by nra.
  replace (norm (comb w e f s t) * norm (cross e f) * (norm (comb w e f s t) * norm (cross e f))) with (norm (comb w e f s t) * norm (comb w e f s t) * (norm (cross e f) * norm (cross e f))) by ring. rewrite !norm_sq.
  replace (dot w (cross e f)) with (dot (comb w e f s t) (cross e f)) by (unfold comb; coords; spell; ring). apply cauchy.
Qed.
(** The foot of w over the plane of e and f. *)
Lemma flat_foot w e f : norm (cross e f) <> 0 -> exists s t, comb w e f s t = (let '(x, y, z) := over (cross e f) (norm (cross e f)) in let d := dot (over (cross e f) (norm (cross e f))) w in (d * x, d * y, d * z)) /\
  norm (comb w e f s t) = Rabs (dot w (cross e f)) / norm (cross e f).
Proof.
  intros N. set (n := norm (cross e f)) in *. assert (Q : n * n = dot (cross e f) (cross e f)) by apply norm_sq. assert (P : 0 < n) by (assert (X := norm_pos (cross e f)); fold n in X; lra).
  set (s := dot (cross w f) (cross e f) / (n * n)). set (t := dot (cross e w) (cross e f) / (n * n)).
  assert (E : comb w e f s t = (let '(x, y, z) := over (cross e f) n in let d := dot (over (cross e f) n) w in (d * x, d * y, d * z))).
  { unfold s, t. clearbody n. unfold comb. coords. spell. assert (Z : n * n <> 0) by nra. f_equal; [f_equal|]; apply Rmult_eq_reg_r with (n * n); try exact Z; field_simplify; try lra; replace (n ^ 2) with (n * n) by ring; rewrite Q; ring. }
  exists s, t. split; [exact E|]. rewrite E. apply norm_is.
  - apply Rmult_le_pos; [apply Rabs_pos|]. left. now apply Rinv_0_lt_compat.
  - replace (Rabs (dot w (cross e f)) / n * (Rabs (dot w (cross e f)) / n)) with (Rabs (dot w (cross e f)) * Rabs (dot w (cross e f)) / (n * n)) by (field; lra). rewrite <- Rabs_mult, Rabs_pos_eq by nra.
    clear E s t. assert (D : dot (over (cross e f) n) w = dot w (cross e f) / n) by (clear - P; clearbody n; coords; spell; field; lra). rewrite D. set (k := dot w (cross e f)) in *. set (c := cross e f) in *. clearbody n c k. clear D N. coords. spell. field_simplify; try lra.
    replace (k ^ 2 * r ^ 2 + k ^ 2 * r0 ^ 2 + k ^ 2 * r1 ^ 2) with (k ^ 2 * (r * r + r0 * r0 + r1 * r1)) by ring. rewrite <- Q. field. lra.
Qed.
(** * The sphere through the nodes *)
Section Tetra.
Variable n : nat -> vec.
Notation n0 := (n 0%nat).
Notation n1 := (n 1%nat).
Notation n2 := (n 2%nat).
Notation n3 := (n 3%nat).
Notation p := (minus n1 n0).
Notation q := (minus n2 n0).
Notation w := (minus n3 n0).
Definition D : R := dot p (cross q w).
Lemma D_volume : D = volume6 n0 n1 n2 n3.
Proof. unfold D. destruct n0 as [[? ?] ?], n1 as [[? ?] ?], n2 as [[? ?] ?], n3 as [[? ?] ?]. spell. ring. Qed.
Lemma measure_D : Rabs (measure n) = Rabs D / 6.
Proof. unfold measure. fold D. unfold Rdiv. rewrite Rabs_mult. f_equal. apply Rabs_pos_eq. lra. Qed.
Definition lin3 (a b c : R) (x y z : vec) : vec := let '(x1, x2, x3) := x in let '(y1, y2, y3) := y in let '(z1, z2, z3) := z in (a * x1 + b * y1 + c * z1, a * x2 + b * y2 + c * z2, a * x3 + b * y3 + c * z3).
Definition K : vec := lin3 (dot p p) (dot q q) (dot w w) (cross q w) (cross w p) (cross p q).
Lemma K_p : dot K p = dot p p * D.
Proof. unfold K, D. generalize p, q, w. intros P Q W. generalize (dot P P) (dot Q Q) (dot W W). intros. coords. unfold lin3. spell. ring. Qed.
Lemma K_q : dot K q = dot q q * D.
Proof. unfold K, D. generalize p, q, w. intros P Q W. generalize (dot P P) (dot Q Q) (dot W W). intros. coords. unfold lin3. spell. ring. Qed.
Lemma K_w : dot K w = dot w w * D.
Proof. unfold K, D. generalize p, q, w. intros P Q W. generalize (dot P P) (dot Q Q) (dot W W). intros. coords. unfold lin3. spell. ring. Qed.
Lemma lin3_sq a b c x y z : dot (lin3 a b c x y z) (lin3 a b c x y z) = a * a * dot x x + b * b * dot y y + c * c * dot z z + 2 * a * b * dot x y + 2 * a * c * dot x z + 2 * b * c * dot y z.
Proof. coords. unfold lin3. spell. ring. Qed.
Lemma cross_dot a b c d : dot (cross a b) (cross c d) = dot a c * dot b d - dot a d * dot b c.
Proof. coords. spell. ring. Qed.
Lemma dot_comm a b : dot a b = dot b a.
Proof. coords. spell. ring. Qed.
Lemma dot_diff a b : dot (minus a b) (minus a b) = dot a a + dot b b - 2 * dot a b.
Proof. coords. spell. ring. Qed.
Lemma minus_diff a b c : minus a b = minus (minus a c) (minus b c).
Proof. coords. spell. f_equal; [f_equal|]; ring. Qed.
Lemma x_area_K : x_area (norm p) (norm q) (norm w) (norm (minus n3 n2)) (norm (minus n3 n1)) (norm (minus n2 n1)) = 4 * dot K K.
Proof.
  set (A := norm (minus n3 n2)). set (B := norm (minus n3 n1)). set (C := norm (minus n2 n1)).
  assert (EA : A * A = dot w w + dot q q - 2 * dot w q) by (unfold A; rewrite norm_sq, (minus_diff n3 n2 n0), dot_diff; reflexivity).
  assert (EB : B * B = dot w w + dot p p - 2 * dot w p) by (unfold B; rewrite norm_sq, (minus_diff n3 n1 n0), dot_diff; reflexivity).
  assert (EC : C * C = dot q q + dot p p - 2 * dot q p) by (unfold C; rewrite norm_sq, (minus_diff n2 n1 n0), dot_diff; reflexivity).
  assert (Ea := norm_sq p). assert (Eb := norm_sq q). assert (Ec := norm_sq w). unfold K. rewrite lin3_sq, !cross_dot. rewrite (dot_comm p q) in *. rewrite (dot_comm p w) in *. rewrite (dot_comm q w) in *.
  clearbody A B C. set (a := norm p) in *. set (b := norm q) in *. set (c := norm w) in *. clearbody a b c. unfold x_area.
  transitivity (2 * ((a * a) * (A * A) * (b * b) * (B * B) + (b * b) * (B * B) * (c * c) * (C * C) + (c * c) * (C * C) * (a * a) * (A * A)) - ((a * a) * (A * A) * ((a * a) * (A * A)) + (b * b) * (B * B) * ((b * b) * (B * B)) + (c * c) * (C * C) * ((c * c) * (C * C)))); [ring|].
  rewrite EA, EB, EC, Ea, Eb, Ec. ring.
Qed.
Hypothesis DN : D <> 0.
Definition shift (x : vec) (k : R) : vec := let '(x1, x2, x3) := n0 in let '(y1, y2, y3) := x in (x1 + k * y1, x2 + k * y2, x3 + k * y3).
Definition centre : vec := shift K (/ (2 * D)).
Definition RR : R := norm K / (2 * Rabs D).
Lemma absD : 0 < Rabs D.
Proof. now apply Rabs_pos_lt. Qed.
Lemma RR_sq : RR * RR = dot K K / (4 * (D * D)).
Proof. unfold RR. assert (X := absD). assert (Y : Rabs D * Rabs D = D * D) by (rewrite <- Rabs_mult; apply Rabs_pos_eq; nra). rewrite <- norm_sq, <- Y. field. lra. Qed.
Lemma centre_dist x : dot K (minus x n0) = dot (minus x n0) (minus x n0) * D -> distance centre x = RR.
Proof.
  intros E. rewrite distance_norm. apply norm_is.
  - apply Rmult_le_pos; [apply norm_pos|]. left. apply Rinv_0_lt_compat. assert (X := absD). lra.
  - rewrite RR_sq. unfold centre, shift. generalize dependent K. intros k E. assert (Z : D <> 0) by exact DN. generalize dependent D. intros d _ E Z.
    destruct n0 as [[a1 a2] a3], x as [[b1 b2] b3], k as [[k1 k2] k3]. spell. set (h := / (2 * d)). assert (H : 2 * d * h = 1) by (unfold h; field; exact Z).
    transitivity ((k1 * k1 + k2 * k2 + k3 * k3) * (h * h)); [unfold h; field; exact Z|].
    assert (M : ((b1 - a1) * (b1 - a1) + (b2 - a2) * (b2 - a2) + (b3 - a3) * (b3 - a3)) * (2 * d * h) = 2 * h * (k1 * (b1 - a1) + k2 * (b2 - a2) + k3 * (b3 - a3))) by (rewrite E; ring). rewrite H in M. nra.
Qed.
Lemma centre_nodes : circumscribed n centre RR.
Proof.
  intros i I. destruct i as [|[|[|[|i]]]]; [| | | |lia]; apply centre_dist; [|apply K_p|apply K_q|apply K_w]. replace (minus n0 n0) with ((0, 0, 0) : vec) by (destruct n0 as [[? ?] ?]; spell; f_equal; [f_equal|]; ring). generalize K. intros k. coords. spell. ring.
Qed.
Lemma K_pos : 0 < dot K K.
Proof.
  assert (X := dot_pos K). destruct (Req_dec (dot K K) 0) as [Z|Z]; [|lra]. exfalso. assert (C := cauchy K p). rewrite Z, K_p in C. assert (P : dot p p * D = 0) by nra. apply Rmult_integral in P as [P|P]; [|contradiction].
  apply DN. unfold D. assert (N : norm p = 0) by (unfold norm; rewrite P; apply sqrt_0). apply norm_zero in N. rewrite N. generalize (cross q w). intros v. coords. spell. ring.
Qed.
Lemma RR_pos : 0 < RR.
Proof. unfold RR. assert (X := absD). apply Rmult_lt_0_compat; [apply sqrt_lt_R0, K_pos|apply Rinv_0_lt_compat; lra]. Qed.
Lemma RR_code : sqrt (4 * dot K K) / 24 / (Rabs D / 6) = RR.
Proof. rewrite sqrt_mult by (try lra; apply dot_pos). replace (sqrt 4) with 2 by (replace 4 with (2 * 2) by ring; symmetry; apply sqrt_square; lra). unfold RR, norm. assert (X := absD). field. lra. Qed.

(** * The sphere inside *)
Definition F0 : R := norm (cross (minus n2 n0) (minus n1 n0)) / 2.
Definition F1 : R := norm (cross (minus n1 n0) (minus n3 n0)) / 2.
Definition F2 : R := norm (cross (minus n3 n0) (minus n2 n0)) / 2.
Definition F3 : R := norm (cross (minus n2 n1) (minus n3 n1)) / 2.
Definition SF : R := F0 + (F1 + (F2 + (F3 + 0))).
Lemma areas : fold_right Rplus 0 (face_areas n) = SF.
Proof. reflexivity. Qed.
Lemma norm_neg a b : norm (cross a b) = norm (cross b a).
Proof. unfold norm. f_equal. coords. spell. ring. Qed.
Lemma area_pos a b x : dot x (cross a b) <> 0 -> 0 < norm (cross a b).
Proof.
  intros H. assert (X := norm_pos (cross a b)). destruct (Req_dec (norm (cross a b)) 0) as [Z|Z]; [|lra]. exfalso. apply H. apply norm_zero in Z. rewrite Z. coords. spell. ring.
Qed.
(** A point with weight k of d in the corners a, b, c, d. *)
Lemma face_dist (m a b c d : vec) k kb kc : m = (let '(x, y, z) := a in let '(bx, by_, bz) := minus b a in let '(cx, cy, cz) := minus c a in let '(dx, dy, dz) := minus d a in (x + kb * bx + kc * cx + k * dx, y + kb * by_ + kc * cy + k * dy, z + kb * bz + kc * cz + k * dz)) ->
  0 <= k -> Rabs (dot (minus d a) (cross (minus b a) (minus c a))) = Rabs D -> from_plane m a b c (k * Rabs D / norm (cross (minus b a) (minus c a))).
Proof.
  intros EM K0 V. assert (N : 0 < norm (cross (minus b a) (minus c a))). { apply (area_pos _ _ (minus d a)). intros Z. rewrite Z, Rabs_R0 in V. assert (X := absD). lra. }
  assert (DM : Rabs (dot (minus m a) (cross (minus b a) (minus c a))) = k * Rabs D). { rewrite <- V. transitivity (Rabs (k * dot (minus d a) (cross (minus b a) (minus c a)))); [|rewrite Rabs_mult; f_equal; now apply Rabs_pos_eq]. f_equal. clear V N. subst m. coords. spell. ring. }
  assert (CB : forall s t, distance m (on_plane a b c s t) = norm (comb (minus m a) (minus b a) (minus c a) s t)). { intros s t. rewrite distance_norm. f_equal. clear. coords. unfold comb. spell. f_equal; [f_equal|]; ring. }
  rewrite <- DM. split.
  - intros s t. rewrite CB. apply flat_least. lra.
  - destruct (flat_foot (minus m a) (minus b a) (minus c a)) as (s & t & _ & E); [lra|]. exists s, t. now rewrite CB.
Qed.
Definition rr : R := Rabs D / (2 * SF).
Lemma face_pos : 0 < F0 /\ 0 < F1 /\ 0 < F2 /\ 0 < F3.
Proof.
  unfold F0, F1, F2, F3. repeat split; (apply Rmult_lt_0_compat; [|lra]).
  - apply (area_pos _ _ (minus n3 n0)). intros Z. apply DN. unfold D. rewrite <- Ropp_0, <- Z. generalize p, q, w. intros. coords. spell. ring.
  - apply (area_pos _ _ (minus n2 n0)). intros Z. apply DN. unfold D. rewrite <- Ropp_0, <- Z. generalize p, q, w. intros. coords. spell. ring.
  - apply (area_pos _ _ (minus n1 n0)). intros Z. apply DN. unfold D. rewrite <- Ropp_0, <- Z. generalize p, q, w. intros. coords. spell. ring.
  - apply (area_pos _ _ (minus n0 n1)). intros Z. apply DN. unfold D. rewrite <- Ropp_0, <- Z. destruct n0 as [[? ?] ?], n1 as [[? ?] ?], n2 as [[? ?] ?], n3 as [[? ?] ?]. spell. ring.
Qed.
Definition inner_point : vec :=
  let '(x0, y0, z0) := n0 in let '(x1, y1, z1) := n1 in let '(x2, y2, z2) := n2 in let '(x3, y3, z3) := n3 in
  let k0 := F3 / SF in let k1 := F2 / SF in let k2 := F1 / SF in let k3 := F0 / SF in
  (k0 * x0 + k1 * x1 + k2 * x2 + k3 * x3, k0 * y0 + k1 * y1 + k2 * y2 + k3 * y3, k0 * z0 + k1 * z1 + k2 * z2 + k3 * z3).
Lemma inner_sphere : inscribed n inner_point rr.
Proof.
  destruct face_pos as (P0 & P1 & P2 & P3). assert (S : 0 < SF) by (unfold SF; lra). assert (SE : F3 + F2 + F1 + F0 = SF) by (unfold SF; ring).
  set (k0 := F3 / SF). set (k1 := F2 / SF). set (k2 := F1 / SF). set (k3 := F0 / SF). assert (KS : k0 + k1 + k2 + k3 = 1) by (unfold k0, k1, k2, k3; rewrite <- SE; field; lra).
  assert (Q : forall f, 0 < f -> 0 < f / SF) by (intros f F; apply Rmult_lt_0_compat; [exact F|now apply Rinv_0_lt_compat]).
  assert (Q0 := Q F3 P3 : 0 < k0). assert (Q1 := Q F2 P2 : 0 < k1). assert (Q2 := Q F1 P1 : 0 < k2). assert (Q3 := Q F0 P0 : 0 < k3). assert (R0 : forall f, 0 < f -> rr = f / SF * Rabs D / (2 * f)) by (intros f F; unfold rr; field; lra).
  assert (E0 : k0 = 1 - k1 - k2 - k3) by lra.
  split; [|split; [|split; [|split]]].
  - exists k0, k1, k2, k3. repeat (split; [assumption|]). unfold inner_point. fold k0 k1 k2 k3. destruct n0 as [[? ?] ?], n1 as [[? ?] ?], n2 as [[? ?] ?], n3 as [[? ?] ?]. reflexivity.
  - rewrite (R0 F0 P0). replace (2 * F0) with (norm (cross (minus n1 n0) (minus n2 n0))) by (unfold F0; rewrite norm_neg; field). apply face_dist with (d := n3) (kb := k1) (kc := k2).
    + fold k3. unfold inner_point. fold k0 k1 k2 k3. rewrite E0. clear. destruct n0 as [[? ?] ?], n1 as [[? ?] ?], n2 as [[? ?] ?], n3 as [[? ?] ?]. spell. f_equal; [f_equal|]; ring.
    + fold k3. lra.
    + f_equal. unfold D. generalize p, q, w. intros. coords. spell. ring.
  - rewrite (R0 F1 P1). replace (2 * F1) with (norm (cross (minus n1 n0) (minus n3 n0))) by (unfold F1; field). apply face_dist with (d := n2) (kb := k1) (kc := k3).
    + fold k2. unfold inner_point. fold k0 k1 k2 k3. rewrite E0. clear. destruct n0 as [[? ?] ?], n1 as [[? ?] ?], n2 as [[? ?] ?], n3 as [[? ?] ?]. spell. f_equal; [f_equal|]; ring.
    + fold k2. lra.
    + rewrite <- Rabs_Ropp. f_equal. unfold D. generalize p, q, w. intros. coords. spell. ring.
  - rewrite (R0 F2 P2). replace (2 * F2) with (norm (cross (minus n2 n0) (minus n3 n0))) by (unfold F2; rewrite norm_neg; field). apply face_dist with (d := n1) (kb := k2) (kc := k3).
    + fold k1. unfold inner_point. fold k0 k1 k2 k3. rewrite E0. clear. destruct n0 as [[? ?] ?], n1 as [[? ?] ?], n2 as [[? ?] ?], n3 as [[? ?] ?]. spell. f_equal; [f_equal|]; ring.
    + fold k1. lra.
    + f_equal. 
  - rewrite (R0 F3 P3). replace (2 * F3) with (norm (cross (minus n2 n1) (minus n3 n1))) by (unfold F3; field). apply face_dist with (d := n0) (kb := k2) (kc := k3).
    + fold k0. unfold inner_point. fold k0 k1 k2 k3. replace k1 with (1 - k0 - k2 - k3) by lra. clear. destruct n0 as [[? ?] ?], n1 as [[? ?] ?], n2 as [[? ?] ?], n3 as [[? ?] ?]. spell. f_equal; [f_equal|]; ring.
    + fold k0. lra.
    + rewrite <- Rabs_Ropp. f_equal. unfold D. clear. destruct n0 as [[? ?] ?], n1 as [[? ?] ?], n2 as [[? ?] ?], n3 as [[? ?] ?]. spell. ring.
Qed.
Lemma rr_pos : 0 < rr.
Proof. destruct face_pos as (P0 & P1 & P2 & P3). assert (S : 0 < SF) by (unfold SF; lra). assert (X := absD). apply Rmult_lt_0_compat; [exact X|apply Rinv_0_lt_compat; lra]. Qed.
Lemma rr_code : 3 * (Rabs D / 6) / SF = rr.
Proof. destruct face_pos as (P0 & P1 & P2 & P3). assert (S : 0 < SF) by (unfold SF; lra). unfold rr. field. lra. Qed.

(** * The inner sphere is at most a third of the outer one: medians against altitudes *)
Definition median (d a b c : vec) : vec := let '(x, y, z) := d in let '(x1, y1, z1) := a in let '(x2, y2, z2) := b in let '(x3, y3, z3) := c in (3 * x - x1 - x2 - x3, 3 * y - y1 - y2 - y3, 3 * z - z1 - z2 - z3).
Lemma median_face m e f F : F = norm (cross e f) / 2 -> dot m (cross e f) = 3 * D \/ dot m (cross e f) = - (3 * D) -> 3 * Rabs D <= norm m * (2 * F).
Proof.
  intros -> H. replace (2 * (norm (cross e f) / 2)) with (norm (cross e f)) by field. apply le_of_sq; [apply Rmult_le_pos; apply norm_pos|].
  replace (norm m * norm (cross e f) * (norm m * norm (cross e f))) with (norm m * norm m * (norm (cross e f) * norm (cross e f))) by ring. rewrite !norm_sq.
  replace (3 * Rabs D * (3 * Rabs D)) with (dot m (cross e f) * dot m (cross e f)); [apply cauchy|]. assert (Y : Rabs D * Rabs D = D * D) by (rewrite <- Rabs_mult; apply Rabs_pos_eq; nra). destruct H as [-> | ->]; nra.
Qed.
Lemma medians_sum c : (forall i, (i < 4)%nat -> distance c (n i) = RR) ->
  dot (median n3 n0 n1 n2) (median n3 n0 n1 n2) + dot (median n2 n0 n1 n3) (median n2 n0 n1 n3) + dot (median n1 n0 n2 n3) (median n1 n0 n2 n3) + dot (median n0 n1 n2 n3) (median n0 n1 n2 n3) <= 64 * (RR * RR).
Proof.
  intros H. assert (H' : forall i, (i < 4)%nat -> dot (minus c (n i)) (minus c (n i)) = RR * RR) by (intros i I; rewrite <- (H i I), distance_norm; symmetry; apply norm_sq).
  assert (X0 := H' 0%nat ltac:(lia)). assert (X1 := H' 1%nat ltac:(lia)). assert (X2 := H' 2%nat ltac:(lia)). assert (X3 := H' 3%nat ltac:(lia)). clear H H'. set (Q := RR * RR) in *. clearbody Q.
  destruct n0 as [[a1 a2] a3], n1 as [[b1 b2] b3], n2 as [[c1 c2] c3], n3 as [[d1 d2] d3], c as [[o1 o2] o3]. unfold median. spell.
  assert (Y1 := Rle_0_sqr (a1 + b1 + c1 + d1 - 4 * o1)). assert (Y2 := Rle_0_sqr (a2 + b2 + c2 + d2 - 4 * o2)). assert (Y3 := Rle_0_sqr (a3 + b3 + c3 + d3 - 4 * o3)). unfold Rsqr in *. lra.
Qed.
Lemma harmonic a b c d : 0 < a -> 0 < b -> 0 < c -> 0 < d -> 16 <= (a + b + c + d) * (/ a + / b + / c + / d).
Proof.
  intros A B C E. assert (P : forall x y, 0 < x -> 0 < y -> 2 <= x * / y + y * / x).
  { intros x y X Y. assert (S := Rle_0_sqr (x - y)). unfold Rsqr in S. apply Rmult_le_reg_r with (x * y); [nra|]. replace ((x * / y + y * / x) * (x * y)) with (x * x + y * y) by (field; lra). nra. }
  assert (X1 := P a b A B). assert (X2 := P a c A C). assert (X3 := P a d A E). assert (X4 := P b c B C). assert (X5 := P b d B E). assert (X6 := P c d C E).
  assert (I1 := Rinv_r a ltac:(lra)). assert (I2 := Rinv_r b ltac:(lra)). assert (I3 := Rinv_r c ltac:(lra)). assert (I4 := Rinv_r d ltac:(lra)). lra.
Qed.
Lemma third_num d r f0 f1 f2 f3 t0 t1 t2 t3 : 0 < d -> 0 <= r -> 0 < f0 -> 0 < f1 -> 0 < f2 -> 0 < f3 -> 0 <= t0 -> 0 <= t1 -> 0 <= t2 -> 0 <= t3 -> 3 * d <= t0 * (2 * f3) -> 3 * d <= t1 * (2 * f2) -> 3 * d <= t2 * (2 * f1) -> 3 * d <= t3 * (2 * f0) ->
  t0 * t0 + t1 * t1 + t2 * t2 + t3 * t3 <= 64 * (r * r) -> 3 * (d / (2 * (f0 + f1 + f2 + f3))) <= r.
Proof.
  intros AD RP P0 P1 P2 P3 G0 G1 G2 G3 T0 T1 T2 T3 SM.
  assert (Q : forall t f, 0 <= t -> 0 < f -> 3 * d <= t * (2 * f) -> 0 < t /\ 3 * d * / t <= 2 * f).
  { intros t f G F H. assert (t <> 0) by (intros ->; lra). split; [lra|]. apply Rmult_le_reg_r with t; [lra|]. rewrite Rmult_assoc, Rinv_l by assumption. lra. }
  destruct (Q t0 f3 G0 P3 T0) as [X0 Y0]. destruct (Q t1 f2 G1 P2 T1) as [X1 Y1]. destruct (Q t2 f1 G2 P1 T2) as [X2 Y2]. destruct (Q t3 f0 G3 P0 T3) as [X3 Y3].
  assert (H := harmonic t0 t1 t2 t3 X0 X1 X2 X3).
  assert (L : t0 + t1 + t2 + t3 <= 16 * r). { apply le_of_sq; [lra|]. assert (S1 := Rle_0_sqr (t0 - t1)). assert (S2 := Rle_0_sqr (t0 - t2)). assert (S3 := Rle_0_sqr (t0 - t3)). assert (S4 := Rle_0_sqr (t1 - t2)). assert (S5 := Rle_0_sqr (t1 - t3)). assert (S6 := Rle_0_sqr (t2 - t3)). unfold Rsqr in *. lra. }
  set (h := / t0 + / t1 + / t2 + / t3) in *. assert (HP : 0 < h) by (unfold h; assert (Z0 := Rinv_0_lt_compat _ X0); assert (Z1 := Rinv_0_lt_compat _ X1); assert (Z2 := Rinv_0_lt_compat _ X2); assert (Z3 := Rinv_0_lt_compat _ X3); lra).
  assert (M : 1 <= r * h). { assert ((t0 + t1 + t2 + t3) * h <= 16 * r * h) by (apply Rmult_le_compat_r; lra). lra. }
  assert (B : 3 * d * h <= 2 * (f0 + f1 + f2 + f3)) by (unfold h; lra).
  apply Rmult_le_reg_r with (2 * (f0 + f1 + f2 + f3)); [lra|]. replace (3 * (d / (2 * (f0 + f1 + f2 + f3))) * (2 * (f0 + f1 + f2 + f3))) with (3 * d) by (field; lra). apply Rle_trans with (r * (3 * d * h)); [|apply Rmult_le_compat_l; lra]. nra.
Qed.
Lemma third : 3 * rr <= RR.
Proof.
  destruct face_pos as (P0 & P1 & P2 & P3). assert (AD := absD). assert (RP := RR_pos). assert (SM := medians_sum centre centre_nodes).
  assert (T3 : 3 * Rabs D <= norm (median n3 n0 n1 n2) * (2 * F0)). { apply (median_face _ _ _ _ eq_refl). right. unfold D, median. clear. destruct n0 as [[? ?] ?], n1 as [[? ?] ?], n2 as [[? ?] ?], n3 as [[? ?] ?]. spell. ring. }
  assert (T2 : 3 * Rabs D <= norm (median n2 n0 n1 n3) * (2 * F1)). { apply (median_face _ _ _ _ eq_refl). right. unfold D, median. clear. destruct n0 as [[? ?] ?], n1 as [[? ?] ?], n2 as [[? ?] ?], n3 as [[? ?] ?]. spell. ring. }
  assert (T1 : 3 * Rabs D <= norm (median n1 n0 n2 n3) * (2 * F2)). { apply (median_face _ _ _ _ eq_refl). right. unfold D, median. clear. destruct n0 as [[? ?] ?], n1 as [[? ?] ?], n2 as [[? ?] ?], n3 as [[? ?] ?]. spell. ring. }
  assert (T0 : 3 * Rabs D <= norm (median n0 n1 n2 n3) * (2 * F3)). { apply (median_face _ _ _ _ eq_refl). right. unfold D, median. clear. destruct n0 as [[? ?] ?], n1 as [[? ?] ?], n2 as [[? ?] ?], n3 as [[? ?] ?]. spell. ring. }
  rewrite <- !norm_sq in SM. assert (G0 := norm_pos (median n0 n1 n2 n3)). assert (G1 := norm_pos (median n1 n0 n2 n3)). assert (G2 := norm_pos (median n2 n0 n1 n3)). assert (G3 := norm_pos (median n3 n0 n1 n2)).
  set (t0 := norm (median n0 n1 n2 n3)) in *. set (t1 := norm (median n1 n0 n2 n3)) in *. set (t2 := norm (median n2 n0 n1 n3)) in *. set (t3 := norm (median n3 n0 n1 n2)) in *. unfold rr. assert (SE : SF = F0 + F1 + F2 + F3) by (unfold SF; ring). rewrite SE.
  apply (third_num _ _ _ _ _ _ _ _ _ _ AD (Rlt_le _ _ RP) P0 P1 P2 P3 G0 G1 G2 G3 T0 T1 T2 T3). lra.
Qed.
End Tetra.
