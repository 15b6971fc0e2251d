(** Proofs about snapping. *)
From stdpp Require Import gmap list.
From Coq Require Import Lia QArith Lqa Qminmax Qfield.
From Verif Require Import Decomp_Model Decomp_Spec Decomp_Eff Decomp_Inv Decomp_Good Editor_Model Editor_Spec Editor_Proofs.
From Verif Require Import Aabb_Model Aabb_Spec Aabb_Proofs Editor_Box Snap_Model Snap_Spec.
Local Open Scope nat_scope.

(** * Comparisons *)
Lemma not_le a b : negb (Qle_bool a b) = true <-> (b < a)%Q.
Proof. rewrite negb_true_iff. split; intros H; [apply Qnot_le_lt; intros X; apply Qle_bool_iff in X; congruence|]. destruct (Qle_bool a b) eqn:E; [|done]. apply Qle_bool_iff in E. lra. Qed.
Lemma below_iff q tol : below q tol = true <-> (0 < tol /\ q < tol * tol)%Q.
Proof. unfold below. by rewrite andb_true_iff, !not_le. Qed.
Lemma below_part_pos t q tol s : (0 < tol)%Q -> (0 <= s)%Q -> (s * s == q)%Q -> below_part t q tol = true <-> (t * s < tol)%Q.
Proof.
  intros P S E. unfold below_part. destruct (Qle_bool tol 0) eqn:E0; [apply Qle_bool_iff in E0; lra|].
  rewrite orb_true_iff, Qle_bool_iff, not_le. assert (X : (t * t * q == (t * s) * (t * s))%Q) by (rewrite <- E; ring). rewrite X. split.
  - intros [H|H]; [nra|]. destruct (Qlt_le_dec (t * s) tol); [done|]. nra.
  - intros H. destruct (Qlt_le_dec 0 t); [right|left; lra]. assert (0 <= t * s)%Q by nra. nra.
Qed.
Lemma norm2_dist (z w : vect) : (norm2 (vminus z w) == dist2 z w)%Q.
Proof. unfold norm2, dot, vminus, dist2. cbn. ring. Qed.
Lemma norm2_dist' (z w : vect) : (norm2 (vminus z w) == dist2 w z)%Q.
Proof. unfold norm2, dot, vminus, dist2. cbn. ring. Qed.
Lemma norm2_nonneg v : (0 <= norm2 v)%Q.
Proof. unfold norm2, dot. nra. Qed.

(** * Projection *)
Lemma project_ok v o z t : project v o z = Some t -> (0 <= t <= 1)%Q /\ (0 < norm2 v)%Q /\
  (forall u, (0 <= u <= 1)%Q -> (dist2 z (parametric v o t) <= dist2 z (parametric v o u))%Q) /\
  (t == 0 \/ t == 1 \/ dot (vminus z (parametric v o t)) v == 0)%Q.
Proof.
  unfold project. destruct (Qeq_bool (norm2 v) 0) eqn:E; [done|]. assert (N : (0 < norm2 v)%Q).
  { pose proof (norm2_nonneg v). apply Qeq_bool_neq in E. destruct (Qlt_le_dec 0 (norm2 v)); [done|]. exfalso. apply E. lra. }
  set (a := (dot (vminus z o) v / norm2 v)%Q). intros [= <-]. set (t := Qmin (Qmax a 0) 1).
  assert (A : (a * norm2 v == dot (vminus z o) v)%Q) by (unfold a; field; lra).
  assert (T : ((a <= 0 /\ t == 0) \/ (1 <= a /\ t == 1) \/ (0 <= a <= 1 /\ t == a))%Q).
  { unfold t. destruct (Qlt_le_dec a 0) as [X|X].
    - left. split; [lra|]. rewrite (Q.max_r a 0) by lra. rewrite Q.min_l by lra. reflexivity.
    - rewrite (Q.max_l a 0) by lra. destruct (Qlt_le_dec 1 a); [right; left; split; [lra|]; rewrite Q.min_r by lra; reflexivity|].
      right; right. split; [lra|]. rewrite Q.min_l by lra. reflexivity. }
  assert (F : forall u, (dist2 z (parametric v o u) == norm2 (vminus z o) - 2 * u * (a * norm2 v) + u * u * norm2 v)%Q).
  { intros u. rewrite A. unfold dist2, parametric, norm2, dot, vminus. cbn. ring. }
  split; [destruct T as [[? T]|[[? T]|[? T]]]; rewrite T; lra|]. split; [done|]. split.
  - intros u U. rewrite !F. assert (X : (0 <= norm2 v * ((u - t) * (u + t - 2 * a)))%Q); [|set (n := norm2 v) in *; set (c := norm2 (vminus z o)) in *; nra].
    clear F. apply Qmult_le_0_compat; [lra|]. destruct T as [[H T]|[[H T]|[H T]]]; rewrite T.
    + apply Qmult_le_0_compat; lra.
    + assert (E2 : ((u - 1) * (u + 1 - 2 * a) == (1 - u) * (2 * a - 1 - u))%Q) by ring. rewrite E2. apply Qmult_le_0_compat; lra.
    + assert (E2 : ((u - a) * (u + a - 2 * a) == (u - a) * (u - a))%Q) by ring. rewrite E2. destruct (Qlt_le_dec u a); [|apply Qmult_le_0_compat; lra].
      assert (E3 : ((u - a) * (u - a) == (a - u) * (a - u))%Q) by ring. rewrite E3. apply Qmult_le_0_compat; lra.
  - destruct T as [[? T]|[[? T]|[? T]]]; [left; done|right; left; done|]. right; right.
    assert (X : (dot (vminus z (parametric v o t)) v == dot (vminus z o) v - t * norm2 v)%Q) by (unfold dot, norm2, dot, vminus, parametric; cbn; ring).
    rewrite X, T, A. ring.
Qed.
Lemma project_some v o z : ~ (norm2 v == 0)%Q -> exists t, project v o z = Some t.
Proof. intros H. unfold project. destruct (Qeq_bool (norm2 v) 0) eqn:E; [by apply Qeq_bool_iff in E|eauto]. Qed.
Lemma dist2_eq z (w w' : vect) : (fst w == fst w')%Q -> (snd w == snd w')%Q -> (dist2 z w == dist2 z w')%Q.
Proof. unfold dist2. intros -> ->. reflexivity. Qed.
Lemma param_along x y t : (fst (parametric (vminus y x) x t) == fst (along x y t))%Q /\ (snd (parametric (vminus y x) x t) == snd (along x y t))%Q.
Proof. unfold parametric, vminus, along. cbn. split; ring. Qed.
Lemma dist_param z x y t : (dist2 z (parametric (vminus y x) x t) == dist2 z (along x y t))%Q.
Proof. destruct (param_along x y t). by apply dist2_eq. Qed.
Lemma project_nearest x y z t : project (vminus y x) x z = Some t -> nearest_on x y z t.
Proof.
  intros H. apply project_ok in H as (T & _ & F & _). split; [done|]. intros w (u & U & W1 & W2).
  rewrite <- dist_param. assert (E : (dist2 z w == dist2 z (parametric (vminus y x) x u))%Q) by (rewrite dist_param; by apply dist2_eq). rewrite E. by apply F.
Qed.
Lemma along_between x y t : (0 <= t <= 1)%Q -> between x y (along x y t).
Proof. intros T. exists t. split; [done|]. split; reflexivity. Qed.
Lemma sq_zero (a b : Q) : (a * a + b * b == 0)%Q -> (a == 0)%Q.
Proof. intros H. assert (0 <= b * b)%Q by nra. destruct (Q_dec a 0) as [[X|X]|X]; [|  |done]; exfalso; nra. Qed.
Lemma no_zero_norm (x y : vect) : ~ (fst x == fst y /\ snd x == snd y)%Q -> ~ (norm2 (vminus y x) == 0)%Q.
Proof.
  intros H E. apply H. unfold norm2, dot, vminus in E. cbn in E. assert (A := sq_zero _ _ E). rewrite Qplus_comm in E. assert (B := sq_zero _ _ E). split; lra.
Qed.

(** * Loops *)
Lemma first_point_ok tol z l s : (forall p, In p l -> exists v, is_at s p v) ->
  (exists p v, first_point tol z l s = Ok (Some p) /\ In p l /\ is_at s p v /\ (0 < tol)%Q /\ near z v tol) \/
  (first_point tol z l s = Ok None /\ forall p v, In p l -> is_at s p v -> (0 < tol)%Q -> ~ near z v tol).
Proof.
  induction l as [|p l IH]; intros L; [right; split; [done|intros ? ? []]|]. cbn. destruct (L p) as [v V]; [by left|].
  unfold is_at in V. rewrite lookup_fmap in V. destruct (points s !! p) as [x|] eqn:E; [|done]. cbn in V. injection V as <-.
  assert (A : is_at s p (xy x)) by (unfold is_at; by rewrite lookup_fmap, E).
  destruct (below (norm2 (vminus (xy x) z)) tol) eqn:B.
  - left. exists p, (xy x). apply below_iff in B as [B1 B2]. rewrite norm2_dist' in B2. split; [done|]. split; [by left|]. done.
  - destruct IH as [(q & v & H1 & H2 & H3)|(H1 & H2)]; [intros; apply L; by right| |].
    + left. exists q, v. split; [done|]. split; [by right|]. done.
    + right. split; [done|]. intros q v [<-|Q] V P N; [|by eapply H2].
      assert (v = xy x) as -> by (unfold is_at in *; congruence). assert (below (norm2 (vminus (xy x) z)) tol = true); [|congruence].
      apply below_iff. split; [done|]. rewrite norm2_dist'. done.
Qed.
Lemma ends_fun s g x y x' y' : ends s g x y -> ends s g x' y' -> x' = x /\ y' = y.
Proof. intros (a & b & A & B & X & Y) (a' & b' & A' & B' & X' & Y'). split; congruence. Qed.
Lemma close_to_ok s z g x y : vec_ok s -> ends s g x y -> ~ (fst x == fst y /\ snd x == snd y)%Q ->
  exists t, close_to z g s = Some (Close (norm2 (vminus z (parametric (vminus y x) x t))) g t) /\ project (vminus y x) x z = Some t.
Proof.
  intros V E N. destruct (project_some (vminus y x) x z) as [t T]; [by apply no_zero_norm|]. exists t. split; [|done].
  destruct E as (a & b & A & B & X & Y). unfold close_to. rewrite (V _ _ _ _ _ A B X Y). cbn. rewrite A. cbn. rewrite lookup_fmap in X.
  destruct (points s !! a) as [q|]; [|done]. cbn in X. injection X as X. cbn. rewrite X. cbn. rewrite T. done.
Qed.
Lemma all_close_in z l s cs : all_close z l s = Some cs -> forall g, In g l -> exists c, In c cs /\ close_to z g s = Some c.
Proof.
  revert cs. induction l as [|h l IH]; intros cs H g G; [destruct G|]. cbn in H. destruct (close_to z h s) as [c|] eqn:C; [|done]. cbn in H.
  destruct (all_close z l s) as [r|] eqn:R; [|done]. cbn in H. injection H as <-. destruct G as [<-|G]; [exists c; split; [by left|done]|].
  destruct (IH _ eq_refl _ G) as (c' & C1 & C2). exists c'. split; [by right|done].
Qed.
Lemma all_close_out z l s cs : all_close z l s = Some cs -> forall c, In c cs -> exists g, In g l /\ close_to z g s = Some c.
Proof.
  revert cs. induction l as [|h l IH]; intros cs H c C; cbn in H; [injection H as <-; destruct C|]. destruct (close_to z h s) as [c'|] eqn:E; [|done]. cbn in H.
  destruct (all_close z l s) as [r|] eqn:R; [|done]. cbn in H. injection H as <-. destruct C as [<-|C]; [exists h; split; [by left|done]|].
  destruct (IH _ eq_refl _ C) as (g & G1 & G2). exists g. split; [by right|done].
Qed.
Lemma all_close_some z l s : (forall g, In g l -> is_Some (close_to z g s)) -> is_Some (all_close z l s).
Proof.
  induction l as [|h l IH]; intros H; cbn; [by eexists|]. destruct (H h) as [c C]; [by left|]. rewrite C. cbn.
  destruct IH as [r R]; [intros; apply H; by right|]. rewrite R. by eexists.
Qed.
Lemma close_seg_to z g s c : close_to z g s = Some c -> c_seg c = g.
Proof.
  unfold close_to. destruct (vec s !! g); [|done]. cbn. destruct (vtx s !! (g, false)) as [a|]; [|done]. cbn. destruct (points s !! a); [|done]. cbn.
  destruct (project _ _ _); [|done]. cbn. intros [= <-]. done.
Qed.
Lemma insert_in c l x : In x (insert_close c l) <-> x = c \/ In x l.
Proof. induction l as [|y l IH]; cbn; [firstorder|]. destruct (Qle_bool (c_d2 c) (c_d2 y)); cbn; [firstorder|]. rewrite IH. firstorder. Qed.
Lemma sort_in l x : In x (sort_close l) <-> In x l.
Proof. induction l as [|c l IH]; cbn; [done|]. rewrite insert_in, IH. firstorder. Qed.
(** Sorted by distance. *)
Fixpoint sorted (l : list close) : Prop := match l with [] => True | c :: l => (forall x, In x l -> (c_d2 c <= c_d2 x)%Q) /\ sorted l end.
Lemma insert_sorted c l : sorted l -> sorted (insert_close c l).
Proof.
  induction l as [|y l IH]; cbn; [done|]. intros [H1 H2]. destruct (Qle_bool (c_d2 c) (c_d2 y)) eqn:E; cbn.
  - apply Qle_bool_iff in E. split; [|done]. intros x [<-|X]; [done|]. specialize (H1 _ X). lra.
  - split; [|by apply IH]. intros x X. apply insert_in in X as [-> |X]; [|by apply H1]. destruct (Qlt_le_dec (c_d2 c) (c_d2 y)); [|done].
    assert (Qle_bool (c_d2 c) (c_d2 y) = true) by (apply Qle_bool_iff; lra). congruence.
Qed.
Lemma sort_sorted l : sorted (sort_close l).
Proof. induction l as [|c l IH]; cbn; [done|]. by apply insert_sorted. Qed.
Lemma insert_nodup c l : NoDup (c_seg <$> (c :: l)) -> NoDup (c_seg <$> insert_close c l).
Proof.
  induction l as [|y l IH]; [done|]. cbn. destruct (Qle_bool (c_d2 c) (c_d2 y)); [done|]. cbn. intros H. apply NoDup_cons in H as [H1 H2]. apply NoDup_cons in H2 as [H2 H3].
  apply NoDup_cons. split.
  - intros X. apply elem_of_list_fmap in X as (x & X1 & X2). apply elem_of_list_In, insert_in in X2 as [-> |X2]; [apply H1; rewrite <- X1; by left|].
    apply H2. rewrite X1. by apply elem_of_list_fmap_1, elem_of_list_In.
  - apply IH. cbn. apply NoDup_cons. split; [|done]. intros X. apply H1. by right.
Qed.
Lemma sort_nodup l : NoDup (c_seg <$> l) -> NoDup (c_seg <$> sort_close l).
Proof.
  induction l as [|c l IH]; [done|]. cbn [sort_close]. intros H. apply insert_nodup. cbn in *. apply NoDup_cons in H as [H1 H2]. apply NoDup_cons. split; [|by apply IH].
  intros X. apply H1. apply elem_of_list_fmap in X as (x & X1 & X2). rewrite X1. apply elem_of_list_fmap_1, elem_of_list_In. by apply sort_in, elem_of_list_In.
Qed.
Lemma all_close_segs z l s cs : all_close z l s = Some cs -> c_seg <$> cs = l.
Proof.
  revert cs. induction l as [|h l IH]; intros cs H; cbn in H; [by injection H as <-|]. destruct (close_to z h s) as [c|] eqn:C; [|done]. cbn in H.
  destruct (all_close z l s) as [r|] eqn:R; [|done]. cbn in H. injection H as <-. cbn. by rewrite (close_seg_to _ _ _ _ C), (IH _ eq_refl).
Qed.
