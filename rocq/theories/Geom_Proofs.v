(** Lemmas about planar geometry. *)
From Coq Require Import List QArith Qminmax Qfield Bool Arith Lia Lqa Permutation.
From Verif Require Import Aabb_Model Aabb_Spec Aabb_Proofs Geom_Model Geom_Spec.
Import ListNotations.
Open Scope Q_scope.

Lemma Qlt_bool_iff : forall a b, Qlt_bool a b = true <-> a < b.
Proof. intros. unfold Qlt_bool. rewrite negb_true_iff. apply Qle_bool_false. Qed.
Lemma Qlt_bool_false : forall a b, Qlt_bool a b = false <-> b <= a.
Proof. intros. unfold Qlt_bool. rewrite negb_false_iff. apply Qle_bool_iff. Qed.

Ltac qb := repeat match goal with
  | H : Qlt_bool _ _ = true |- _ => apply Qlt_bool_iff in H
  | H : Qlt_bool _ _ = false |- _ => apply Qlt_bool_false in H
  | H : Qle_bool _ _ = true |- _ => apply Qle_bool_iff in H
  | H : Qle_bool _ _ = false |- _ => apply Qle_bool_false in H
  | H : Qeq_bool _ _ = true |- _ => apply Qeq_bool_iff in H
  | H : Qeq_bool _ _ = false |- _ => apply Qeq_bool_neq in H
  | H : _ && _ = true |- _ => apply andb_true_iff in H as [? ?]
  end.

Lemma Qsq_nonneg : forall x : Q, 0 <= x * x.
Proof. intros x. destruct (Qlt_le_dec x 0); nra. Qed.

(** ** Projection *)
Lemma project_l : forall vec out p t,
  seg_project_point vec out p = Some t ->
  0 <= t <= 1 /\
  forall s, 0 <= s <= 1 ->
    dist2 p (point_at out (fst out + fst vec, snd out + snd vec) t)
    <= dist2 p (point_at out (fst out + fst vec, snd out + snd vec) s).
Proof.
  intros [vx vy] [ox oy] [px py] t H. unfold seg_project_point in H.
  destruct (Qeq_bool (vdot (vx, vy) (vx, vy)) 0) eqn:E; [discriminate|]. qb.
  inversion H; subst t; clear H. unfold vdot, vsub, dist2, point_at in *. simpl in *.
  set (d := vx * vx + vy * vy) in *.
  assert (Hd : 0 < d).
  { assert (0 <= d) by (unfold d; nra). destruct (Qlt_le_dec 0 d); [assumption|].
    exfalso. apply E. lra. }
  set (n := (px - ox) * vx + (py - oy) * vy).
  assert (Ht : n / d * d == n) by (field; lra).
  set (t0 := n / d) in *. clearbody t0.
  assert (K : forall s, (px - (ox + s * (ox + vx - ox))) * (px - (ox + s * (ox + vx - ox))) +
     (py - (oy + s * (oy + vy - oy))) * (py - (oy + s * (oy + vy - oy)))
     == ((px - ox) * (px - ox) + (py - oy) * (py - oy)) - 2 * s * (t0 * d) + s * s * d).
  { intros s. rewrite Ht. unfold n, d. ring. }
  set (t := Qmin (Qmax t0 0) 1).
  assert (C : (t0 <= 0 /\ t == 0) \/ (1 <= t0 /\ t == 1) \/ (0 <= t0 <= 1 /\ t == t0)).
  { unfold t. destruct (Q.max_spec t0 0) as [[A B]|[A B]];
    destruct (Q.min_spec (Qmax t0 0) 1) as [[A' B']|[A' B']]; rewrite B in A'.
    - left. split; [lra|]. now rewrite B', B.
    - exfalso. lra.
    - right; right. split; [lra|]. now rewrite B', B.
    - right; left. split; [lra|]. now rewrite B'. }
  clearbody t.
  split; [destruct C as [[? ?]|[[? ?]|[? ?]]]; lra|]. intros s Hs. rewrite !K.
  destruct C as [[C1 C2]|[[C1 C2]|[C1 C2]]]; rewrite C2.
  - assert (0 <= s * ((s - 2 * t0) * d)); [|lra].
    apply Qmult_le_0_compat; [lra|]. apply Qmult_le_0_compat; lra.
  - assert (0 <= (1 - s) * ((2 * t0 - 1 - s) * d)); [|lra].
    apply Qmult_le_0_compat; [lra|]. apply Qmult_le_0_compat; lra.
  - assert (0 <= (s - t0) * (s - t0) * d); [|lra].
    apply Qmult_le_0_compat; [apply Qsq_nonneg|lra].
Qed.

Lemma project_defined_l : forall vec out p,
  ~ (fst vec == 0 /\ snd vec == 0) <-> exists t, seg_project_point vec out p = Some t.
Proof.
  intros [vx vy] out p. unfold seg_project_point, vdot. simpl.
  destruct (Qeq_bool (vx * vx + vy * vy) 0) eqn:E; qb.
  - split; [|intros (t & H); discriminate]. intros H. exfalso. apply H. split; nra.
  - split; [eauto|]. intros _ [A B]. apply E. rewrite A, B. ring.
Qed.

(** ** Intersection *)
Lemma inner_param_iff : forall t, inner_param t = true <-> inner t.
Proof.
  intros t. unfold inner_param, inner. rewrite andb_true_iff, !Qlt_bool_iff.
  unfold isec_eps. split; intros [? ?]; lra.
Qed.

Lemma intersection_sound_l : forall v p0 a b t0 t1,
  seg_intersection v p0 a b = Some (t0, t1) ->
  inner t0 /\ inner t1 /\
  pt_eq (point_at p0 (fst p0 + fst v, snd p0 + snd v) t0) (point_at a b t1).
Proof.
  intros [vx vy] [x0 y0] [ax ay] [bx by_] t0 t1 H. unfold seg_intersection, vsub in H. simpl in H.
  destruct (Qeq_bool _ 0) eqn:E in H; [discriminate|].
  destruct (inner_param _ && inner_param _) eqn:EI in H; [|discriminate].
  apply andb_true_iff in EI as [E0 E1]. inversion H; subst; clear H.
  apply inner_param_iff in E0, E1. qb. split; [assumption|]. split; [assumption|].
  unfold pt_eq, point_at; simpl. split; field; assumption.
Qed.

Lemma intersection_complete_l : forall v p0 a b t0 t1,
  ~ parallel v (vsub b a) -> inner t0 -> inner t1 ->
  pt_eq (point_at p0 (fst p0 + fst v, snd p0 + snd v) t0) (point_at a b t1) ->
  exists s0 s1, seg_intersection v p0 a b = Some (s0, s1) /\ s0 == t0 /\ s1 == t1.
Proof.
  intros [vx vy] [x0 y0] [ax ay] [bx by_] t0 t1 HP I0 I1 [H1 H2].
  unfold parallel, vsub, point_at in *. simpl in *.
  unfold seg_intersection, vsub; simpl.
  set (det := vx * (ay - by_) - vy * (ax - bx)).
  assert (Hd : ~ det == 0).
  { intros Z. apply HP. unfold det in Z. lra. }
  destruct (Qeq_bool det 0) eqn:E; qb; [contradiction|].
  assert (R1 : t0 * vx + t1 * (ax - bx) == ax - x0) by lra.
  assert (R2 : t0 * vy + t1 * (ay - by_) == ay - y0) by lra.
  assert (S0 : ((ax - x0) * (ay - by_) - (ay - y0) * (ax - bx)) / det == t0).
  { rewrite <- R1, <- R2. unfold det. field. exact Hd. }
  assert (S1 : (vx * (ay - y0) - vy * (ax - x0)) / det == t1).
  { rewrite <- R1, <- R2. unfold det. field. exact Hd. }
  set (s0 := _ / det) in *. set (s1 := (vx * (ay - y0) - vy * (ax - x0)) / det) in *.
  assert (J0 : inner_param s0 = true) by (apply inner_param_iff; unfold inner in *; lra).
  assert (J1 : inner_param s1 = true) by (apply inner_param_iff; unfold inner in *; lra).
  rewrite J0, J1. simpl. eauto.
Qed.

Lemma intersection_parallel_l : forall v p0 a b,
  parallel v (vsub b a) -> seg_intersection v p0 a b = None.
Proof.
  intros [vx vy] [x0 y0] [ax ay] [bx by_] H. unfold parallel, seg_intersection, vsub in *. simpl in *.
  destruct (Qeq_bool _ 0) eqn:E; [reflexivity|]. qb. exfalso. apply E. lra.
Qed.

(** ** Ray crossing *)
Lemma crossing_spec : forall a b p,
  is_on_x_line a b p = true <->
  (snd a <= snd p < snd b /\ 0 < side_of a b p) \/
  (snd b <= snd p < snd a /\ side_of a b p <= 0).
Proof.
  intros [ax ay] [bx by_] [px py]. unfold is_on_x_line, min_max, side_of. simpl.
  destruct (Qlt_bool by_ ay) eqn:Eo; qb;
  destruct (Qle_bool _ py && Qlt_bool py _) eqn:El.
  - qb. destruct (Qlt_bool bx ax) eqn:Ex; qb.
    + destruct (Qlt_bool px bx) eqn:E1; qb.
      { split; [|reflexivity]. intros _. right. split; [lra|]. nra. }
      destruct (Qlt_bool ax px) eqn:E2; qb.
      { split; [discriminate|]. intros [?|[? ?]]; [lra|]. exfalso. nra. }
      rewrite negb_true_iff, Qlt_bool_false. split; [intros; right; lra|]. intros [?|[? ?]]; lra.
    + destruct (Qlt_bool px ax) eqn:E1; qb.
      { split; [|reflexivity]. intros _. right. split; [lra|]. nra. }
      destruct (Qlt_bool bx px) eqn:E2; qb.
      { split; [discriminate|]. intros [?|[? ?]]; [lra|]. exfalso. nra. }
      rewrite negb_true_iff, Qlt_bool_false. split; [intros; right; lra|]. intros [?|[? ?]]; lra.
  - split; [discriminate|]. intros H. exfalso.
    assert (Qle_bool by_ py && Qlt_bool py ay = true); [|congruence].
    apply andb_true_iff. rewrite Qle_bool_iff, Qlt_bool_iff. lra.
  - qb. destruct (Qlt_bool bx ax) eqn:Ex; qb.
    + destruct (Qlt_bool px bx) eqn:E1; qb.
      { split; [|reflexivity]. intros _. left. split; [lra|]. nra. }
      destruct (Qlt_bool ax px) eqn:E2; qb.
      { split; [discriminate|]. intros [[? ?]|?]; [|lra]. exfalso. nra. }
      rewrite Qlt_bool_iff. split; [intros; left; lra|]. intros [?|?]; lra.
    + destruct (Qlt_bool px ax) eqn:E1; qb.
      { split; [|reflexivity]. intros _. left. split; [lra|]. nra. }
      destruct (Qlt_bool bx px) eqn:E2; qb.
      { split; [discriminate|]. intros [[? ?]|?]; [|lra]. exfalso. nra. }
      rewrite Qlt_bool_iff. split; [intros; left; lra|]. intros [?|?]; lra.
  - split; [discriminate|]. intros H. exfalso.
    assert (Qle_bool ay py && Qlt_bool py by_ = true); [|congruence].
    apply andb_true_iff. rewrite Qle_bool_iff, Qlt_bool_iff. lra.
Qed.

(** Parameter of the point of ab at the level y. *)
Lemma level_param : forall a b y, level_between a b y ->
  exists t, 0 <= t <= 1 /\ snd (point_at a b t) == y.
Proof.
  intros [ax ay] [bx by_] y H. unfold level_between in H. simpl in *.
  assert (D : ~ by_ - ay == 0) by lra.
  exists ((y - ay) / (by_ - ay)).
  assert (E : (y - ay) / (by_ - ay) * (by_ - ay) == y - ay) by (field; assumption).
  set (t := (y - ay) / (by_ - ay)) in *. clearbody t.
  split; [|lra]. destruct H as [[? ?]|[? ?]]; split; nra.
Qed.

Lemma side_at_level : forall a b p t, snd (point_at a b t) == snd p ->
  side_of a b p == (snd b - snd a) * (fst (point_at a b t) - fst p).
Proof.
  intros [ax ay] [bx by_] [px py] t H. unfold side_of, point_at in *. simpl in *. rewrite <- H. ring.
Qed.

Lemma ray_crossing_l : forall a b p, ~ on_seg a b p ->
  (is_on_x_line a b p = true <-> level_between a b (snd p) /\ right_of a b p).
Proof.
  intros a b p Hoff. rewrite crossing_spec. split.
  - intros H.
    assert (L : level_between a b (snd p)) by (unfold level_between; tauto).
    split; [assumption|]. destruct (level_param a b (snd p) L) as (t & Ht & E).
    exists t. split; [assumption|]. split; [assumption|].
    pose proof (side_at_level a b p t E) as S.
    assert (Hne : ~ fst (point_at a b t) == fst p).
    { intros X. apply Hoff. exists t. split; [assumption|]. split; assumption. }
    set (X := fst (point_at a b t)) in *. clearbody X.
    destruct H as [[H1 H2]|[H1 H2]]; rewrite S in H2.
    + nra.
    + destruct (Qlt_le_dec (fst p) X); [assumption|]. exfalso.
      assert (X < fst p) by (apply Qle_lteq in q as [|q]; [assumption|]; exfalso; apply Hne, q).
      nra.
  - intros [L (t & Ht & E & R)].
    pose proof (side_at_level a b p t E) as S. unfold level_between in L.
    destruct L as [L|L]; [left|right]; (split; [assumption|]); rewrite S; nra.
Qed.

Lemma orientation_l : forall a b p, ~ on_seg a b p -> is_on_x_line a b p = is_on_x_line b a p.
Proof.
  intros a b p H.
  assert (H' : ~ on_seg b a p).
  { intros (t & Ht & E1 & E2). apply H. exists (1 - t). split; [lra|].
    unfold pt_eq, point_at in *; simpl in *. split; lra. }
  apply eq_true_iff_eq. rewrite (ray_crossing_l a b p H), (ray_crossing_l b a p H').
  assert (R : forall u v, right_of u v p -> right_of v u p).
  { intros u v (t & Ht & E & X). exists (1 - t). unfold point_at in *; simpl in *.
    split; [lra|]. split; lra. }
  unfold level_between. split; intros [L X]; (split; [tauto|now apply R]).
Qed.

(** On the segment itself the answer depends on the direction of the segment. *)
Lemma on_segment_l : forall a b p, on_seg a b p -> 
  (is_on_x_line a b p = true <-> snd b <= snd p < snd a).
Proof.
  intros a b p (t & Ht & E1 & E2). rewrite crossing_spec.
  pose proof (side_at_level a b p t E2) as S. rewrite E1 in S.
  assert (side_of a b p == 0) by (rewrite S; ring).
  split; [intros [[? ?]|[? ?]]; lra|]. intros; right; lra.
Qed.

(** ** Parity of crossings *)
Lemma n_isec_app : forall l1 l2 p, n_isec (l1 ++ l2) p = (n_isec l1 p + n_isec l2 p)%nat.
Proof. induction l1; intros; simpl; [reflexivity|]. rewrite IHl1. lia. Qed.

Lemma n_isec_perm : forall l1 l2 p, Permutation l1 l2 -> n_isec l1 p = n_isec l2 p.
Proof. intros l1 l2 p H. induction H; simpl; lia. Qed.

Lemma dendrites_l : forall d rest wire p, Permutation (d ++ d ++ rest) wire ->
  contains_point wire p = contains_point rest p.
Proof.
  intros d rest wire p H. unfold contains_point. rewrite <- (n_isec_perm _ _ p H), !n_isec_app.
  replace (n_isec d p + (n_isec d p + n_isec rest p))%nat
    with (n_isec rest p + 2 * n_isec d p)%nat by lia.
  now rewrite Nat.odd_add_mul_2.
Qed.

Lemma same_seg_l : forall s s' p, same_seg s s' -> ~ on_seg (fst s) (snd s) p ->
  is_on_x_line (fst s) (snd s) p = is_on_x_line (fst s') (snd s') p.
Proof. intros [a b] s' p [->| ->] H; [reflexivity|]. simpl. now apply orientation_l. Qed.

Lemma walks_l : forall edges wire p, walks edges wire -> off_wire edges p ->
  contains_point wire p = contains_point edges p.
Proof.
  intros edges wire p (e' & F & P) Hoff. unfold contains_point. rewrite <- (n_isec_perm _ _ p P).
  f_equal. clear P. induction F as [|s s' l l' Hs F IH]; [reflexivity|]. simpl.
  rewrite <- (same_seg_l s s' p Hs).
  - rewrite IH; [reflexivity|]. intros x Hx. apply Hoff. now right.
  - apply Hoff. now left.
Qed.

(** Sums over closed walks. *)
Definition b2n (b : bool) : nat := if b then 1%nat else 0%nat.
Fixpoint sum {A} (f : A -> nat) (l : list A) : nat :=
  match l with [] => 0%nat | x :: l' => (f x + sum f l')%nat end.

Lemma sum_perm : forall {A} (f : A -> nat) l l', Permutation l l' -> sum f l = sum f l'.
Proof. intros A f l l' H. induction H; simpl; lia. Qed.
Lemma sum_ext : forall {A} (f g : A -> nat) l, (forall x, In x l -> f x = g x) -> sum f l = sum g l.
Proof.
  induction l; intros H; simpl; [reflexivity|].
  rewrite (H a) by now left. rewrite IHl; [reflexivity|]. intros; apply H; now right.
Qed.
Lemma sum_add : forall {A} (f g : A -> nat) l, sum (fun x => f x + g x)%nat l = (sum f l + sum g l)%nat.
Proof. induction l; simpl; [reflexivity|]. lia. Qed.

Lemma rot1_perm : forall vs, Permutation vs (rot1 vs).
Proof. intros [|v vs]; simpl; [constructor|]. apply Permutation_cons_append. Qed.
Lemma rot1_length : forall vs, length (rot1 vs) = length vs.
Proof. intros vs. symmetry. apply Permutation_length, rot1_perm. Qed.

Lemma sum_fst_combine : forall (f : pt -> nat) (l l' : list pt), length l = length l' ->
  sum (fun s => f (fst s)) (combine l l') = sum f l.
Proof. induction l as [|a l IH]; intros [|b l'] H; simpl in *; try discriminate; auto. Qed.
Lemma sum_snd_combine : forall (f : pt -> nat) (l l' : list pt), length l = length l' ->
  sum (fun s => f (snd s)) (combine l l') = sum f l'.
Proof. induction l as [|a l IH]; intros [|b l'] H; simpl in *; try discriminate; auto. Qed.

Lemma walk_balance : forall (f : pt -> nat) vs,
  sum (fun s => f (fst s)) (closed_walk vs) = sum (fun s => f (snd s)) (closed_walk vs).
Proof.
  intros f vs. unfold closed_walk.
  rewrite sum_fst_combine, sum_snd_combine by now rewrite rot1_length.
  apply sum_perm, rot1_perm.
Qed.

Lemma n_isec_sum : forall l p, n_isec l p = sum (fun s => b2n (is_on_x_line (fst s) (snd s) p)) l.
Proof. induction l; intros; simpl; [reflexivity|]. now rewrite IHl. Qed.

(** If each edge changes the parity of crossing by a function of its ends, the
    two points are on the same side of the closed walk. *)
Lemma parity_transfer : forall vs p q (g : pt -> bool),
  (forall s, In s (closed_walk vs) ->
     xorb (is_on_x_line (fst s) (snd s) p) (is_on_x_line (fst s) (snd s) q)
     = xorb (g (fst s)) (g (snd s))) ->
  contains_point (closed_walk vs) p = contains_point (closed_walk vs) q.
Proof.
  intros vs p q g H. unfold contains_point. rewrite !n_isec_sum.
  set (cp := fun s : gseg => b2n (is_on_x_line (fst s) (snd s) p)).
  set (cq := fun s : gseg => b2n (is_on_x_line (fst s) (snd s) q)).
  set (ga := fun s : gseg => b2n (g (fst s))). set (gb := fun s : gseg => b2n (g (snd s))).
  assert (P : forall l, (forall s, In s l -> In s (closed_walk vs)) ->
    Nat.odd (sum cp l + sum cq l) = Nat.odd (sum ga l + sum gb l)).
  { induction l as [|s l IH]; intros Hl; [reflexivity|]. simpl.
    specialize (IH (fun x Hx => Hl x (or_intror Hx))).
    specialize (H s (Hl s (or_introl eq_refl))).
    replace (cp s + sum cp l + (cq s + sum cq l))%nat with ((cp s + cq s) + (sum cp l + sum cq l))%nat by lia.
    replace (ga s + sum ga l + (gb s + sum gb l))%nat with ((ga s + gb s) + (sum ga l + sum gb l))%nat by lia.
    rewrite (Nat.odd_add (cp s + cq s)), (Nat.odd_add (ga s + gb s)), IH. f_equal.
    unfold cp, cq, ga, gb.
    destruct (is_on_x_line (fst s) (snd s) p), (is_on_x_line (fst s) (snd s) q), (g (fst s)), (g (snd s));
    first [reflexivity | discriminate H]. }
  specialize (P _ (fun s Hs => Hs)).
  assert (B : sum ga (closed_walk vs) = sum gb (closed_walk vs)) by exact (walk_balance (fun v => b2n (g v)) vs).
  rewrite B in P.
  replace (sum gb (closed_walk vs) + sum gb (closed_walk vs))%nat
     with (0 + 2 * sum gb (closed_walk vs))%nat in P by lia.
  rewrite Nat.odd_add_mul_2, Nat.odd_add in P. change (Nat.odd 0) with false in P.
  change (Nat.odd (sum cp (closed_walk vs)) = Nat.odd (sum cq (closed_walk vs))).
  destruct (Nat.odd (sum cp (closed_walk vs))), (Nat.odd (sum cq (closed_walk vs))); first [reflexivity | discriminate P].
Qed.


(** ** Constancy off the wire *)
Lemma affine_zero : forall f0 f1 : Q, (f0 <= 0 <= f1) \/ (f1 <= 0 <= f0) ->
  exists t, 0 <= t <= 1 /\ f0 + t * (f1 - f0) == 0.
Proof.
  intros f0 f1 H. destruct (Qeq_dec f0 0) as [E|E].
  - exists 0. split; lra.
  - assert (D : ~ f0 - f1 == 0) by (intros Z; apply E; lra).
    exists (f0 / (f0 - f1)).
    assert (T : f0 / (f0 - f1) * (f0 - f1) == f0) by (field; assumption).
    set (t := f0 / (f0 - f1)) in *. clearbody t. split; [|lra].
    destruct H as [[? ?]|[? ?]]; split; nra.
Qed.

(** A point of the line pq at a level of the segment is on the segment. *)
Lemma on_line_level : forall p q z,
  snd p < snd q -> snd p <= snd z <= snd q -> side_of p q z == 0 ->
  exists s, 0 <= s <= 1 /\ pt_eq (point_at p q s) z.
Proof.
  intros [px py] [qx qy] [zx zy] H L S. unfold side_of, pt_eq, point_at in *. simpl in *.
  assert (D : ~ qy - py == 0) by lra.
  exists ((zy - py) / (qy - py)).
  assert (T : (zy - py) / (qy - py) * (qy - py) == zy - py) by (field; assumption).
  set (s := (zy - py) / (qy - py)) in *. clearbody s.
  split; [split; nra|]. split; [|lra].
  assert ((qy - py) * (px + s * (qx - px) - zx) == 0).
  { assert (s * (qy - py) * (qx - px) == (zy - py) * (qx - px)) by (rewrite T; ring). lra. }
  destruct (Qlt_le_dec (px + s * (qx - px) - zx) 0); [exfalso; nra|].
  destruct (Qlt_le_dec 0 (px + s * (qx - px) - zx)); [exfalso; nra|]. lra.
Qed.

Lemma side_affine : forall p q a b t,
  side_of p q (point_at a b t) == side_of p q a + t * (side_of p q b - side_of p q a).
Proof. intros [px py] [qx qy] [ax ay] [bx by_] t. unfold side_of, point_at. simpl. ring. Qed.

Lemma pt_eq_sym : forall p q, pt_eq p q -> pt_eq q p.
Proof. intros p q [? ?]. split; lra. Qed.

(** Sides at two parameters of ab, whose levels lie in the range of pq, agree. *)
Lemma sides_agree : forall p q a b t0 t1,
  disjoint p q a b -> snd p < snd q -> 0 <= t0 <= 1 -> 0 <= t1 <= 1 ->
  snd p <= snd (point_at a b t0) <= snd q -> snd p <= snd (point_at a b t1) <= snd q ->
  (0 < side_of p q (point_at a b t0) /\ 0 < side_of p q (point_at a b t1)) \/
  (side_of p q (point_at a b t0) < 0 /\ side_of p q (point_at a b t1) < 0).
Proof.
  intros p q a b t0 t1 D Hpq H0 H1 L0 L1.
  destruct (Qlt_le_dec 0 (side_of p q (point_at a b t0))) as [A|A];
  destruct (Qlt_le_dec 0 (side_of p q (point_at a b t1))) as [B|B]; auto.
  1,2: exfalso.
  3: destruct (Qlt_le_dec (side_of p q (point_at a b t0)) 0) as [A'|A'];
     destruct (Qlt_le_dec (side_of p q (point_at a b t1)) 0) as [B'|B']; auto; exfalso.
  all: destruct (affine_zero (side_of p q (point_at a b t0)) (side_of p q (point_at a b t1)))
         as (u & Hu & Eu); [lra|];
    set (t := t0 + u * (t1 - t0));
    assert (Ht : 0 <= t <= 1) by (unfold t; split; nra);
    assert (Et : side_of p q (point_at a b t) == 0)
      by (rewrite !side_affine in *; unfold t; rewrite <- Eu; ring);
    assert (Lt : snd p <= snd (point_at a b t) <= snd q)
      by (unfold point_at, t in *; simpl in *;
          set (y0 := snd a + t0 * (snd b - snd a)) in *;
          set (y1 := snd a + t1 * (snd b - snd a)) in *;
          assert (snd a + (t0 + u * (t1 - t0)) * (snd b - snd a) == y0 + u * (y1 - y0))
            by (unfold y0, y1; ring);
          clearbody y0 y1; rewrite H; split; nra);
    destruct (on_line_level p q (point_at a b t) Hpq Lt Et) as (s & Hs & E);
    apply (D s t Hs Ht E).
Qed.

Lemma disjoint_sym : forall p q a b, disjoint p q a b -> disjoint a b p q.
Proof. intros p q a b H s t Hs Ht E. apply (H t s Ht Hs). now apply pt_eq_sym. Qed.
Lemma disjoint_rev : forall p q a b, disjoint p q a b -> disjoint p q b a.
Proof.
  intros p q a b H s t Hs Ht E. apply (H s (1 - t) Hs); [lra|].
  destruct E as [E1 E2]. unfold pt_eq, point_at in *. simpl in *. split; lra.
Qed.
Lemma disjoint_off : forall p q a b, disjoint p q a b -> ~ on_seg a b p /\ ~ on_seg a b q.
Proof.
  intros p q a b H. split; intros (t & Ht & E1 & E2).
  - apply (H 0 t); [lra|assumption|]. unfold pt_eq, point_at in *; simpl in *. split; lra.
  - apply (H 1 t); [lra|assumption|]. unfold pt_eq, point_at in *; simpl in *. split; lra.
Qed.

Definition strip (p q v : pt) : bool :=
  Qlt_bool (snd p) (snd v) && Qle_bool (snd v) (snd q) && Qlt_bool (side_of p q v) 0.
Lemma strip_iff : forall p q v, strip p q v = true <->
  (snd p < snd v <= snd q /\ side_of p q v < 0).
Proof.
  intros p q v. unfold strip. rewrite !andb_true_iff, !Qlt_bool_iff, Qle_bool_iff. tauto.
Qed.

Lemma point_at_0 : forall p q a b, side_of p q (point_at a b 0) == side_of p q a.
Proof. intros. rewrite side_affine. ring. Qed.
Lemma point_at_1 : forall p q a b, side_of p q (point_at a b 1) == side_of p q b.
Proof. intros. rewrite side_affine. ring. Qed.

Lemma eq_bool_iff : forall a b : bool, (a = true <-> b = true) -> a = b.
Proof. intros [] [] H; try reflexivity; destruct H; [symmetry; auto|auto]. Qed.

(** Edge going up. *)
Lemma edge_transfer_up : forall p q a b,
  snd p <= snd q -> snd a <= snd b -> disjoint p q a b ->
  xorb (is_on_x_line a b p) (is_on_x_line a b q) = xorb (strip p q a) (strip p q b).
Proof.
  intros p q a b Hpq Hab D.
  assert (NC : forall z, ~ (snd a <= snd z < snd b) -> is_on_x_line a b z = false).
  { intros z Hz. apply not_true_iff_false. rewrite crossing_spec. intros [[? _]|[? _]]; [auto|lra]. }
  assert (NS : forall v, ~ (snd p < snd v <= snd q) -> strip p q v = false).
  { intros v Hv. apply not_true_iff_false. rewrite strip_iff. tauto. }
  assert (Y0 : snd (point_at a b 0) == snd a) by (unfold point_at; simpl; ring).
  assert (Y1 : snd (point_at a b 1) == snd b) by (unfold point_at; simpl; ring).
  assert (CR : forall z, snd a <= snd z < snd b -> (is_on_x_line a b z = true <-> 0 < side_of a b z)).
  { intros z Hz. rewrite crossing_spec. split; [intros [[_ ?]|[? _]]; [assumption|lra]|]. intros; left; split; assumption. }
  assert (O01 : 0 <= 0 <= 1) by lra. assert (O11 : 0 <= 1 <= 1) by lra.
  destruct (Qlt_le_dec (snd p) (snd a)) as [Apl|Apl].
  - (* a above p *)
    rewrite (NC p) by lra. rewrite xorb_false_l.
    destruct (Qlt_le_dec (snd q) (snd a)) as [Aq|Aq].
    + rewrite (NC q), (NS a), (NS b) by lra. reflexivity.
    + assert (Hlt : snd p < snd q) by lra.
      destruct (Qlt_le_dec (snd q) (snd b)) as [Bq|Bq].
      * (* MH *)
        rewrite (NS b) by lra. rewrite xorb_false_r.
        apply eq_bool_iff. rewrite (CR q), strip_iff by lra.
        destruct (level_param a b (snd q)) as (t & Ht & Et); [left; lra|].
        pose proof (sides_agree p q a b 0 t D Hlt O01 Ht ltac:(lra) ltac:(lra)) as SA.
        rewrite point_at_0 in SA.
        pose proof (side_at_level a b q t Et) as SL.
        assert (SQ : side_of p q (point_at a b t) == - ((snd q - snd p) * (fst (point_at a b t) - fst q))).
        { unfold side_of. rewrite Et. ring. }
        rewrite SQ in SA. rewrite SL. set (X := fst (point_at a b t) - fst q) in *. clearbody X.
        split.
        -- intros HX. split; [lra|]. destruct SA as [[? ?]|[? ?]]; [|assumption]. exfalso. nra.
        -- intros [_ HX]. destruct SA as [[? ?]|[? ?]]; [lra|]. assert (0 < X) by nra. nra.
      * (* MM *)
        rewrite (NC q) by lra. 
        pose proof (sides_agree p q a b 0 1 D Hlt O01 O11 ltac:(lra) ltac:(lra)) as SA.
        rewrite point_at_0, point_at_1 in SA.
        assert (strip p q a = strip p q b) as ->; [|now rewrite xorb_nilpotent].
        apply eq_bool_iff. rewrite !strip_iff.
        split; intros [_ HX]; (split; [lra|]); destruct SA as [[? ?]|[? ?]]; lra.
  - (* a not above p *)
    rewrite (NS a) by lra. rewrite xorb_false_l.
    destruct (Qlt_le_dec (snd p) (snd b)) as [Bp|Bp].
    + destruct (Qlt_le_dec (snd q) (snd b)) as [Bq|Bq].
      * (* LH *)
        rewrite (NS b) by lra.
        assert (is_on_x_line a b p = is_on_x_line a b q) as ->; [|apply xorb_nilpotent].
        apply eq_bool_iff. rewrite (CR p), (CR q) by lra.
        assert (Hlt : snd a < snd b) by lra.
        assert (Z0 : snd (point_at p q 0) == snd p) by (unfold point_at; simpl; ring).
        assert (Z1 : snd (point_at p q 1) == snd q) by (unfold point_at; simpl; ring).
        pose proof (sides_agree a b p q 0 1 (disjoint_sym _ _ _ _ D) Hlt O01 O11 ltac:(lra) ltac:(lra)) as SA.
        rewrite point_at_0, point_at_1 in SA.
        destruct SA as [[? ?]|[? ?]]; split; lra.
      * (* LM *)
        rewrite (NC q) by lra. rewrite xorb_false_r.
        assert (Hlt : snd p < snd q) by lra.
        apply eq_bool_iff. rewrite (CR p), strip_iff by lra.
        destruct (level_param a b (snd p)) as (t & Ht & Et); [left; lra|].
        pose proof (sides_agree p q a b t 1 D Hlt Ht O11 ltac:(lra) ltac:(lra)) as SA.
        rewrite point_at_1 in SA.
        pose proof (side_at_level a b p t Et) as SL.
        assert (SQ : side_of p q (point_at a b t) == - ((snd q - snd p) * (fst (point_at a b t) - fst p))).
        { unfold side_of. rewrite Et. ring. }
        rewrite SQ in SA. rewrite SL. set (X := fst (point_at a b t) - fst p) in *. clearbody X.
        split.
        -- intros HX. split; [lra|]. destruct SA as [[? ?]|[? ?]]; [|assumption]. exfalso. nra.
        -- intros [_ HX]. destruct SA as [[? ?]|[? ?]]; [lra|]. assert (0 < X) by nra. nra.
    + rewrite (NC p), (NC q), (NS b) by lra. reflexivity.
Qed.

Lemma edge_transfer : forall p q a b, snd p <= snd q -> disjoint p q a b ->
  xorb (is_on_x_line a b p) (is_on_x_line a b q) = xorb (strip p q a) (strip p q b).
Proof.
  intros p q a b Hpq D. destruct (Qlt_le_dec (snd b) (snd a)) as [H|H].
  - destruct (disjoint_off _ _ _ _ D) as [O1 O2].
    rewrite (orientation_l a b p O1), (orientation_l a b q O2), (xorb_comm (strip p q a)).
    apply edge_transfer_up; [assumption|lra|]. now apply disjoint_rev.
  - now apply edge_transfer_up.
Qed.

Lemma disjoint_rev_l : forall p q a b, disjoint p q a b -> disjoint q p a b.
Proof. intros. apply disjoint_sym, disjoint_rev, disjoint_sym. assumption. Qed.

Lemma constant_walk : forall vs p q,
  (forall s, In s (closed_walk vs) -> disjoint p q (fst s) (snd s)) ->
  contains_point (closed_walk vs) p = contains_point (closed_walk vs) q.
Proof.
  assert (K : forall vs p q, snd p <= snd q ->
    (forall s, In s (closed_walk vs) -> disjoint p q (fst s) (snd s)) ->
    contains_point (closed_walk vs) p = contains_point (closed_walk vs) q).
  { intros vs p q Hpq H. apply (parity_transfer vs p q (strip p q)). intros s Hs.
    apply edge_transfer; auto. }
  intros vs p q H. destruct (Qlt_le_dec (snd q) (snd p)).
  - symmetry. apply K; [lra|]. intros s Hs. apply disjoint_rev_l. auto.
  - now apply K.
Qed.

Lemma constant_l : forall vs wire p q, walks (closed_walk vs) wire ->
  (forall s, In s (closed_walk vs) -> disjoint p q (fst s) (snd s)) ->
  contains_point wire p = contains_point wire q.
Proof.
  intros vs wire p q W H.
  rewrite (walks_l _ wire p W), (walks_l _ wire q W).
  - now apply constant_walk.
  - intros s Hs. now destruct (disjoint_off _ _ _ _ (H s Hs)).
  - intros s Hs. now destruct (disjoint_off _ _ _ _ (H s Hs)).
Qed.

(** ** Outside the bounding box *)
Lemma in_combine_pts : forall (s : gseg) l l', In s (combine l l') -> In (fst s) l /\ In (snd s) l'.
Proof. intros [a b] l l' H. simpl. split; [eapply in_combine_l; eauto|eapply in_combine_r; eauto]. Qed.
Lemma walk_ends : forall vs s, In s (closed_walk vs) -> In (fst s) vs /\ In (snd s) vs.
Proof.
  intros vs s H. apply in_combine_pts in H as [A B]. split; [assumption|].
  eapply Permutation_in; [apply Permutation_sym, rot1_perm|assumption].
Qed.

Lemma no_crossing : forall l p, (forall s, In s l -> is_on_x_line (fst s) (snd s) p = false) ->
  contains_point l p = false.
Proof.
  intros l p H. unfold contains_point. replace (n_isec l p) with 0%nat; [reflexivity|].
  induction l as [|s l IH]; [reflexivity|]. simpl. rewrite (H s) by now left.
  rewrite <- IH; [reflexivity|]. intros; apply H; now right.
Qed.


Lemma convex_lt : forall a b c t, 0 <= t <= 1 -> a < c -> b < c -> a + t * (b - a) < c.
Proof.
  intros a b c t Ht Ha Hb. destruct (Qlt_le_dec a b).
  - assert (0 <= (1 - t) * (b - a)) by (apply Qmult_le_0_compat; lra). lra.
  - assert (0 <= t * (a - b)) by (apply Qmult_le_0_compat; lra). lra.
Qed.
Lemma convex_gt : forall a b c t, 0 <= t <= 1 -> c < a -> c < b -> c < a + t * (b - a).
Proof.
  intros a b c t Ht Ha Hb. pose proof (convex_lt (- a) (- b) (- c) t Ht ltac:(lra) ltac:(lra)). lra.
Qed.

Lemma beyond_off : forall vs p, beyond vs p -> off_wire (closed_walk vs) p.
Proof.
  intros vs p H s Hs (t & Ht & E1 & E2). destruct (walk_ends _ _ Hs) as [A B].
  unfold point_at in *. simpl in *.
  destruct H as [H|[H|[H|H]]]; pose proof (H _ A) as HA; pose proof (H _ B) as HB;
  first [pose proof (convex_lt _ _ _ t Ht HA HB) | pose proof (convex_gt _ _ _ t Ht HA HB)]; lra.
Qed.

Lemma outside_box_walk : forall vs p, beyond vs p -> contains_point (closed_walk vs) p = false.
Proof.
  intros vs p H.
  assert (D : (forall v, In v vs -> fst p < fst v) \/
    (forall s, In s (closed_walk vs) -> is_on_x_line (fst s) (snd s) p = false)).
  { destruct H as [H|[H|[H|H]]]; [right|now left|right|right]; intros s Hs;
    destruct (walk_ends _ _ Hs) as [A B]; apply not_true_iff_false; rewrite crossing_spec;
    pose proof (H _ A); pose proof (H _ B); unfold side_of;
    intros [[[? ?] ?]|[[? ?] ?]]; nra. }
  destruct D as [D|D]; [|now apply no_crossing].
  (* left of everything: compare with a point far on the right at the same level *)
  set (below := fun v : pt => Qle_bool (snd v) (snd p)).
  unfold contains_point. rewrite n_isec_sum.
  assert (E : Nat.odd (sum (fun s : gseg => b2n (is_on_x_line (fst s) (snd s) p)) (closed_walk vs)) =
              Nat.odd (sum (fun s : gseg => b2n (below (fst s))) (closed_walk vs) +
                       sum (fun s : gseg => b2n (below (snd s))) (closed_walk vs))).
  { assert (P : forall s, In s (closed_walk vs) ->
       is_on_x_line (fst s) (snd s) p = xorb (below (fst s)) (below (snd s))).
    { intros s Hs. destruct (walk_ends _ _ Hs) as [A B]. apply D in A, B.
      apply eq_bool_iff. rewrite crossing_spec. unfold below, side_of.
      destruct (Qle_bool (snd (fst s)) (snd p)) eqn:E1; destruct (Qle_bool (snd (snd s)) (snd p)) eqn:E2;
      qb; simpl.
      - split; [intros [[? ?]|[? ?]]; lra|discriminate].
      - split; [reflexivity|intros _]. left. split; [lra|]. nra.
      - split; [reflexivity|intros _]. right. split; [lra|]. nra.
      - split; [intros [[? ?]|[? ?]]; lra|discriminate]. }
    revert P. generalize (closed_walk vs) as l. induction l as [|s l IH]; intros P; [reflexivity|].
    simpl. rewrite (P s) by now left. specialize (IH (fun x Hx => P x (or_intror Hx))).
    rewrite Nat.odd_add, IH, <- Nat.odd_add.
    match goal with |- Nat.odd (?x + (?a + ?b)) = Nat.odd (?u + ?a + (?v + ?b)) =>
      replace (u + a + (v + b))%nat with ((u + v) + (a + b))%nat by lia;
      rewrite (Nat.odd_add x), (Nat.odd_add (u + v)); f_equal end.
    destruct (below (fst s)), (below (snd s)); reflexivity. }
  etransitivity; [exact E|].
  assert (B : sum (fun s : gseg => b2n (below (fst s))) (closed_walk vs) =
              sum (fun s : gseg => b2n (below (snd s))) (closed_walk vs))
    by exact (walk_balance (fun v => b2n (below v)) vs).
  rewrite B. match goal with |- Nat.odd (?x + ?x) = _ => replace (x + x)%nat with (0 + 2 * x)%nat by lia end.
  now rewrite Nat.odd_add_mul_2.
Qed.

Lemma outside_box_l : forall vs wire p, walks (closed_walk vs) wire -> beyond vs p ->
  contains_point wire p = false.
Proof.
  intros vs wire p W H. rewrite (walks_l _ _ _ W (beyond_off _ _ H)). now apply outside_box_walk.
Qed.

(** ** Convex polygons *)
Lemma combine_app_eq : forall {A B} (l1 l2 : list A) (m1 m2 : list B), length l1 = length m1 ->
  combine (l1 ++ l2) (m1 ++ m2) = combine l1 m1 ++ combine l2 m2.
Proof.
  induction l1 as [|a l1 IH]; intros l2 [|b m1] m2 H; simpl in *; try discriminate; [reflexivity|].
  f_equal. apply IH. lia.
Qed.

Lemma rot_walk : forall v l s, In s (closed_walk (v :: l)) <-> In s (closed_walk (l ++ [v])).
Proof.
  intros v [|x l] s; [reflexivity|]. unfold closed_walk. simpl rot1.
  change ((x :: l) ++ [v]) with (x :: (l ++ [v])). simpl rot1.
  change (x :: l ++ [v]) with ((x :: l) ++ [v]) at 2.
  rewrite combine_app_eq by (simpl; rewrite app_length; simpl; lia).
  change (combine (v :: x :: l) (x :: l ++ [v])) with ((v, x) :: combine (x :: l) (l ++ [v])).
  rewrite in_app_iff. simpl. tauto.
Qed.

Lemma rot_walk_app : forall l1 l2 s, In s (closed_walk (l1 ++ l2)) <-> In s (closed_walk (l2 ++ l1)).
Proof.
  induction l1 as [|v l1 IH]; intros l2 s.
  - now rewrite app_nil_r.
  - change ((v :: l1) ++ l2) with (v :: (l1 ++ l2)). rewrite rot_walk, <- app_assoc, IH.
    rewrite <- app_assoc. reflexivity.
Qed.

(** Neighbours of a vertex. *)
Lemma neighbours : forall vs b, (3 <= length vs)%nat -> NoDup vs -> In b vs ->
  exists a c, In (a, b) (closed_walk vs) /\ In (b, c) (closed_walk vs) /\
    a <> c /\ a <> b /\ c <> b /\ In a vs /\ In c vs.
Proof.
  intros vs b Hl Hn Hb. apply in_split in Hb as (l1 & l2 & ->).
  assert (Hp : Permutation (l1 ++ b :: l2) ((b :: l2) ++ l1)) by apply Permutation_app_comm.
  pose proof (Permutation_NoDup Hp Hn) as Hn'.
  pose proof (Permutation_length Hp) as Hl'. rewrite Hl' in Hl.
  assert (K : exists a c m, l2 ++ l1 = c :: m ++ [a]).
  { assert (2 <= length (l2 ++ l1))%nat by (simpl in Hl; lia).
    destruct (l2 ++ l1) as [|c m] eqn:E; [simpl in H; lia|].
    destruct (@exists_last _ m) as (m' & a & ->); [intros ->; simpl in H; lia|]. eauto. }
  destruct K as (a & c & m & K). simpl in Hn'. rewrite K in Hn'.
  assert (W : forall s, In s (closed_walk (b :: c :: m ++ [a])) -> In s (closed_walk (l1 ++ b :: l2))).
  { intros s Hs. apply rot_walk_app. simpl. now rewrite K. }
  exists a, c.
  apply NoDup_cons_iff in Hn' as [N1 N2]. pose proof N2 as N2'. apply NoDup_cons_iff in N2 as [N3 _].
  assert (Hin : forall x, In x (c :: m ++ [a]) -> In x (l1 ++ b :: l2)).
  { intros x Hx. eapply Permutation_in; [apply Permutation_sym, Hp|]. simpl. rewrite K. now right. }
  assert (Ha : In a (c :: m ++ [a])) by (right; apply in_or_app; right; now left).
  split; [|split; [|split; [|split; [|split; [|split]]]]].
  - apply W. unfold closed_walk. simpl rot1.
    change (b :: c :: m ++ [a]) with ((b :: c :: m) ++ [a]).
    change (c :: (m ++ [a]) ++ [b]) with ((c :: m ++ [a]) ++ [b]).
    rewrite combine_app_eq by (simpl; rewrite app_length; simpl; lia).
    apply in_or_app. right. now left.
  - apply W. now left.
  - intros ->. apply N3. apply in_or_app. right. now left.
  - intros ->. now apply N1.
  - intros ->. apply N1. now left.
  - now apply Hin.
  - apply Hin. now left.
Qed.

Lemma combine_snd_unique : forall (l l' : list pt) s e, NoDup l ->
  In s (combine l' l) -> In e (combine l' l) -> snd s = snd e -> s = e.
Proof.
  induction l as [|a l IH]; intros [|b l'] s e Hn' Hs He Eq; simpl in *; try tauto.
  apply NoDup_cons_iff in Hn' as [N1 N2].
  destruct Hs as [<-|Hs], He as [<-|He]; auto; simpl in *.
  - exfalso. apply N1. apply in_combine_pts in He as [_ He]. congruence.
  - exfalso. apply N1. apply in_combine_pts in Hs as [_ Hs]. congruence.
  - eapply IH; eauto.
Qed.

Section Convex.
Variable vs : list pt.
Hypothesis Hconv : convex_ccw vs.

Let E := closed_walk vs.

Lemma vertex_side : forall s v, In s E -> In v vs -> 0 <= side_of (fst s) (snd s) v.
Proof.
  intros s v Hs Hv. destruct Hconv as (_ & _ & H). destruct (H s v Hs Hv) as [->|[->|?]].
  - unfold side_of. lra.
  - unfold side_of. lra.
  - lra.
Qed.

Lemma edge_side : forall s e t, In s E -> In e E -> 0 <= t <= 1 ->
  0 <= side_of (fst s) (snd s) (point_at (fst e) (snd e) t).
Proof.
  intros s e t Hs He Ht. rewrite side_affine. destruct (walk_ends _ _ He) as [A B].
  pose proof (vertex_side s _ Hs A). pose proof (vertex_side s _ Hs B).
  set (x := side_of (fst s) (snd s) (fst e)) in *. set (y := side_of (fst s) (snd s) (snd e)) in *.
  clearbody x y.
  assert (0 <= t * y) by (apply Qmult_le_0_compat; lra).
  assert (0 <= (1 - t) * x) by (apply Qmult_le_0_compat; lra). lra.
Qed.

Lemma fst_unique : forall s e, In s E -> In e E -> fst s = fst e -> s = e.
Proof.
  destruct Hconv as (_ & Hn & _). unfold E, closed_walk. generalize (rot1 vs) as l'. revert Hn.
  generalize vs as l. induction l as [|a l IH]; intros Hn [|b l'] s e Hs He Eq; simpl in *; try tauto.
  apply NoDup_cons_iff in Hn as [N1 N2].
  destruct Hs as [<-|Hs], He as [<-|He]; auto; simpl in *.
  - exfalso. apply N1. apply in_combine_pts in He as [He _]. congruence.
  - exfalso. apply N1. apply in_combine_pts in Hs as [Hs _]. congruence.
  - eapply IH; eauto.
Qed.

Lemma snd_unique : forall s e, In s E -> In e E -> snd s = snd e -> s = e.
Proof.
  destruct Hconv as (_ & Hn & _).
  pose proof (Permutation_NoDup (rot1_perm vs) Hn) as Hn'. intros s e.
  now apply combine_snd_unique.
Qed.

Lemma NoDup_E : NoDup E.
Proof.
  destruct Hconv as (_ & Hn & _). unfold E, closed_walk. revert Hn.
  generalize (rot1 vs) as l'. generalize vs as l.
  induction l as [|a l IH]; intros [|b l'] Hn; simpl; try constructor.
  - intros H. apply in_combine_pts in H as [H _]. simpl in H. apply NoDup_cons_iff in Hn. tauto.
  - apply IH. apply NoDup_cons_iff in Hn. tauto.
Qed.

Definition up (y : Q) (s : gseg) : bool := Qle_bool (snd (fst s)) y && Qlt_bool y (snd (snd s)).
Definition dn (y : Q) (s : gseg) : bool := Qle_bool (snd (snd s)) y && Qlt_bool y (snd (fst s)).

Lemma up_iff : forall y s, up y s = true <-> snd (fst s) <= y < snd (snd s).
Proof. intros. unfold up. rewrite andb_true_iff, Qle_bool_iff, Qlt_bool_iff. reflexivity. Qed.
Lemma dn_iff : forall y s, dn y s = true <-> snd (snd s) <= y < snd (fst s).
Proof. intros. unfold dn. rewrite andb_true_iff, Qle_bool_iff, Qlt_bool_iff. reflexivity. Qed.

Lemma same_level_side : forall e p q, snd p == snd q ->
  side_of (fst e) (snd e) q == side_of (fst e) (snd e) p + (snd (snd e) - snd (fst e)) * (fst p - fst q).
Proof. intros e p q H. unfold side_of. rewrite H. ring. Qed.

Lemma side_self : forall e t, side_of (fst e) (snd e) (point_at (fst e) (snd e) t) == 0.
Proof. intros. unfold side_of, point_at. simpl. ring. Qed.

Lemma up_unique : forall y s e, In s E -> In e E -> up y s = true -> up y e = true -> s = e.
Proof.
  intros y s e Hs He Us Ue. apply up_iff in Us, Ue.
  destruct (level_param (fst s) (snd s) y) as (t1 & T1 & L1); [left; lra|].
  destruct (level_param (fst e) (snd e) y) as (t2 & T2 & L2); [left; lra|].
  set (P1 := point_at (fst s) (snd s) t1) in *. set (P2 := point_at (fst e) (snd e) t2) in *.
  assert (S12 : 0 <= side_of (fst s) (snd s) P2) by now apply edge_side.
  assert (S21 : 0 <= side_of (fst e) (snd e) P1) by now apply edge_side.
  pose proof (same_level_side s P1 P2 ltac:(lra)) as Q1.
  pose proof (same_level_side e P2 P1 ltac:(lra)) as Q2.
  assert (Z1 : side_of (fst s) (snd s) P1 == 0) by apply side_self.
  assert (Z2 : side_of (fst e) (snd e) P2 == 0) by apply side_self.
  rewrite Z1 in Q1. rewrite Z2 in Q2.
  assert (X1 : 0 <= fst P1 - fst P2) by (destruct (Qlt_le_dec (fst P1 - fst P2) 0); [exfalso; nra|assumption]).
  assert (X2 : 0 <= fst P2 - fst P1) by (destruct (Qlt_le_dec (fst P2 - fst P1) 0); [exfalso; nra|assumption]).
  assert (Z : side_of (fst s) (snd s) P2 == 0).
  { assert (fst P1 - fst P2 == 0) by lra. rewrite Q1, H. ring. }
  unfold P2 in Z. rewrite side_affine in Z.
  destruct (walk_ends _ _ He) as [A B].
  pose proof (vertex_side s _ Hs A) as VA. pose proof (vertex_side s _ Hs B) as VB.
  assert (T2' : t2 < 1).
  { unfold P2, point_at in L2. simpl in L2. destruct (Qlt_le_dec t2 1); [assumption|]. exfalso.
    assert (t2 == 1) by lra. rewrite H in L2. lra. }
  assert (VZ : side_of (fst s) (snd s) (fst e) == 0).
  { destruct (Qlt_le_dec 0 (side_of (fst s) (snd s) (fst e))) as [H|H]; [|lra]. exfalso.
    assert (0 < (1 - t2) * side_of (fst s) (snd s) (fst e)) by nra.
    assert (0 <= t2 * side_of (fst s) (snd s) (snd e)) by (apply Qmult_le_0_compat; lra). lra. }
  destruct Hconv as (_ & _ & H). destruct (H s (fst e) Hs A) as [K|[K|K]]; [| |lra].
  - symmetry. now apply fst_unique.
  - exfalso. rewrite K in Ue. lra.
Qed.

Lemma dn_unique : forall y s e, In s E -> In e E -> dn y s = true -> dn y e = true -> s = e.
Proof.
  intros y s e Hs He Us Ue. apply dn_iff in Us, Ue.
  destruct (level_param (fst s) (snd s) y) as (t1 & T1 & L1); [right; lra|].
  destruct (level_param (fst e) (snd e) y) as (t2 & T2 & L2); [right; lra|].
  set (P1 := point_at (fst s) (snd s) t1) in *. set (P2 := point_at (fst e) (snd e) t2) in *.
  assert (S12 : 0 <= side_of (fst s) (snd s) P2) by now apply edge_side.
  assert (S21 : 0 <= side_of (fst e) (snd e) P1) by now apply edge_side.
  pose proof (same_level_side s P1 P2 ltac:(lra)) as Q1.
  pose proof (same_level_side e P2 P1 ltac:(lra)) as Q2.
  assert (Z1 : side_of (fst s) (snd s) P1 == 0) by apply side_self.
  assert (Z2 : side_of (fst e) (snd e) P2 == 0) by apply side_self.
  rewrite Z1 in Q1. rewrite Z2 in Q2.
  assert (X1 : 0 <= fst P2 - fst P1) by (destruct (Qlt_le_dec (fst P2 - fst P1) 0); [exfalso; nra|assumption]).
  assert (X2 : 0 <= fst P1 - fst P2) by (destruct (Qlt_le_dec (fst P1 - fst P2) 0); [exfalso; nra|assumption]).
  assert (Z : side_of (fst s) (snd s) P2 == 0).
  { assert (fst P1 - fst P2 == 0) by lra. rewrite Q1, H. ring. }
  unfold P2 in Z. rewrite side_affine in Z.
  destruct (walk_ends _ _ He) as [A B].
  pose proof (vertex_side s _ Hs A) as VA. pose proof (vertex_side s _ Hs B) as VB.
  assert (T2' : 0 < t2).
  { unfold P2, point_at in L2. simpl in L2. destruct (Qlt_le_dec 0 t2); [assumption|]. exfalso.
    assert (t2 == 0) by lra. rewrite H in L2. lra. }
  assert (VZ : side_of (fst s) (snd s) (snd e) == 0).
  { destruct (Qlt_le_dec 0 (side_of (fst s) (snd s) (snd e))) as [H|H]; [|lra]. exfalso.
    assert (0 < t2 * side_of (fst s) (snd s) (snd e)) by nra.
    assert (0 <= (1 - t2) * side_of (fst s) (snd s) (fst e)) by (apply Qmult_le_0_compat; lra). lra. }
  destruct Hconv as (_ & _ & H). destruct (H s (snd e) Hs B) as [K|[K|K]]; [| |lra].
  - exfalso. rewrite K in Ue. lra.
  - symmetry. now apply snd_unique.
Qed.

Lemma sum_le1 : forall (f : gseg -> bool) l, NoDup l ->
  (forall s e, In s l -> In e l -> f s = true -> f e = true -> s = e) ->
  sum (fun s => b2n (f s)) l = b2n (existsb f l).
Proof.
  intros f l Hn. induction l as [|a l IH]; intros H; [reflexivity|]. simpl.
  apply NoDup_cons_iff in Hn as [N1 N2].
  rewrite IH; [|assumption|intros; apply H; auto; now right].
  destruct (f a) eqn:Ea; [|reflexivity]. simpl.
  destruct (existsb f l) eqn:Ex; [|reflexivity]. exfalso.
  apply existsb_exists in Ex as (e & He & Fe). apply N1.
  rewrite (H a e); auto; [now left|now right].
Qed.

Lemma updn_balance : forall y, sum (fun s => b2n (up y s)) E = sum (fun s => b2n (dn y s)) E.
Proof.
  intros y. set (below := fun v : pt => Qle_bool (snd v) y).
  assert (B : sum (fun s : gseg => b2n (below (fst s))) E = sum (fun s : gseg => b2n (below (snd s))) E)
    by exact (walk_balance (fun v => b2n (below v)) vs).
  assert (P : sum (fun s : gseg => b2n (up y s) + b2n (below (snd s)))%nat E =
              sum (fun s : gseg => b2n (dn y s) + b2n (below (fst s)))%nat E).
  { apply sum_ext. intros s _. unfold up, dn, below, Qlt_bool.
    destruct (Qle_bool (snd (fst s)) y), (Qle_bool (snd (snd s)) y); reflexivity. }
  rewrite !sum_add in P. lia.
Qed.

Lemma up_dn_exist : forall y, existsb (up y) E = existsb (dn y) E.
Proof.
  intros y. pose proof (updn_balance y) as B.
  rewrite (sum_le1 (up y)), (sum_le1 (dn y)) in B; try apply NoDup_E.
  - destruct (existsb (up y) E), (existsb (dn y) E); simpl in B; congruence || lia.
  - intros; eapply dn_unique; eauto.
  - intros; eapply up_unique; eauto.
Qed.

Lemma no_up_constant : forall y, existsb (up y) E = false ->
  forall u v, In u vs -> In v vs -> Qle_bool (snd u) y = Qle_bool (snd v) y.
Proof.
  intros y H. pose proof H as H'. rewrite up_dn_exist in H'.
  assert (K : forall s, In s E -> Qle_bool (snd (fst s)) y = Qle_bool (snd (snd s)) y).
  { intros s Hs.
    assert (U : up y s = false).
    { destruct (up y s) eqn:Eu; [|reflexivity].
      assert (existsb (up y) E = true) by (apply existsb_exists; eauto). congruence. }
    assert (D : dn y s = false).
    { destruct (dn y s) eqn:Eu; [|reflexivity].
      assert (existsb (dn y) E = true) by (apply existsb_exists; eauto). congruence. }
    unfold up, dn, Qlt_bool in *.
    destruct (Qle_bool (snd (fst s)) y), (Qle_bool (snd (snd s)) y); simpl in *; congruence. }
  destruct vs as [|v0 l] eqn:Ev; [intros u v []|].
  assert (C : forall (x : pt) (l : list pt) (w : pt), (forall s : gseg, In s (combine (x :: l) (l ++ [w])) ->
      Qle_bool (snd (fst s)) y = Qle_bool (snd (snd s)) y) ->
      forall z, In z (x :: l) -> Qle_bool (snd z) y = Qle_bool (snd x) y).
  { clear. intros x l. revert x. induction l as [|a l IH]; intros x w Hs z Hz.
    - destruct Hz as [<-|[]]; reflexivity.
    - destruct Hz as [<-|Hz]; [reflexivity|].
      specialize (Hs (x, a) (or_introl eq_refl)) as Hxa. simpl in Hxa. rewrite Hxa.
      apply (IH a w); [|assumption]. intros s Hin. apply Hs. now right. }
  intros u v Hu Hv. rewrite (C v0 l v0 K u Hu), (C v0 l v0 K v Hv). reflexivity.
Qed.

Lemma extreme : forall (f : pt -> Q) l, l <> [] -> exists m, In m l /\ forall v, In v l -> f m <= f v.
Proof.
  intros f l. induction l as [|a l IH]; intros H; [congruence|].
  destruct l as [|b l'].
  - exists a. split; [now left|]. intros v [<-|[]]. lra.
  - destruct IH as (m & Hm & Hmin); [congruence|].
    destruct (Qlt_le_dec (f a) (f m)).
    + exists a. split; [now left|]. intros v [<-|Hv]; [lra|]. specialize (Hmin v Hv). lra.
    + exists m. split; [now right|]. intros v [<-|Hv]; [lra|auto].
Qed.

(** Position of an inside point with respect to the corner a b c. *)
Lemma corner : forall p, inside vs p -> forall b, In b vs ->
  exists a c al be, In a vs /\ In c vs /\ 0 < al /\ 0 < be /\ 0 < side_of a b c /\
    snd p - snd b == al * (snd a - snd b) + be * (snd c - snd b).
Proof.
  intros p Hin b Hb. destruct Hconv as (Hl & Hn & Hc).
  destruct (neighbours vs b Hl Hn Hb) as (a & c & E1 & E2 & N1 & N2 & N3 & Ia & Ic).
  exists a, c.
  assert (S : 0 < side_of a b c).
  { destruct (Hc (a, b) c E1 Ic) as [K|[K|K]]; simpl in *; congruence || assumption. }
  pose proof (Hin _ E1) as P1. pose proof (Hin _ E2) as P2. simpl in P1, P2.
  set (D := side_of a b c) in *.
  exists (side_of b c p / D), (side_of a b p / D).
  split; [assumption|]. split; [assumption|].
  split; [apply Qlt_shift_div_l; [assumption|lra]|].
  split; [apply Qlt_shift_div_l; [assumption|lra]|].
  split; [assumption|].
  assert (HD : ~ D == 0) by lra.
  unfold D, side_of in *. destruct a, b, c, p; simpl in *. field. exact HD.
Qed.

Lemma up_exists_inside : forall p, inside vs p -> existsb (up (snd p)) E = true.
Proof.
  intros p Hin. destruct (existsb (up (snd p)) E) eqn:Eu; [reflexivity|]. exfalso.
  assert (Hne : vs <> []) by (destruct Hconv as (Hl & _); intros ->; simpl in Hl; lia).
  destruct (extreme snd vs Hne) as (lo & Hlo & Lmin).
  destruct (extreme (fun v => - snd v) vs Hne) as (hi & Hhi & Hmax).
  pose proof (no_up_constant (snd p) Eu lo hi Hlo Hhi) as K.
  assert (A : Qle_bool (snd lo) (snd p) = true).
  { apply Qle_bool_iff. destruct (corner p Hin lo Hlo) as (a & c & al & be & Ia & Ic & Pa & Pb & _ & Eq).
    pose proof (Lmin a Ia). pose proof (Lmin c Ic).
    assert (0 <= al * (snd a - snd lo)) by (apply Qmult_le_0_compat; lra).
    assert (0 <= be * (snd c - snd lo)) by (apply Qmult_le_0_compat; lra). lra. }
  assert (B : Qle_bool (snd hi) (snd p) = false).
  { apply Qle_bool_false. destruct (corner p Hin hi Hhi) as (a & c & al & be & Ia & Ic & Pa & Pb & S & Eq).
    pose proof (Hmax a Ia) as Ma. pose proof (Hmax c Ic) as Mc. simpl in Ma, Mc.
    assert (H1 : 0 <= al * (snd hi - snd a)) by (apply Qmult_le_0_compat; lra).
    assert (H2 : 0 <= be * (snd hi - snd c)) by (apply Qmult_le_0_compat; lra).
    destruct (Qlt_le_dec (snd a) (snd hi)) as [La|La].
    { assert (0 < al * (snd hi - snd a)) by nra. lra. }
    destruct (Qlt_le_dec (snd c) (snd hi)) as [Lc|Lc].
    { assert (0 < be * (snd hi - snd c)) by nra. lra. }
    exfalso. unfold side_of in S. assert (snd a == snd hi) by lra. assert (snd c == snd hi) by lra.
    rewrite H, H0 in S. lra. }
  congruence.
Qed.

Definition upc (p : pt) (s : gseg) : bool := up (snd p) s && Qlt_bool 0 (side_of (fst s) (snd s) p).
Definition dnc (p : pt) (s : gseg) : bool := dn (snd p) s && Qle_bool (side_of (fst s) (snd s) p) 0.

Lemma crossing_split : forall p s, b2n (is_on_x_line (fst s) (snd s) p) = (b2n (upc p s) + b2n (dnc p s))%nat.
Proof.
  intros p s. destruct (is_on_x_line (fst s) (snd s) p) eqn:Ec.
  - apply crossing_spec in Ec as [[L S]|[L S]].
    + assert (upc p s = true) as -> by (unfold upc; apply andb_true_iff; rewrite up_iff, Qlt_bool_iff; tauto).
      assert (dnc p s = false) as ->; [|reflexivity].
      unfold dnc. apply andb_false_iff. left. apply not_true_iff_false. rewrite dn_iff. lra.
    + assert (dnc p s = true) as -> by (unfold dnc; apply andb_true_iff; rewrite dn_iff, Qle_bool_iff; tauto).
      assert (upc p s = false) as ->; [|reflexivity].
      unfold upc. apply andb_false_iff. left. apply not_true_iff_false. rewrite up_iff. lra.
  - assert (N : ~ is_on_x_line (fst s) (snd s) p = true) by congruence. rewrite crossing_spec in N.
    assert (upc p s = false) as ->.
    { apply not_true_iff_false. unfold upc. rewrite andb_true_iff, up_iff, Qlt_bool_iff. tauto. }
    assert (dnc p s = false) as ->.
    { apply not_true_iff_false. unfold dnc. rewrite andb_true_iff, dn_iff, Qle_bool_iff. tauto. }
    reflexivity.
Qed.

Lemma count_crossings : forall p,
  n_isec E p = (b2n (existsb (upc p) E) + b2n (existsb (dnc p) E))%nat.
Proof.
  intros p. rewrite n_isec_sum.
  rewrite (sum_ext _ (fun s => b2n (upc p s) + b2n (dnc p s))%nat) by (intros; apply crossing_split).
  rewrite sum_add, (sum_le1 (upc p)), (sum_le1 (dnc p)); try reflexivity; try apply NoDup_E.
  - unfold dnc. intros s e Hs He A B. qb. eapply dn_unique; eauto.
  - unfold upc. intros s e Hs He A B. qb. eapply up_unique; eauto.
Qed.

Lemma convex_inside : forall p, inside vs p -> contains_point E p = true.
Proof.
  intros p Hin. unfold contains_point. rewrite count_crossings.
  assert (existsb (upc p) E = true) as ->.
  { pose proof (up_exists_inside p Hin) as H. apply existsb_exists in H as (s & Hs & U).
    apply existsb_exists. exists s. split; [assumption|]. unfold upc. rewrite U. simpl.
    apply Qlt_bool_iff. now apply Hin. }
  assert (existsb (dnc p) E = false) as ->; [|reflexivity].
  apply not_true_iff_false. intros H. apply existsb_exists in H as (s & Hs & U).
  unfold dnc in U. qb. specialize (Hin s Hs). lra.
Qed.

Lemma convex_outside : forall p, outside vs p -> contains_point E p = false.
Proof.
  intros p (e0 & He0 & Hneg). unfold contains_point. rewrite count_crossings.
  destruct (existsb (upc p) E) eqn:EU; destruct (existsb (dnc p) E) eqn:ED; try reflexivity; exfalso.
  all: assert (HU : exists U, In U E /\ up (snd p) U = true /\
         (if existsb (upc p) E then 0 <= side_of (fst U) (snd U) p else side_of (fst U) (snd U) p <= 0)).
  1,3: rewrite EU.
  - apply existsb_exists in EU as (U & HU & U2). exists U. unfold upc in U2. qb.
    split; [assumption|]. split; [assumption|lra].
  - assert (X : existsb (up (snd p)) E = true).
    { rewrite up_dn_exist. apply existsb_exists in ED as (W & HW & W2). apply existsb_exists.
      exists W. unfold dnc in W2. qb. auto. }
    apply existsb_exists in X as (U & HU & U2). exists U. split; [assumption|]. split; [assumption|].
    destruct (Qlt_le_dec 0 (side_of (fst U) (snd U) p)); [|assumption]. exfalso.
    assert (existsb (upc p) E = true); [|congruence]. apply existsb_exists. exists U. split; [assumption|].
    unfold upc. apply andb_true_iff. split; [assumption|]. now apply Qlt_bool_iff.
  - destruct HU as (U & HU & U2 & U3). rewrite EU in U3.
    assert (HW : exists W, In W E /\ dn (snd p) W = true /\ 0 <= side_of (fst W) (snd W) p).
    { assert (X : existsb (dn (snd p)) E = true).
      { rewrite <- up_dn_exist. apply existsb_exists. eauto. }
      apply existsb_exists in X as (W & HW & W2). exists W. split; [assumption|]. split; [assumption|].
      destruct (Qlt_le_dec (side_of (fst W) (snd W) p) 0); [|assumption]. exfalso.
      assert (existsb (dnc p) E = true); [|congruence]. apply existsb_exists. exists W. split; [assumption|].
      unfold dnc. apply andb_true_iff. split; [assumption|]. apply Qle_bool_iff. lra. }
    destruct HW as (W & HW & W2 & W3).
    apply up_iff in U2. apply dn_iff in W2.
    destruct (level_param (fst U) (snd U) (snd p)) as (t1 & T1 & L1); [left; lra|].
    destruct (level_param (fst W) (snd W) (snd p)) as (t2 & T2 & L2); [right; lra|].
    rewrite (side_at_level _ _ p t1 L1) in U3. rewrite (side_at_level _ _ p t2 L2) in W3.
    pose proof (edge_side e0 U t1 He0 HU T1) as A1. pose proof (edge_side e0 W t2 He0 HW T2) as A2.
    set (P1 := point_at (fst U) (snd U) t1) in *. set (P2 := point_at (fst W) (snd W) t2) in *.
    clearbody P1 P2.
    destruct (affine_zero (fst P1 - fst p) (fst P2 - fst p)) as (l & Hl & El).
    { right. split; [destruct (Qlt_le_dec 0 (fst P2 - fst p)); [exfalso; nra|assumption]|].
      destruct (Qlt_le_dec (fst P1 - fst p) 0); [exfalso; nra|assumption]. }
    rewrite (same_level_side e0 P1 p) in Hneg by lra. rewrite (same_level_side e0 P1 P2) in A2 by lra.
    assert (X : fst P1 - fst p == l * (fst P1 - fst P2)) by lra. rewrite X in Hneg.
    set (x := side_of (fst e0) (snd e0) P1) in *. set (h := snd (snd e0) - snd (fst e0)) in *.
    set (g := fst P1 - fst P2) in *. clearbody x h g.
    assert (0 <= (1 - l) * x) by (apply Qmult_le_0_compat; lra).
    assert (0 <= l * (x + h * g)) by (apply Qmult_le_0_compat; lra). lra.
  - destruct HU as (U & HU & U2 & U3). rewrite EU in U3.
    assert (HW : exists W, In W E /\ dn (snd p) W = true /\ side_of (fst W) (snd W) p <= 0).
    { apply existsb_exists in ED as (W & HW & W2). exists W. unfold dnc in W2. qb.
      split; [assumption|]. split; [assumption|lra]. }
    destruct HW as (W & HW & W2 & W3).
    apply up_iff in U2. apply dn_iff in W2.
    destruct (level_param (fst U) (snd U) (snd p)) as (t1 & T1 & L1); [left; lra|].
    destruct (level_param (fst W) (snd W) (snd p)) as (t2 & T2 & L2); [right; lra|].
    rewrite (side_at_level _ _ p t1 L1) in U3. rewrite (side_at_level _ _ p t2 L2) in W3.
    pose proof (edge_side e0 U t1 He0 HU T1) as A1. pose proof (edge_side e0 W t2 He0 HW T2) as A2.
    set (P1 := point_at (fst U) (snd U) t1) in *. set (P2 := point_at (fst W) (snd W) t2) in *.
    clearbody P1 P2.
    destruct (affine_zero (fst P1 - fst p) (fst P2 - fst p)) as (l & Hl & El).
    { left. split; [destruct (Qlt_le_dec 0 (fst P1 - fst p)); [exfalso; nra|assumption]|].
      destruct (Qlt_le_dec (fst P2 - fst p) 0); [exfalso; nra|assumption]. }
    rewrite (same_level_side e0 P1 p) in Hneg by lra. rewrite (same_level_side e0 P1 P2) in A2 by lra.
    assert (X : fst P1 - fst p == l * (fst P1 - fst P2)) by lra. rewrite X in Hneg.
    set (x := side_of (fst e0) (snd e0) P1) in *. set (h := snd (snd e0) - snd (fst e0)) in *.
    set (g := fst P1 - fst P2) in *. clearbody x h g.
    assert (0 <= (1 - l) * x) by (apply Qmult_le_0_compat; lra).
    assert (0 <= l * (x + h * g)) by (apply Qmult_le_0_compat; lra). lra.
Qed.

Lemma inside_off : forall p, inside vs p -> off_wire E p.
Proof.
  intros p H s Hs (t & Ht & E1 & E2). specialize (H s Hs).
  rewrite (side_at_level _ _ p t E2), E1 in H. lra.
Qed.
Lemma outside_off : forall p, outside vs p -> off_wire E p.
Proof.
  intros p (e0 & He0 & Hneg) s Hs (t & Ht & E1 & E2).
  pose proof (edge_side e0 s t He0 Hs Ht) as A. unfold side_of in *. rewrite E1, E2 in A. lra.
Qed.
End Convex.

Lemma convex_l : forall vs wire p, convex_ccw vs -> walks (closed_walk vs) wire ->
  (inside vs p -> contains_point wire p = true) /\
  (outside vs p -> contains_point wire p = false).
Proof.
  intros vs wire p Hc W. split; intros H.
  - rewrite (walks_l _ _ _ W (inside_off vs p H)). now apply convex_inside.
  - rewrite (walks_l _ _ _ W (outside_off vs Hc p H)). now apply convex_outside.
Qed.
