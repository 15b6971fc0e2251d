(** Lemmas about the box lookup model. *)
From Coq Require Import List QArith Qminmax Bool Arith Lia Lqa Sorting.Sorted.
From Verif Require Import Aabb_Model Aabb_Spec.
Import ListNotations.
Open Scope Q_scope.

(** ** numpy helpers *)
Lemma in_combine_seq : forall {A} (l : list A) s i x,
  In (i, x) (combine (seq s (length l)) l) <-> (s <= i)%nat /\ nth_error l (i - s) = Some x.
Proof.
  induction l as [|a l IH]; intros s i x; simpl.
  - split; [tauto|]. intros [_ H]. destruct (i - s)%nat; discriminate.
  - rewrite IH. split.
    + intros [H|[H1 H2]].
      * inversion H; subst. rewrite Nat.sub_diag. auto.
      * split; [lia|]. replace (i - s)%nat with (S (i - S s)) by lia. exact H2.
    + intros [H1 H2]. destruct (Nat.eq_dec i s) as [->|Hne].
      * rewrite Nat.sub_diag in H2. simpl in H2. left. congruence.
      * right. split; [lia|]. replace (i - s)%nat with (S (i - S s)) in H2 by lia. exact H2.
Qed.

Lemma where_In : forall {A} (f : A -> bool) l i,
  In i (where_ f l) <-> exists x, nth_error l i = Some x /\ f x = true.
Proof.
  intros A f l i. unfold where_. rewrite in_map_iff. split.
  - intros ([j x] & E & H). simpl in E; subst j. apply filter_In in H as [H1 H2].
    apply in_combine_seq in H1 as [_ H1]. rewrite Nat.sub_0_r in H1. eauto.
  - intros (x & H1 & H2). exists (i, x). split; [reflexivity|]. apply filter_In. split; [|assumption].
    apply in_combine_seq. rewrite Nat.sub_0_r. split; [lia|assumption].
Qed.

Lemma where_sorted : forall {A} (f : A -> bool) l, StronglySorted lt (where_ f l).
Proof.
  intros A f l. unfold where_. generalize 0%nat as s.
  induction l as [|a l IH]; intros s; simpl; [constructor|].
  destruct (f a); simpl; [|apply IH].
  constructor; [apply IH|]. apply Forall_forall. intros j Hj.
  apply in_map_iff in Hj as ([j' x] & E & H). simpl in E; subst j'.
  apply filter_In in H as [H _]. apply in_combine_seq in H. lia.
Qed.

Lemma Qle_bool_false : forall a b, Qle_bool a b = false <-> b < a.
Proof.
  intros a b. split.
  - intros H. destruct (Qlt_le_dec b a); [assumption|]. apply Qle_bool_iff in q. congruence.
  - intros H. destruct (Qle_bool a b) eqn:E; [|reflexivity]. apply Qle_bool_iff in E. lra.
Qed.

(** ** make_aabb *)
Definition aabb_fold (ps : list pt) (b : box) : box :=
  fold_left (fun b q => Box (Qmin (bx0 b) (fst q)) (Qmin (by0 b) (snd q))
                            (Qmax (bx1 b) (fst q)) (Qmax (by1 b) (snd q))) ps b.


Ltac qmm := repeat match goal with
  | |- context [Qmin ?a ?b] => first [pose proof (Q.le_min_l a b); pose proof (Q.le_min_r a b);
        pose proof (Q.min_spec_le a b); generalize dependent (Qmin a b); intros]
  | |- context [Qmax ?a ?b] => pose proof (Q.le_max_l a b); pose proof (Q.le_max_r a b);
        pose proof (Q.max_spec_le a b); generalize dependent (Qmax a b); intros
  end.

Lemma aabb_fold_mono : forall ps b,
  bx0 (aabb_fold ps b) <= bx0 b /\ by0 (aabb_fold ps b) <= by0 b /\
  bx1 b <= bx1 (aabb_fold ps b) /\ by1 b <= by1 (aabb_fold ps b).
Proof.
  induction ps as [|q ps IH]; intros b; simpl; [lra|].
  destruct (IH (Box (Qmin (bx0 b) (fst q)) (Qmin (by0 b) (snd q))
                    (Qmax (bx1 b) (fst q)) (Qmax (by1 b) (snd q)))) as (H1 & H2 & H3 & H4).
  simpl in *. fold (aabb_fold ps) in *.
  pose proof (Q.le_min_l (bx0 b) (fst q)). pose proof (Q.le_min_l (by0 b) (snd q)).
  pose proof (Q.le_max_l (bx1 b) (fst q)). pose proof (Q.le_max_l (by1 b) (snd q)).
  repeat split; lra.
Qed.

Lemma aabb_fold_in : forall ps b p, In p ps -> in_box p (aabb_fold ps b).
Proof.
  induction ps as [|q ps IH]; intros b p Hin; simpl in *; [tauto|].
  set (b' := Box (Qmin (bx0 b) (fst q)) (Qmin (by0 b) (snd q))
                 (Qmax (bx1 b) (fst q)) (Qmax (by1 b) (snd q))).
  destruct Hin as [->|Hin].
  - destruct (aabb_fold_mono ps b') as (H1 & H2 & H3 & H4). simpl in *.
    pose proof (Q.le_min_r (bx0 b) (fst p)). pose proof (Q.le_min_r (by0 b) (snd p)).
    pose proof (Q.le_max_r (bx1 b) (fst p)). pose proof (Q.le_max_r (by1 b) (snd p)).
    unfold in_box. repeat split; lra.
  - exact (IH b' p Hin).
Qed.

Lemma aabb_fold_attained : forall ps b,
  (bx0 (aabb_fold ps b) == bx0 b \/ exists p, In p ps /\ bx0 (aabb_fold ps b) == fst p) /\
  (by0 (aabb_fold ps b) == by0 b \/ exists p, In p ps /\ by0 (aabb_fold ps b) == snd p) /\
  (bx1 (aabb_fold ps b) == bx1 b \/ exists p, In p ps /\ bx1 (aabb_fold ps b) == fst p) /\
  (by1 (aabb_fold ps b) == by1 b \/ exists p, In p ps /\ by1 (aabb_fold ps b) == snd p).
Proof.
  induction ps as [|q ps IH]; intros b; simpl.
  - repeat split; left; lra.
  - destruct (IH (Box (Qmin (bx0 b) (fst q)) (Qmin (by0 b) (snd q))
                    (Qmax (bx1 b) (fst q)) (Qmax (by1 b) (snd q)))) as (H1 & H2 & H3 & H4).
    simpl in *. fold (aabb_fold ps) in *.
    repeat split.
    + destruct H1 as [H|(p & Hp & H)]; [|right; eauto].
      destruct (Q.min_spec_le (bx0 b) (fst q)) as [[_ E]|[_ E]]; [left|right; exists q]; rewrite H, E; auto with qarith.
    + destruct H2 as [H|(p & Hp & H)]; [|right; eauto].
      destruct (Q.min_spec_le (by0 b) (snd q)) as [[_ E]|[_ E]]; [left|right; exists q]; rewrite H, E; auto with qarith.
    + destruct H3 as [H|(p & Hp & H)]; [|right; eauto].
      destruct (Q.max_spec_le (bx1 b) (fst q)) as [[_ E]|[_ E]]; [right; exists q|left]; rewrite H, E; auto with qarith.
    + destruct H4 as [H|(p & Hp & H)]; [|right; eauto].
      destruct (Q.max_spec_le (by1 b) (snd q)) as [[_ E]|[_ E]]; [right; exists q|left]; rewrite H, E; auto with qarith.
Qed.


Lemma eff_margin_cases : forall m, (m <= 0 /\ eff_margin m == 0) \/ (0 < m /\ eff_margin m == m).
Proof.
  intros m. unfold eff_margin. destruct (Q.max_spec 0 m) as [[H E]|[H E]]; [right|left]; split; auto; lra.
Qed.

Lemma make_aabb_l : forall points margin,
  points <> [] ->
  exists b, make_aabb points margin = Some b /\
    (forall p, In p points -> covers b (eff_margin margin) p) /\
    (forall b', (forall p, In p points -> covers b' (eff_margin margin) p) ->
       bx0 b' <= bx0 b /\ by0 b' <= by0 b /\ bx1 b <= bx1 b' /\ by1 b <= by1 b').
Proof.
  intros [|p ps] margin Hne; [congruence|]. clear Hne. unfold make_aabb.
  fold (aabb_fold ps (Box (fst p) (snd p) (fst p) (snd p))).
  set (b0 := Box (fst p) (snd p) (fst p) (snd p)).
  pose proof (aabb_fold_mono ps b0) as (M1 & M2 & M3 & M4).
  pose proof (aabb_fold_attained ps b0) as (A1 & A2 & A3 & A4).
  set (b := aabb_fold ps b0) in *.
  assert (C : forall q, In q (p :: ps) -> in_box q b).
  { intros q [<-|Hq]; [unfold in_box; simpl in *; repeat split; lra|]. now apply aabb_fold_in. }
  assert (S : forall e b', (forall q, In q (p :: ps) -> covers b' e q) ->
     bx0 b' + e <= bx0 b /\ by0 b' + e <= by0 b /\ bx1 b <= bx1 b' - e /\ by1 b <= by1 b' - e).
  { intros e b' Hc.
    assert (Hp : covers b' e p) by (apply Hc; now left). unfold covers in *. simpl in *.
    repeat split.
    - destruct A1 as [H|(q & Hq & H)]; [|destruct (Hc q (or_intror Hq))]; lra.
    - destruct A2 as [H|(q & Hq & H)]; [|destruct (Hc q (or_intror Hq))]; lra.
    - destruct A3 as [H|(q & Hq & H)]; [|destruct (Hc q (or_intror Hq))]; lra.
    - destruct A4 as [H|(q & Hq & H)]; [|destruct (Hc q (or_intror Hq))]; lra. }
  destruct (eff_margin_cases margin) as [[Hm E]|[Hm E]].
  - assert (Eb : Qle_bool margin 0 = true) by now apply Qle_bool_iff.
    rewrite Eb. exists b. split; [reflexivity|]. split.
    + intros q Hq. specialize (C q Hq). unfold covers, in_box in *. repeat split; lra.
    + intros b' Hb'. specialize (S _ b' Hb'). lra.
  - assert (Eb : Qle_bool margin 0 = false) by now apply Qle_bool_false.
    rewrite Eb. eexists. split; [reflexivity|]. simpl. split.
    + intros q Hq. specialize (C q Hq). unfold covers, in_box in *. simpl. repeat split; lra.
    + intros b' Hb'. specialize (S _ b' Hb'). lra.
Qed.

(** ** Table invariant *)
Lemma set_row_length : forall rows id b, length (set_row rows id b) = length rows.
Proof. induction rows; intros [|id] b; simpl; auto. Qed.

Lemma set_row_nth : forall rows id b j, (id < length rows)%nat ->
  nth_error (set_row rows id b) j = if Nat.eqb j id then Some b else nth_error rows j.
Proof.
  induction rows as [|r rows IH]; intros id b j H; simpl in *; [lia|].
  destruct id; destruct j; simpl; try reflexivity. apply IH. lia.
Qed.

Definition tab_inv (l : lookup) (cur : nat -> option box) : Prop :=
  (l_n l <= length (l_rows l))%nat /\ (0 < length (l_rows l))%nat /\
  (forall id b, cur id = Some b -> nth_error (l_rows l) id = Some b /\ (id < l_n l)%nat) /\
  (forall id, cur id = None -> (id < length (l_rows l))%nat ->
     nth_error (l_rows l) id = Some (inf_row (l_inf l))).

Lemma nth_error_repeat : forall {A} (x : A) n i, (i < n)%nat -> nth_error (repeat x n) i = Some x.
Proof. induction n; intros i H; [lia|]. destruct i; simpl; [reflexivity|]. apply IHn. lia. Qed.

Lemma grow_spec : forall fuel i rows id, (0 < length rows)%nat -> (id < length rows + fuel)%nat ->
  exists rows', grow fuel i rows id = Some rows' /\ (id < length rows')%nat /\
    (length rows <= length rows')%nat /\
    (forall j, (j < length rows)%nat -> nth_error rows' j = nth_error rows j) /\
    (forall j, (length rows <= j < length rows')%nat -> nth_error rows' j = Some (inf_row i)).
Proof.
  induction fuel as [|f IH]; intros i rows id H0 Hf; simpl.
  - replace (Nat.ltb id (length rows)) with true by (symmetry; apply Nat.ltb_lt; lia).
    exists rows. repeat split; auto; lia.
  - destruct (Nat.ltb id (length rows)) eqn:E.
    + apply Nat.ltb_lt in E. exists rows. repeat split; auto; lia.
    + destruct (IH i (rows ++ repeat (inf_row i) (length rows)) id) as (rows' & E' & L1 & L2 & L3 & L4).
      { rewrite app_length, repeat_length. lia. }
      { rewrite app_length, repeat_length. lia. }
      rewrite app_length, repeat_length in L2, L3, L4.
      exists rows'. repeat split; auto; try lia.
      * intros j Hj. rewrite L3 by lia. apply nth_error_app1. assumption.
      * intros j Hj. destruct (Nat.lt_ge_cases j (length rows + length rows)).
        -- rewrite L3 by lia. rewrite nth_error_app2 by lia. apply nth_error_repeat. lia.
        -- apply L4. lia.
Qed.

Lemma add_inv : forall l cur id b, tab_inv l cur ->
  exists l', add_object l id b = Some l' /\ l_inf l' = l_inf l /\
    tab_inv l' (fun j => if Nat.eqb j id then Some b else cur j).
Proof.
  intros l cur id b (H1 & H2 & H3 & H4). unfold add_object.
  destruct (grow_spec (S id) (l_inf l) (l_rows l) id) as (rows & E & L1 & L2 & L3 & L4); try lia.
  rewrite E. eexists. split; [reflexivity|]. split; [reflexivity|].
  unfold tab_inv; simpl l_n; simpl l_rows; simpl l_inf. rewrite set_row_length.
  split; [lia|]. split; [lia|]. split.
  - intros j c Hj. rewrite set_row_nth by assumption. destruct (Nat.eqb j id) eqn:Ej.
    + apply Nat.eqb_eq in Ej; subst. split; [assumption|lia].
    + destruct (H3 j c Hj) as [A B]. split; [|lia]. rewrite L3; [assumption|].
      apply nth_error_Some. congruence.
  - intros j Hj Hlt. rewrite set_row_nth by assumption. destruct (Nat.eqb j id) eqn:Ej; [discriminate|].
    destruct (Nat.lt_ge_cases j (length (l_rows l))).
    + rewrite L3 by assumption. now apply H4.
    + apply L4. lia.
Qed.

Lemma rm_inv : forall l cur id, tab_inv l cur ->
  exists l', l_step l (LRm id) = Some l' /\ l_inf l' = l_inf l /\
    tab_inv l' (fun j => if Nat.eqb j id then None else cur j).
Proof.
  intros l cur id (H1 & H2 & H3 & H4). simpl. unfold rm_object.
  destruct (Nat.ltb id (length (l_rows l))) eqn:E.
  - apply Nat.ltb_lt in E. eexists. split; [reflexivity|]. split; [reflexivity|].
    unfold tab_inv; simpl. rewrite set_row_length.
    split; [lia|]. split; [lia|]. split.
    + intros j c Hj. rewrite set_row_nth by assumption. destruct (Nat.eqb j id) eqn:Ej; [discriminate|auto].
    + intros j Hj Hlt. rewrite set_row_nth by assumption. destruct (Nat.eqb j id) eqn:Ej; [reflexivity|auto].
  - apply Nat.ltb_ge in E. eexists. split; [reflexivity|]. split; [reflexivity|].
    split; [assumption|]. split; [assumption|]. split.
    + intros j c Hj. destruct (Nat.eqb j id) eqn:Ej; [discriminate|auto].
    + intros j Hj Hlt. destruct (Nat.eqb j id) eqn:Ej; [|auto].
      apply Nat.eqb_eq in Ej; subst. lia.
Qed.

Lemma run_inv : forall ops l cur, tab_inv l cur ->
  exists l', l_run l ops = Some l' /\ l_inf l' = l_inf l /\ tab_inv l' (live ops cur).
Proof.
  induction ops as [|o ops IH]; intros l cur HI.
  - exists l. split; [reflexivity|]. split; [reflexivity|]. exact HI.
  - destruct o as [id b|id]; cbn [l_run live].
    + destruct (add_inv l cur id b HI) as (l1 & E & Ei & HI1). cbn [l_step]. rewrite E.
      destruct (IH l1 _ HI1) as (l2 & E2 & Ei2 & HI2). exists l2. split; [assumption|].
      split; [congruence|]. exact HI2.
    + destruct (rm_inv l cur id HI) as (l1 & E & Ei & HI1). rewrite E.
      destruct (IH l1 _ HI1) as (l2 & E2 & Ei2 & HI2). exists l2. split; [assumption|].
      split; [congruence|]. exact HI2.
Qed.

Lemma init_inv : forall i n, (0 < n)%nat -> tab_inv (lookup_init i n) (fun _ => None).
Proof.
  intros i n H. unfold tab_inv; simpl. rewrite repeat_length.
  split; [lia|]. split; [assumption|]. split; [discriminate|].
  intros id _ Hid. now apply nth_error_repeat.
Qed.

Lemma never_diverges_l : forall i n ops, (0 < n)%nat -> exists l, l_run (lookup_init i n) ops = Some l.
Proof.
  intros i n ops Hn. destruct (run_inv ops _ _ (init_inv i n Hn)) as (l & E & _). eauto.
Qed.

Lemma nth_error_firstn : forall {A} (l : list A) n i,
  nth_error (firstn n l) i = if Nat.ltb i n then nth_error l i else None.
Proof.
  induction l as [|a l IH]; intros n i.
  - rewrite firstn_nil. destruct i; simpl; destruct (Nat.ltb _ n); reflexivity.
  - destruct n; [destruct i; reflexivity|]. destruct i; [reflexivity|].
    simpl firstn. simpl nth_error. rewrite IH. reflexivity.
Qed.

(** ** Box intersection *)
Lemma meet_iff : forall a b, proper a -> proper b ->
  (boxes_meet a b <-> not_intersect b a = false).
Proof.
  intros a b [A1 A2] [B1 B2]. unfold not_intersect.
  rewrite !orb_false_iff, !negb_false_iff, !Qle_bool_iff.
  split.
  - intros (p & [[? ?] [? ?]] & [[? ?] [? ?]]). repeat split; lra.
  - intros [[H1 H2] [H3 H4]].
    exists (Qmax (bx0 a) (bx0 b), Qmax (by0 a) (by0 b)). unfold in_box; simpl.
    pose proof (Q.le_max_l (bx0 a) (bx0 b)). pose proof (Q.le_max_r (bx0 a) (bx0 b)).
    pose proof (Q.le_max_l (by0 a) (by0 b)). pose proof (Q.le_max_r (by0 a) (by0 b)).
    destruct (Q.max_spec_le (bx0 a) (bx0 b)) as [[_ E]|[_ E]];
    destruct (Q.max_spec_le (by0 a) (by0 b)) as [[_ E']|[_ E']];
    repeat split; lra.
Qed.

Lemma intersect_exact_l : forall inf n ops q l,
  (0 < n)%nat -> l_run (lookup_init inf n) ops = Some l ->
  proper q -> bx1 q < inf -> (forall id b, live_box ops id = Some b -> proper b) ->
  StronglySorted lt (intersect_candidates l q) /\
  forall id, In id (intersect_candidates l q) <->
     exists b, live_box ops id = Some b /\ boxes_meet b q.
Proof.
  intros inf n ops q l Hn E Hq Hinf Hpr.
  destruct (run_inv ops _ _ (init_inv inf n Hn)) as (l' & E' & Ei & (H1 & H2 & H3 & H4)).
  rewrite E in E'. inversion E'; subst l'; clear E'. simpl in Ei.
  change (live ops (fun _ => None)) with (live_box ops) in *.
  split; [apply where_sorted|].
  intros id. unfold intersect_candidates. rewrite where_In. split.
  - intros (b & Hb & Hni). rewrite nth_error_firstn in Hb.
    destruct (Nat.ltb id (l_n l)) eqn:Elt; [|discriminate]. apply Nat.ltb_lt in Elt.
    apply negb_true_iff in Hni.
    destruct (live_box ops id) as [c|] eqn:Ec.
    + destruct (H3 id c Ec) as [Hc _]. assert (c = b) by congruence. subst c.
      exists b. split; [reflexivity|]. apply meet_iff; auto. eapply Hpr; eauto.
    + assert (Hlt : (id < length (l_rows l))%nat) by lia.
      specialize (H4 id Ec Hlt). assert (b = inf_row (l_inf l)) by congruence. subst b.
      unfold not_intersect in Hni. rewrite !orb_false_iff, !negb_false_iff, !Qle_bool_iff in Hni.
      simpl in Hni. rewrite Ei in Hni. exfalso. lra.
  - intros (b & Hb & Hm). destruct (H3 id b Hb) as [Hc Hlt].
    exists b. rewrite nth_error_firstn. apply Nat.ltb_lt in Hlt. rewrite Hlt. split; [assumption|].
    apply negb_true_iff. apply meet_iff; auto. eapply Hpr; eauto.
Qed.

(** ** Closest candidates *)
Lemma lt_sqrt2_pos : forall a b, 0 <= b ->
  (lt_sqrt2 a b = true <-> (a < 0 /\ (0 < b \/ a < 0)) \/ (0 <= a /\ 0 < b /\ a * a < 2 * (b * b))).
Proof.
  intros a b Hb. unfold lt_sqrt2. destruct (Qle_bool 0 a) eqn:Ea.
  - apply Qle_bool_iff in Ea. rewrite andb_true_iff, !negb_true_iff, !Qle_bool_false.
    split; [intros [? ?]; right; auto|]. intros [[? ?]|(? & ? & ?)]; [lra|]. auto.
  - apply Qle_bool_false in Ea. apply Qle_bool_iff in Hb. rewrite Hb. simpl. split; [|reflexivity].
    intros _. left. auto.
Qed.

Lemma argmin_aux_spec : forall l i best v k m, argmin_aux l i best v = (k, m) ->
  m <= v /\ (forall x, In x l -> m <= x) /\
  ((k = best /\ m = v) \/ (exists j, k = (i + j)%nat /\ nth_error l j = Some m)).
Proof.
  induction l as [|x l IH]; intros i best v k m E; simpl in E.
  - inversion E; subst. repeat split; try lra; [intros x []|now left].
  - destruct (Qle_bool v x) eqn:Ex.
    + apply Qle_bool_iff in Ex. destruct (IH _ _ _ _ _ E) as (A & B & C).
      repeat split; auto.
      * intros y [<-|Hy]; [lra|auto].
      * destruct C as [C|(j & C1 & C2)]; [now left|]. right. exists (S j). split; [lia|assumption].
    + apply Qle_bool_false in Ex. destruct (IH _ _ _ _ _ E) as (A & B & C).
      repeat split; auto; try lra.
      * intros y [<-|Hy]; [lra|auto].
      * right. destruct C as [[C1 C2]|(j & C1 & C2)].
        -- exists O. split; [lia|]. simpl. congruence.
        -- exists (S j). split; [lia|assumption].
Qed.

Lemma argmin_spec : forall l k m, argmin l = Some (k, m) ->
  nth_error l k = Some m /\ forall x, In x l -> m <= x.
Proof.
  intros [|x l] k m E; [discriminate|]. simpl in E.
  destruct (argmin_aux l 1 0 x) as [k' m'] eqn:Ea. inversion E; subst.
  destruct (argmin_aux_spec _ _ _ _ _ _ Ea) as (A & B & C). split.
  - destruct C as [[-> ->]|(j & -> & C)]; [reflexivity|exact C].
  - intros y [<-|Hy]; auto.
Qed.

Lemma list_max_spec : forall l x, 
  x <= list_max_q x l /\ (forall y, In y l -> y <= list_max_q x l) /\
  (list_max_q x l == x \/ exists y, In y l /\ list_max_q x l == y).
Proof.
  unfold list_max_q. induction l as [|a l IH]; intros x; simpl.
  - split; [lra|]. split; [intros y []|left; lra].
  - destruct (IH (Qmax x a)) as (A & B & C).
    pose proof (Q.le_max_l x a). pose proof (Q.le_max_r x a).
    repeat split; try lra.
    + intros y [<-|Hy]; [lra|auto].
    + destruct C as [C|(y & Hy & C)].
      * destruct (Q.max_spec_le x a) as [[_ E]|[_ E]].
        -- right. exists a. split; [now left|]. rewrite C. exact E.
        -- left. rewrite C. exact E.
      * right. exists y. split; [now right|assumption].
Qed.

Lemma max4 : forall a b c d, let m := Qmax (Qmax a b) (Qmax c d) in
  a <= m /\ b <= m /\ c <= m /\ d <= m /\ (m == a \/ m == b \/ m == c \/ m == d).
Proof.
  intros a b c d m. unfold m.
  pose proof (Q.le_max_l a b). pose proof (Q.le_max_r a b).
  pose proof (Q.le_max_l c d). pose proof (Q.le_max_r c d).
  pose proof (Q.le_max_l (Qmax a b) (Qmax c d)). pose proof (Q.le_max_r (Qmax a b) (Qmax c d)).
  split; [lra|]. split; [lra|]. split; [lra|]. split; [lra|].
  destruct (Q.max_spec_le a b) as [[_ E1]|[_ E1]];
  destruct (Q.max_spec_le c d) as [[_ E2]|[_ E2]];
  destruct (Q.max_spec_le (Qmax a b) (Qmax c d)) as [[_ E3]|[_ E3]]; rewrite E3;
  rewrite ?E1, ?E2; auto with qarith.
Qed.

Lemma inf_dist_spec : forall p b, let m := inf_dist p b in
  bx0 b - fst p <= m /\ fst p - bx1 b <= m /\ by0 b - snd p <= m /\ snd p - by1 b <= m /\
  (m == bx0 b - fst p \/ m == fst p - bx1 b \/ m == by0 b - snd p \/ m == snd p - by1 b).
Proof. intros. apply max4. Qed.

Lemma far_dist_spec : forall p b, let m := far_dist p b in
  fst p - bx0 b <= m /\ bx1 b - fst p <= m /\ snd p - by0 b <= m /\ by1 b - snd p <= m /\
  (m == fst p - bx0 b \/ m == bx1 b - fst p \/ m == snd p - by0 b \/ m == by1 b - snd p).
Proof. intros. apply max4. Qed.

Lemma inf_le_far : forall p b, proper b -> inf_dist p b <= far_dist p b.
Proof.
  intros p b [H1 H2]. destruct (inf_dist_spec p b) as (_ & _ & _ & _ & A).
  destruct (far_dist_spec p b) as (B1 & B2 & B3 & B4 & _). simpl in *.
  destruct A as [A|[A|[A|A]]]; lra.
Qed.

Lemma far_pos : forall p b, proper b -> fat b -> 0 < far_dist p b.
Proof.
  intros p b [H1 H2] Hf. destruct (far_dist_spec p b) as (B1 & B2 & B3 & B4 & _). simpl in *.
  destruct Hf; lra.
Qed.

Lemma dist2_upper : forall p q b, in_box q b -> dist2 p q <= 2 * (far_dist p b * far_dist p b).
Proof.
  intros p q b [[X1 X2] [Y1 Y2]]. destruct (far_dist_spec p b) as (B1 & B2 & B3 & B4 & _). simpl in *.
  unfold dist2. set (f := far_dist p b) in *. clearbody f.
  set (dx := fst p - fst q). set (dy := snd p - snd q).
  assert (- f <= dx <= f) by (unfold dx; lra). assert (- f <= dy <= f) by (unfold dy; lra).
  clearbody dx dy.
  assert (dx * dx <= f * f) by nra. assert (dy * dy <= f * f) by nra. lra.
Qed.

Lemma dist2_lower : forall p q b, in_box q b -> 0 <= inf_dist p b ->
  inf_dist p b * inf_dist p b <= dist2 p q.
Proof.
  intros p q b [[X1 X2] [Y1 Y2]] H0. destruct (inf_dist_spec p b) as (_ & _ & _ & _ & A). simpl in *.
  unfold dist2. set (f := inf_dist p b) in *. clearbody f.
  set (dx := fst p - fst q). set (dy := snd p - snd q).
  assert (0 <= dx * dx) by nra. assert (0 <= dy * dy) by nra.
  destruct A as [A|[A|[A|A]]].
  - assert (f <= - dx) by (unfold dx; lra). nra.
  - assert (f <= dx) by (unfold dx; lra). nra.
  - assert (f <= - dy) by (unfold dy; lra). nra.
  - assert (f <= dy) by (unfold dy; lra). nra.
Qed.

Lemma pick_spec : forall rows is, (forall i, In i is -> (i < length rows)%nat) ->
  exists rs, pick rows is = Some rs /\ length rs = length is /\
    forall b, In b rs <-> exists i, In i is /\ nth_error rows i = Some b.
Proof.
  induction is as [|i is IH]; intros H.
  - exists []. repeat split; [intros []|intros (i & [] & _)].
  - destruct IH as (rs & E & L & S); [intros; apply H; now right|].
    destruct (nth_error rows i) as [r|] eqn:Er.
    + exists (r :: rs). simpl. rewrite Er, E. split; [reflexivity|]. split; [simpl; congruence|].
      intros b. simpl. rewrite S. split.
      * intros [->|(j & Hj & Ej)]; [exists i; auto|exists j; auto].
      * intros (j & [<-|Hj] & Ej); [left; congruence|right; eauto].
    + exfalso. assert (i < length rows)%nat by (apply H; now left). apply nth_error_Some in H0. congruence.
Qed.

(** What the query computes, when there is a live box and coordinates are far
    below the sentinel. *)
Lemma closest_core : forall l cur M p j0 b0,
  tab_inv l cur -> 0 < M -> 4 * M <= l_inf l -> pt_bounded M p ->
  (forall id b, cur id = Some b -> proper b /\ fat b /\ bounded M b) ->
  cur j0 = Some b0 ->
  exists m r,
    closest_candidates l p = Some r /\ 0 < m /\ m <= 2 * M /\
    (forall id, In id r <-> exists b, cur id = Some b /\ lt_sqrt2 (inf_dist p b) m = true) /\
    (exists c bc, cur c = Some bc /\ far_dist p bc <= m).
Proof.
  intros l cur M p j0 b0 (H1 & H2 & H3 & H4) HM Hinf Hp Hb Hj0.
  destruct (H3 _ _ Hj0) as [Hr0 Hn0].
  unfold closest_candidates.
  destruct (l_n l) as [|nn] eqn:En; [lia|]. rewrite <- En in *.
  (* sentinel rows are far *)
  assert (Hsent : 3 * M <= inf_dist p (inf_row (l_inf l))).
  { destruct (inf_dist_spec p (inf_row (l_inf l))) as (A & _). simpl in A.
    destruct Hp as [[? ?] [? ?]]. lra. }
  assert (Hlive : forall id b, cur id = Some b -> inf_dist p b <= 2 * M /\ far_dist p b <= 2 * M).
  { intros id b Hc. destruct (Hb id b Hc) as (Hpr & Hf & ((X0 & X1) & (Y0 & Y1))).
    destruct Hp as [[? ?] [? ?]].
    assert (far_dist p b <= 2 * M).
    { destruct (far_dist_spec p b) as (_ & _ & _ & _ & A). simpl in A.
      destruct A as [A|[A|[A|A]]]; lra. }
    split; [|assumption]. pose proof (inf_le_far p b Hpr). lra. }
  assert (Hrow : forall i b, nth_error (l_rows l) i = Some b ->
     (exists c, cur i = Some c /\ c = b) \/ (cur i = None /\ b = inf_row (l_inf l))).
  { intros i b Hi. destruct (cur i) as [c|] eqn:Ec.
    - left. destruct (H3 i c Ec) as [Hc _]. exists c. split; congruence.
    - right. split; [reflexivity|].
      assert (i < length (l_rows l))%nat by (apply nth_error_Some; congruence).
      specialize (H4 i Ec H). congruence. }
  set (dists := map (inf_dist p) (l_rows l)).
  assert (Hd : forall i d, nth_error dists i = Some d <-> exists b, nth_error (l_rows l) i = Some b /\ d = inf_dist p b).
  { intros i d. unfold dists. rewrite nth_error_map. destruct (nth_error (l_rows l) i); simpl.
    - split; [intros E; inversion E; eauto|]. intros (b' & E & ->). congruence.
    - split; [discriminate|]. intros (b' & E & _). discriminate. }
  destruct (argmin dists) as [[ic dmin]|] eqn:Ea.
  2:{ exfalso. unfold dists in Ea. destruct (l_rows l); simpl in *; [lia|discriminate]. }
  destruct (argmin_spec _ _ _ Ea) as [Am Amin].
  apply Hd in Am as (bm & Hbm & Edm).
  assert (Hdj : dmin <= 2 * M).
  { assert (In (inf_dist p b0) dists). { unfold dists. apply in_map. eapply nth_error_In; eauto. }
    specialize (Amin _ H). destruct (Hlive _ _ Hj0). lra. }
  assert (Hic : exists c, cur ic = Some c /\ c = bm).
  { destruct (Hrow _ _ Hbm) as [H|[_ H]]; [assumption|]. subst bm. exfalso. rewrite Edm in Hdj. lra. }
  destruct Hic as (c & Hc & ->).
  destruct (H3 _ _ Hc) as [_ Hicn].
  (* final step shared by the two branches *)
  assert (Fin : forall cb cs, (forall b, In b (cb :: cs) -> exists i, cur i = Some b) ->
    let m := list_max_q (far_dist p cb) (map (far_dist p) cs) in
    exists m' r, Some (where_ (fun d => lt_sqrt2 d m) dists) = Some r /\ 0 < m' /\ m' <= 2 * M /\
     (forall id, In id r <-> exists b, cur id = Some b /\ lt_sqrt2 (inf_dist p b) m' = true) /\
     (exists c bc, cur c = Some bc /\ far_dist p bc <= m')).
  { intros cb cs Hcs m.
    destruct (list_max_spec (map (far_dist p) cs) (far_dist p cb)) as (LA & LB & LC). fold m in LA, LB, LC.
    destruct (Hcs cb) as (i0 & Hi0); [now left|].
    destruct (Hb _ _ Hi0) as (P0 & F0 & B0).
    assert (Hmpos : 0 < m) by (pose proof (far_pos p cb P0 F0); lra).
    assert (Hmle : m <= 2 * M).
    { destruct LC as [LC|(y & Hy & LC)].
      - destruct (Hlive _ _ Hi0). lra.
      - apply in_map_iff in Hy as (b & <- & Hy). destruct (Hcs b) as (i & Hi); [now right|].
        destruct (Hlive _ _ Hi). lra. }
    exists m, (where_ (fun d => lt_sqrt2 d m) dists).
    split; [reflexivity|]. split; [assumption|]. split; [assumption|]. split.
    - intros id. rewrite where_In. split.
      + intros (d & Hid & Ht). apply Hd in Hid as (b & Hib & ->).
        destruct (Hrow _ _ Hib) as [(c' & Hc' & ->)|[_ ->]]; [eauto|].
        exfalso. apply lt_sqrt2_pos in Ht; [|lra].
        destruct Ht as [[? _]|(_ & _ & Ht)]; [lra|].
        set (dd := inf_dist p (inf_row (l_inf l))) in *. clearbody dd.
        clearbody m. clear -Ht Hsent HM Hmpos Hmle.
        assert (m * m <= (2 * M) * (2 * M)) by nra.
        assert ((3 * M) * (3 * M) <= dd * dd) by nra. nra.
      + intros (b & Hb' & Ht). destruct (H3 _ _ Hb') as [Hn' _].
        exists (inf_dist p b). split; [|assumption]. apply Hd. eauto.
    - exists i0, cb. split; [assumption|lra]. }
  destruct (Qle_bool dmin 0) eqn:Eq; simpl negb.
  - (* point inside some boxes *)
    apply Qle_bool_iff in Eq. cbn [negb]. 
    destruct (pick_spec (firstn (l_n l) (l_rows l)) (where_ (fun d => Qle_bool d 0) dists)) as (rs & Er & Lr & Sr).
    { intros i Hi. apply where_In in Hi as (d & Hi & Hle). apply Hd in Hi as (b & Hi & ->).
      apply Qle_bool_iff in Hle. destruct (Hrow _ _ Hi) as [(c' & Hc' & ->)|[_ ->]]; [|lra].
      destruct (H3 _ _ Hc'). rewrite firstn_length. lia. }
    rewrite Er.
    assert (Hin : In ic (where_ (fun d => Qle_bool d 0) dists)).
    { apply where_In. exists dmin. split; [apply Hd; eauto|]. now apply Qle_bool_iff. }
    destruct rs as [|cb cs].
    { exfalso. simpl in Lr. destruct (where_ _ dists); [destruct Hin|discriminate]. }
    apply Fin. intros b Hbi. apply Sr in Hbi as (i & Hi & Hnth).
    rewrite nth_error_firstn in Hnth. destruct (Nat.ltb i (l_n l)); [|discriminate].
    apply where_In in Hi as (d & Hi & Hle). apply Hd in Hi as (b' & Hi & ->).
    assert (b' = b) by congruence. subst b'. apply Qle_bool_iff in Hle.
    destruct (Hrow _ _ Hi) as [(c' & Hc' & ->)|[_ ->]]; [eauto|lra].
  - apply Qle_bool_false in Eq.
    assert (Es : exists cs, firstn 1 (skipn ic (firstn (l_n l) (l_rows l))) = bm :: cs /\ cs = []).
    { assert (Hne : nth_error (firstn (l_n l) (l_rows l)) ic = Some bm).
      { rewrite nth_error_firstn. apply Nat.ltb_lt in Hicn. now rewrite Hicn. }
      clear -Hne. revert ic Hne. induction (firstn (l_n l) (l_rows l)) as [|r rr IH]; intros [|ic] Hne; simpl in *; try discriminate.
      - inversion Hne; subst. exists []. split; reflexivity.
      - apply IH, Hne. }
    destruct Es as (cs & -> & ->).
    apply Fin. intros b [<-|[]]. eauto.
Qed.

Lemma closest_l : forall inf n ops l M p j0 b0,
  (0 < n)%nat -> l_run (lookup_init inf n) ops = Some l ->
  0 < M -> 4 * M <= inf -> pt_bounded M p ->
  (forall id b, live_box ops id = Some b -> proper b /\ fat b /\ bounded M b) ->
  live_box ops j0 = Some b0 ->
  exists r, closest_candidates l p = Some r /\
    (* only live ids *)
    (forall id, In id r -> exists b, live_box ops id = Some b) /\
    (* every box containing the point is there *)
    (forall id b, live_box ops id = Some b -> in_box p b -> In id r) /\
    (* an object at least as near as any other is there *)
    (forall o : nat -> pt, (forall id b, live_box ops id = Some b -> in_box (o id) b) ->
       forall j b, live_box ops j = Some b ->
         exists i, In i r /\ dist2 p (o i) <= dist2 p (o j)).
Proof.
  intros inf n ops l M p j0 b0 Hn E HM Hinf Hp Hb Hj0.
  destruct (run_inv ops _ _ (init_inv inf n Hn)) as (l' & E' & Ei & HI).
  rewrite E in E'. inversion E'; subst l'; clear E'. simpl in Ei.
  change (live ops (fun _ => None)) with (live_box ops) in *.
  rewrite <- Ei in Hinf.
  destruct (closest_core l (live_box ops) M p j0 b0 HI HM Hinf Hp Hb Hj0)
    as (m & r & Er & Hm & HmM & Hr & (c & bc & Hc & Hfc)).
  exists r. split; [assumption|]. split.
  { intros id Hid. apply Hr in Hid as (b & Hb' & _). eauto. }
  assert (Hcr : In c r).
  { apply Hr. exists bc. split; [assumption|]. apply lt_sqrt2_pos; [lra|].
    destruct (Hb _ _ Hc) as (Pc & Fc & _). pose proof (inf_le_far p bc Pc).
    destruct (Qlt_le_dec (inf_dist p bc) 0); [left; lra|]. right. split; [assumption|]. split; [assumption|]. nra. }
  split.
  { intros id b Hid Hin. apply Hr. exists b. split; [assumption|]. apply lt_sqrt2_pos; [lra|].
    assert (inf_dist p b <= 0).
    { destruct (inf_dist_spec p b) as (_ & _ & _ & _ & A). simpl in A.
      destruct Hin as [[? ?] [? ?]]. destruct A as [A|[A|[A|A]]]; lra. }
    destruct (Qlt_le_dec (inf_dist p b) 0); [left; lra|]. right.
    split; [assumption|]. split; [assumption|]. nra. }
  intros o Ho j b Hj.
  destruct (lt_sqrt2 (inf_dist p b) m) eqn:Elt.
  { exists j. split; [|lra]. apply Hr. eauto. }
  exists c. split; [assumption|].
  assert (Hge : 0 <= inf_dist p b /\ 2 * (m * m) <= inf_dist p b * inf_dist p b).
  { split.
    - destruct (Qlt_le_dec (inf_dist p b) 0) as [Hlt|]; [|assumption].
      assert (lt_sqrt2 (inf_dist p b) m = true) by (apply lt_sqrt2_pos; [lra|left; auto]). congruence.
    - destruct (Qlt_le_dec (inf_dist p b * inf_dist p b) (2 * (m * m))) as [Hlt|]; [|assumption].
      assert (lt_sqrt2 (inf_dist p b) m = true); [|congruence].
      apply lt_sqrt2_pos; [lra|]. destruct (Qlt_le_dec (inf_dist p b) 0); [left; auto|right; auto]. }
  destruct Hge as [G1 G2].
  pose proof (dist2_upper p (o c) bc (Ho _ _ Hc)).
  pose proof (dist2_lower p (o j) b (Ho _ _ Hj) G1).
  destruct (Hb _ _ Hc) as (Pc & Fc & _). pose proof (far_pos p bc Pc Fc). nra.
Qed.

