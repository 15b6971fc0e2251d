(** Finite permutations given by maps: exchanging two values joins two cycles or cuts one. *)
From stdpp Require Import gmap list relations.

Section Perm.
Context {A : Type} `{Countable A}.
Implicit Types (f g : gmap A A) (h k a b : A) (lab : gmap A nat).

Definition step f h k := f !! h = Some k.
Definition reach f := rtc (step f).
Definition perm f :=
  (forall h h' k, f !! h = Some k -> f !! h' = Some k -> h = h') /\ (forall h k, f !! h = Some k -> is_Some (f !! k)).

Lemma reach_refl f h : reach f h h.
Proof. apply rtc_refl. Qed.
Lemma reach_trans f h k l : reach f h k -> reach f k l -> reach f h l.
Proof. apply rtc_transitive. Qed.
Lemma reach_step f h k : f !! h = Some k -> reach f h k.
Proof. intros E. apply rtc_once, E. Qed.
Lemma reach_l f h k l : f !! h = Some k -> reach f k l -> reach f h l.
Proof. intros E R. eapply rtc_l; eauto. Qed.
Lemma reach_r f h k l : reach f h k -> f !! k = Some l -> reach f h l.
Proof. intros R E. eapply rtc_r; eauto. Qed.

Lemma reach_dom f h k : perm f -> is_Some (f !! h) -> reach f h k -> is_Some (f !! k).
Proof. intros [_ C] I R. induction R as [|h m k S R IH]; [done|]. apply IH. by eapply C. Qed.

(** The first n elements on the way from [h]. *)
Fixpoint track (n : nat) f h : list A :=
  match n with
  | 0 => []
  | S n => h :: match f !! h with Some k => track n f k | None => [] end
  end.

Lemma track_elem n f h k : k ∈ track n f h -> reach f h k.
Proof.
  revert h. induction n as [|n IH]; intros h E; cbn in E; [by apply elem_of_nil in E|].
  apply elem_of_cons in E as [-> | E]; [apply reach_refl|].
  destruct (f !! h) as [m|] eqn:F; [|by apply elem_of_nil in E].
  eapply reach_l; eauto.
Qed.
Lemma track_length n f h : perm f -> is_Some (f !! h) -> length (track n f h) = n.
Proof.
  intros P. revert h. induction n as [|n IH]; intros h [k E]; cbn; [done|]. rewrite E. f_equal. apply IH. by eapply P.
Qed.
Lemma track_nodup n f h : perm f -> is_Some (f !! h) ->
  NoDup (track n f h) \/ exists x, reach f h x /\ tc (step f) x x.
Proof.
  intros P. revert h. induction n as [|n IH]; intros h I; cbn; [left; constructor|].
  destruct I as [k E]. rewrite E.
  destruct (decide (h ∈ track n f k)) as [D|D].
  - right. exists h. split; [apply reach_refl|]. eapply tc_rtc_r; [by apply tc_once|]. by eapply track_elem.
  - destruct (IH k) as [N | (x & R & S)]; [by eapply P| |].
    + left. by constructor.
    + right. exists x. split; [by eapply reach_l|done].
Qed.
Lemma tc_inv_r {R : relation A} h k : tc R h k -> exists m, rtc R h m /\ R m k.
Proof.
  induction 1 as [h k S | h m k S T (l & L1 & L2)].
  - exists h. split; [apply rtc_refl|done].
  - exists l. split; [by eapply rtc_l|done].
Qed.
(** Every element is on a cycle. *)
Lemma cycle f h : perm f -> is_Some (f !! h) -> tc (step f) h h.
Proof.
  intros P I.
  destruct (track_nodup (S (size f)) f h P I) as [N | (x & R & T)].
  - exfalso.
    assert (L := track_length (S (size f)) f h P I).
    assert (Sub : list_to_set (track (S (size f)) f h) ⊆ dom f).
    { intros k Hk. apply elem_of_list_to_set, track_elem in Hk. apply elem_of_dom. by eapply reach_dom. }
    apply subseteq_size in Sub. rewrite size_list_to_set in Sub by done. rewrite L, size_dom in Sub. lia.
  - induction R as [|h m x S R IH]; [done|].
    assert (I' : is_Some (f !! m)) by by eapply P.
    specialize (IH I' T). apply tc_inv_r in IH as (l & L1 & L2).
    assert (l = h) as -> by (eapply (proj1 P); eauto).
    eapply tc_rtc_r; [by apply tc_once|done].
Qed.
Lemma cycle_pred f h : perm f -> is_Some (f !! h) -> exists k, reach f h k /\ f !! k = Some h.
Proof. intros P I. apply (tc_inv_r (R := step f)). by apply cycle. Qed.
Lemma reach_sym f h k : perm f -> is_Some (f !! h) -> reach f h k -> reach f k h.
Proof.
  intros P I R. induction R as [|h m k S R IH]; [apply reach_refl|].
  assert (I' : is_Some (f !! m)) by by eapply P.
  eapply reach_trans; [by apply IH|].
  destruct (cycle_pred f m P I') as (l & L1 & L2).
  assert (l = h) as -> by (eapply (proj1 P); eauto). done.
Qed.
Lemma reach_sym' f h k : perm f -> is_Some (f !! k) -> reach f h k -> reach f k h.
Proof.
  intros P I R. destruct (decide (h = k)) as [->|D]; [apply reach_refl|].
  apply reach_sym; [done| |done]. apply rtc_inv in R as [->|(m & S & _)]; [done|eauto].
Qed.

(** * Exchange of two values *)
Definition swap f a b : gmap A A :=
  match f !! a, f !! b with Some x, Some y => <[a := y]> (<[b := x]> f) | _, _ => f end.

Lemma swap_eq f a b x y : f !! a = Some x -> f !! b = Some y -> swap f a b = <[a := y]> (<[b := x]> f).
Proof. intros E1 E2. unfold swap. by rewrite E1, E2. Qed.
Lemma swap_l f a b x y : f !! a = Some x -> f !! b = Some y -> swap f a b !! a = Some y.
Proof. intros E1 E2. rewrite (swap_eq _ _ _ _ _ E1 E2). by rewrite lookup_insert. Qed.
Lemma swap_r f a b x y : f !! a = Some x -> f !! b = Some y -> swap f a b !! b = Some x.
Proof.
  intros E1 E2. rewrite (swap_eq _ _ _ _ _ E1 E2). destruct (decide (a = b)) as [->|D].
  - rewrite lookup_insert. congruence.
  - rewrite lookup_insert_ne by done. by rewrite lookup_insert.
Qed.
Lemma swap_ne f a b h : h <> a -> h <> b -> swap f a b !! h = f !! h.
Proof.
  intros D1 D2. unfold swap. destruct (f !! a), (f !! b); try done. by rewrite !lookup_insert_ne.
Qed.
Lemma swap_dom f a b h : is_Some (swap f a b !! h) <-> is_Some (f !! h).
Proof.
  unfold swap. destruct (f !! a) as [x|] eqn:Ea; [|done]. destruct (f !! b) as [y|] eqn:Eb; [|done].
  destruct (decide (h = a)) as [->|Da]; [rewrite lookup_insert, Ea; split; eauto|].
  rewrite lookup_insert_ne by done.
  destruct (decide (h = b)) as [->|Db]; [rewrite lookup_insert, Eb; split; eauto|].
  by rewrite lookup_insert_ne.
Qed.
Lemma swap_swap f a b : swap (swap f a b) a b = f.
Proof.
  destruct (f !! a) as [x|] eqn:Ea; [|unfold swap; rewrite Ea; by rewrite Ea].
  destruct (f !! b) as [y|] eqn:Eb; [|unfold swap; rewrite Ea, Eb; by rewrite Ea, Eb].
  apply map_eq. intros h.
  assert (E1 := swap_l _ _ _ _ _ Ea Eb). assert (E2 := swap_r _ _ _ _ _ Ea Eb).
  destruct (decide (h = a)) as [->|Da]; [by rewrite (swap_l _ _ _ _ _ E1 E2)|].
  destruct (decide (h = b)) as [->|Db]; [by rewrite (swap_r _ _ _ _ _ E1 E2)|].
  by rewrite !swap_ne.
Qed.
Lemma swap_comm f a b : swap f a b = swap f b a.
Proof.
  destruct (decide (a = b)) as [->|D]; [done|].
  unfold swap. destruct (f !! a), (f !! b); try done. by apply insert_commute.
Qed.
Lemma swap_perm f a b : perm f -> perm (swap f a b).
Proof.
  intros [I C].
  destruct (f !! a) as [x|] eqn:Ea; [|unfold swap; by rewrite Ea].
  destruct (f !! b) as [y|] eqn:Eb; [|unfold swap; by rewrite Ea, Eb].
  assert (T : forall h k, swap f a b !! h = Some k -> exists h', f !! h' = Some k /\ ((h = a /\ h' = b) \/ (h = b /\ h' = a) \/ (h <> a /\ h <> b /\ h' = h))).
  { intros h k E. destruct (decide (h = a)) as [->|Da].
    - rewrite (swap_l _ _ _ _ _ Ea Eb) in E. exists b. split; [congruence|auto].
    - destruct (decide (h = b)) as [->|Db].
      + rewrite (swap_r _ _ _ _ _ Ea Eb) in E. exists a. split; [congruence|auto].
      + rewrite swap_ne in E by done. exists h. eauto 10. }
  split.
  - intros h h' k E1 E2. apply T in E1 as (m & E1 & C1). apply T in E2 as (m' & E2 & C2).
    assert (m = m') by (eapply I; eauto). subst m'. naive_solver.
  - intros h k E. apply T in E as (m & E & _). rewrite swap_dom. by eapply C.
Qed.

(** Steps from other elements than [a] and [b]. *)
Definition step2 f a b h k := f !! h = Some k /\ h <> a /\ h <> b.
Lemma first_of f a b h : (reach f h a \/ reach f h b) -> rtc (step2 f a b) h a \/ rtc (step2 f a b) h b.
Proof.
  intros R.
  assert (G : forall c, c = a \/ c = b -> forall h, reach f h c -> rtc (step2 f a b) h a \/ rtc (step2 f a b) h b).
  { intros c Hc h' R'. induction R' as [|h' m c S R' IH].
    - destruct Hc as [-> | ->]; [left|right]; apply rtc_refl.
    - destruct (decide (h' = a)) as [->|Da]; [left; apply rtc_refl|].
      destruct (decide (h' = b)) as [->|Db]; [right; apply rtc_refl|].
      destruct (IH Hc) as [R2|R2]; [left|right]; (eapply rtc_l; [|exact R2]); done. }
  destruct R as [R|R]; [apply (G a); auto|apply (G b); auto].
Qed.
Lemma step2_reach f a b h k : rtc (step2 f a b) h k -> reach f h k.
Proof. induction 1 as [|h m k (S & _) R IH]; [apply reach_refl|by eapply reach_l]. Qed.
Lemma step2_swap f a b h k : rtc (step2 f a b) h k -> reach (swap f a b) h k.
Proof.
  induction 1 as [|h m k (S & D1 & D2) R IH]; [apply reach_refl|]. eapply reach_l; [|done]. by rewrite swap_ne.
Qed.
Lemma swap_cover f a b h : reach f h a \/ reach f h b -> reach (swap f a b) h a \/ reach (swap f a b) h b.
Proof. intros R. destruct (first_of f a b h R) as [R2|R2]; [left|right]; by apply step2_swap. Qed.
Lemma swap_other f a b h k : ~ reach f h a -> ~ reach f h b -> reach f h k -> reach (swap f a b) h k.
Proof.
  intros N1 N2 R. induction R as [|h m k S R IH]; [apply reach_refl|].
  eapply reach_l.
  - rewrite swap_ne; [exact S| |]; intros ->; [by apply N1, reach_refl|by apply N2, reach_refl].
  - apply IH; intros R'; [apply N1|apply N2]; by eapply reach_l.
Qed.
(** Elements of two cycles. *)
Lemma swap_join f a b : perm f -> is_Some (f !! a) -> is_Some (f !! b) -> ~ reach f a b -> reach (swap f a b) a b.
Proof.
  intros P [x Ea] [y Eb] N.
  eapply reach_l; [by apply (swap_l _ _ _ _ _ Ea Eb)|].
  destruct (cycle_pred f y P) as (m & R & S); [by eapply P|].
  assert (m = b) as -> by (eapply (proj1 P); eauto).
  destruct (first_of f a b y) as [R2|R2]; [by right| |by apply step2_swap].
  exfalso. apply N. apply reach_sym'; [done|eauto|]. eapply reach_l; [exact Eb|]. by eapply step2_reach.
Qed.
(** Elements of one cycle. *)
Lemma swap_cut f a b : perm f -> is_Some (f !! a) -> is_Some (f !! b) -> a <> b -> reach f a b -> ~ reach (swap f a b) a b.
Proof.
  intros P [x Ea] [y Eb] D R R'.
  (* from y = f b one meets a before b *)
  assert (Q : rtc (step2 f a b) y a).
  { assert (Ry : reach f y a).
    { apply reach_sym; [done|eauto|]. eapply reach_r; [exact R|exact Eb]. }
    assert (G : forall h, reach f h a -> rtc (step2 f a b) h a \/ rtc (step2 f a b) y a).
    { clear -Eb. intros h R. induction R as [h|h m c S R IH].
      - left. apply rtc_refl.
      - destruct IH as [IH'|IH']; [|by right].
        destruct (decide (h = c)) as [->|Dc]; [left; apply rtc_refl|].
        destruct (decide (h = b)) as [->|Db].
        + right. replace y with m by (unfold step in S; congruence). done.
        + left. by eapply rtc_l. }
    destruct (G y Ry); done. }
  set (I h := rtc (step2 f a b) h a).
  assert (C : forall h k, I h -> swap f a b !! h = Some k -> I k).
  { intros h k Ih S. apply rtc_inv in Ih as [->|(m & (S' & D1 & D2) & R2)].
    - rewrite (swap_l _ _ _ _ _ Ea Eb) in S. by injection S as <-.
    - rewrite swap_ne in S by done. replace k with m by congruence. done. }
  assert (Ib : I b).
  { assert (Ia : I a) by apply rtc_refl.
    assert (G : forall h k, reach (swap f a b) h k -> I h -> I k).
    { clear -C. intros h k R. induction R as [|h m k S R IH]; [done|]. intros Ih. apply IH. by eapply C. }
    by eapply G. }
  apply rtc_inv in Ib as [->|(m & (_ & _ & D2) & _)]; done.
Qed.

(** The cycles after joining two. *)
Lemma reach_join f a b h k : perm f -> is_Some (f !! a) -> is_Some (f !! b) -> ~ reach f a b -> is_Some (f !! h) ->
  reach (swap f a b) h k <-> reach f h k \/ ((reach f h a \/ reach f h b) /\ (reach f k a \/ reach f k b)).
Proof.
  intros P Ia Ib N Ih.
  assert (P' := swap_perm f a b P).
  assert (J := swap_join f a b P Ia Ib N).
  assert (J' : reach (swap f a b) b a) by (apply reach_sym; [done|by apply swap_dom|done]).
  assert (Cov : forall h, reach f h a \/ reach f h b -> reach (swap f a b) h a).
  { intros h' R. destruct (swap_cover f a b h' R) as [?|R']; [done|]. by eapply reach_trans. }
  split.
  - intros R. revert Ih. induction R as [h|h m k S R IH]; intros Ih; [left; apply reach_refl|].
    assert (Im : is_Some (f !! m)) by (apply swap_dom with a b; by eapply P').
    specialize (IH Im).
    destruct (decide (h = a)) as [->|Da]; [|destruct (decide (h = b)) as [->|Db]].
    + right. split; [left; apply reach_refl|].
      assert (Hm : reach f b m).
      { destruct Ia as [x Ea], Ib as [y Eb]. unfold step in S. rewrite (swap_l _ _ _ _ _ Ea Eb) in S. injection S as <-. by apply reach_step. }
      destruct IH as [IH|(_ & IH)]; [|done]. right. apply reach_sym; [done|done|]. by eapply reach_trans.
    + right. split; [right; apply reach_refl|].
      assert (Hm : reach f a m).
      { destruct Ia as [x Ea], Ib as [y Eb]. unfold step in S. rewrite (swap_r _ _ _ _ _ Ea Eb) in S. injection S as <-. by apply reach_step. }
      destruct IH as [IH|(_ & IH)]; [|done]. left. apply reach_sym; [done|done|]. by eapply reach_trans.
    + unfold step in S. rewrite swap_ne in S by done.
      destruct IH as [IH|(IH & IH')]; [left; by eapply reach_l|].
      right. split; [|done]. destruct IH; [left|right]; by eapply reach_l.
  - intros [R|(R1 & R2)].
    + assert (G : (reach (swap f a b) h k) \/ (reach f h a \/ reach f h b)).
      { clear -R. induction R as [h|h m k S R IH]; [left; apply reach_refl|].
        destruct (decide (h = a)) as [->|Da]; [right; left; apply reach_refl|].
        destruct (decide (h = b)) as [->|Db]; [right; right; apply reach_refl|].
        destruct IH as [IH|[IH|IH]].
        - left. eapply reach_l; [|done]. by rewrite swap_ne.
        - right. left. by eapply reach_l.
        - right. right. by eapply reach_l. }
      destruct G as [G|G]; [done|].
      assert (Ik : is_Some (f !! k)) by by eapply reach_dom.
      assert (Gk : reach f k a \/ reach f k b).
      { destruct G; [left|right]; (eapply reach_trans; [|done]); by apply reach_sym. }
      eapply reach_trans; [by apply Cov|]. apply reach_sym'; [done|by apply swap_dom|by apply Cov].
    + assert (Ik : is_Some (f !! k)).
      { destruct R2 as [R2|R2]; apply rtc_inv in R2 as [->|(m & S & _)]; eauto. }
      eapply reach_trans; [by apply Cov|]. apply reach_sym'; [done|by apply swap_dom|by apply Cov].
Qed.
(** The cycles after cutting one. *)
Lemma reach_cut f a b h k : perm f -> is_Some (f !! a) -> is_Some (f !! b) -> a <> b -> reach f a b -> is_Some (f !! h) ->
  reach f h k <-> reach (swap f a b) h k \/
    ((reach (swap f a b) h a \/ reach (swap f a b) h b) /\ (reach (swap f a b) k a \/ reach (swap f a b) k b)).
Proof.
  intros P Ia Ib D R Ih.
  assert (N := swap_cut f a b P Ia Ib D R).
  rewrite <- (swap_swap f a b) at 1.
  apply reach_join; [by apply swap_perm| | |done|]; by apply swap_dom.
Qed.

(** * Labels: two elements have the same label exactly when they are on the same cycle *)
Definition labels f lab : Prop :=
  (forall h, is_Some (f !! h) <-> is_Some (lab !! h)) /\
  (forall h k x y, lab !! h = Some x -> lab !! k = Some y -> (x = y <-> reach f h k)).

Lemma labels_same f lab h k x : perm f -> labels f lab -> lab !! h = Some x -> reach f h k -> lab !! k = Some x.
Proof.
  intros P [D L] E R. assert (I : is_Some (f !! k)) by (eapply reach_dom; [done| |done]; apply D; eauto).
  apply D in I as [y Ey]. rewrite Ey. f_equal. symmetry. by apply (L h k).
Qed.
Lemma labels_reach f lab h k x : labels f lab -> lab !! h = Some x -> lab !! k = Some x -> reach f h k.
Proof. intros [D L] E1 E2. by apply (L h k x x). Qed.
Lemma labels_ext f lab lab' : (forall h, lab' !! h = lab !! h) -> labels f lab -> labels f lab'.
Proof. intros E. assert (lab' = lab) as -> by by apply map_eq. done. Qed.

(** A new element alone on its cycle. *)
Lemma perm_new1 f h : perm f -> f !! h = None -> perm (<[h := h]> f).
Proof.
  intros [I C] N. split.
  - intros k k' l E1 E2. apply lookup_insert_Some in E1 as [[<- <-]|[D1 E1]]; apply lookup_insert_Some in E2 as [[<- E2]|[D2 E2]]; try done.
    + apply C in E2. rewrite N in E2. by destruct E2.
    + subst l. apply C in E1. rewrite N in E1. by destruct E1.
    + by eapply I.
  - intros k l E. apply lookup_insert_Some in E as [[<- <-]|[D1 E]]; [rewrite lookup_insert; eauto|].
    destruct (decide (l = h)) as [->|D]; [rewrite lookup_insert; eauto|]. rewrite lookup_insert_ne by done. by eapply C.
Qed.
Lemma reach_new f g h k : perm f -> (forall h l, f !! h = Some l -> g !! h = Some l) -> is_Some (f !! h) -> reach g h k <-> reach f h k.
Proof.
  intros P Ext I. split; intros R.
  - induction R as [|h m k S R IH]; [apply reach_refl|]. destruct I as [l E].
    assert (m = l) as -> by (apply Ext in E; unfold step in S; congruence).
    eapply reach_l; [done|]. apply IH. by eapply P.
  - induction R as [|h m k S R IH]; [apply reach_refl|].
    eapply reach_l; [by apply Ext|]. apply IH. by eapply P.
Qed.
Lemma reach_fixed f h k : f !! h = Some h -> reach f h k -> k = h.
Proof.
  intros E R. induction R as [|h m k S R IH]; [done|]. unfold step in S. rewrite E in S. injection S as <-. auto.
Qed.
Lemma labels_new1 f lab h x : perm f -> labels f lab -> f !! h = None -> (forall k, lab !! k <> Some x) ->
  labels (<[h := h]> f) (<[h := x]> lab).
Proof.
  intros P [D L] N F. split.
  - intros k. destruct (decide (k = h)) as [->|Dk]; [rewrite !lookup_insert; split; eauto|]. by rewrite !lookup_insert_ne.
  - assert (Ext : forall h' l, f !! h' = Some l -> <[h := h]> f !! h' = Some l).
    { intros h' l E. rewrite lookup_insert_ne; [done|]. intros ->. congruence. }
    intros k l u v E1 E2.
    destruct (decide (k = h)) as [->|Dk].
    + rewrite lookup_insert in E1. injection E1 as <-.
      destruct (decide (l = h)) as [->|Dl].
      * rewrite lookup_insert in E2. injection E2 as <-. split; [intros; apply reach_refl|done].
      * rewrite lookup_insert_ne in E2 by done. split; [intros ->; by destruct (F l)|].
        intros R. apply reach_fixed in R; [done|]. apply lookup_insert.
    + rewrite lookup_insert_ne in E1 by done.
      assert (Ik : is_Some (f !! k)) by (apply D; eauto).
      rewrite (reach_new f); [|done|done|done].
      destruct (decide (l = h)) as [->|Dl].
      * rewrite lookup_insert in E2. injection E2 as <-. split; [intros ->; by destruct (F k)|].
        intros R. apply reach_dom in R; [|done|done]. rewrite N in R. by destruct R.
      * rewrite lookup_insert_ne in E2 by done. by apply L.
Qed.
(** Two new elements on one cycle. *)
Lemma perm_new2 f h h' : perm f -> f !! h = None -> f !! h' = None -> h <> h' -> perm (<[h := h']> (<[h' := h]> f)).
Proof.
  intros P N N' D.
  assert (E : <[h := h']> (<[h' := h]> f) = swap (<[h := h]> (<[h' := h']> f)) h h').
  { rewrite (swap_eq _ _ _ h h'); [|by rewrite lookup_insert|rewrite lookup_insert_ne by done; by rewrite lookup_insert].
    rewrite (insert_commute _ h' h) by done. rewrite insert_insert. rewrite insert_insert. done. }
  rewrite E. apply swap_perm, perm_new1; [by apply perm_new1|]. by rewrite lookup_insert_ne.
Qed.

(** Two cycles are joined. *)
Lemma labels_join f lab lab' a b x y : perm f -> labels f lab -> lab !! a = Some x -> lab !! b = Some y -> x <> y ->
  (forall h, lab' !! h = (fun w => if decide (w = y) then x else w) <$> lab !! h) -> labels (swap f a b) lab'.
Proof.
  intros P [D L] Ea Eb N E.
  assert (Ia : is_Some (f !! a)) by (apply D; eauto). assert (Ib : is_Some (f !! b)) by (apply D; eauto).
  assert (Nr : ~ reach f a b) by (intros R; apply N; by apply (L a b)).
  split.
  - intros h. rewrite swap_dom, E, fmap_is_Some. apply D.
  - intros h k u v Eh Ek. rewrite E in Eh, Ek.
    destruct (lab !! h) as [u'|] eqn:Lh; [|done]. destruct (lab !! k) as [v'|] eqn:Lk; [|done].
    cbn in Eh, Ek. injection Eh as <-. injection Ek as <-.
    rewrite reach_join; [|done|done|done|done|apply D; eauto].
    rewrite <- (L h k u' v' Lh Lk), <- (L h a u' x Lh Ea), <- (L h b u' y Lh Eb), <- (L k a v' x Lk Ea), <- (L k b v' y Lk Eb).
    repeat case_decide; split; intros; naive_solver.
Qed.
(** One cycle is cut; the elements of the cycle of [b] get a new label. *)
Lemma labels_cut f lab lab' a b x y (S : A -> Prop) : perm f -> labels f lab -> lab !! a = Some x -> lab !! b = Some x -> a <> b ->
  (forall k, lab !! k <> Some y) ->
  (forall h, S h <-> reach (swap f a b) b h) ->
  (forall h, S h -> lab' !! h = Some y) -> (forall h, ~ S h -> lab' !! h = lab !! h) ->
  (forall h, S h \/ ~ S h) ->
  labels (swap f a b) lab'.
Proof.
  intros P [D L] Ea Eb N F HS E1 E2 Dec.
  assert (Ia : is_Some (f !! a)) by (apply D; eauto). assert (Ib : is_Some (f !! b)) by (apply D; eauto).
  assert (Rab : reach f a b) by by apply (L a b x x).
  assert (P' := swap_perm f a b P).
  assert (Cut := swap_cut f a b P Ia Ib N Rab).
  assert (Ib' : is_Some (swap f a b !! b)) by by apply swap_dom.
  assert (Ia' : is_Some (swap f a b !! a)) by by apply swap_dom.
  split.
  - intros h. rewrite swap_dom. destruct (Dec h) as [Sh|Sh].
    + rewrite (E1 _ Sh). split; [eauto|]. intros _. apply HS in Sh. apply (proj1 (swap_dom f a b h)). eapply reach_dom; [exact P'|exact Ib'|exact Sh].
    + rewrite (E2 _ Sh). apply D.
  - assert (Key : forall h u, ~ S h -> lab !! h = Some u -> ~ reach (swap f a b) h b).
    { intros h u Sh Eh R. apply Sh, HS. apply reach_sym'; done. }
    intros h k u v Eh Ek.
    destruct (Dec h) as [Sh|Sh], (Dec k) as [Sk|Sk].
    + rewrite (E1 _ Sh) in Eh. rewrite (E1 _ Sk) in Ek. split; [|congruence]. intros _.
      apply HS in Sh, Sk. apply (reach_trans _ _ b); [by apply reach_sym|done].
    + rewrite (E1 _ Sh) in Eh. rewrite (E2 _ Sk) in Ek. injection Eh as <-. split; [intros ->; by destruct (F k)|].
      intros R. exfalso. apply Sk, HS. apply HS in Sh. by eapply reach_trans.
    + rewrite (E2 _ Sh) in Eh. rewrite (E1 _ Sk) in Ek. injection Ek as <-. split; [intros ->; by destruct (F h)|].
      intros R. exfalso. apply HS in Sk. apply (Key h u Sh Eh). apply (reach_trans _ _ k); [exact R|]. by apply reach_sym.
    + rewrite (E2 _ Sh) in Eh. rewrite (E2 _ Sk) in Ek.
      rewrite (L h k u v Eh Ek), (reach_cut f a b h k); [|done|done|done|done|done|apply D; eauto].
      split; [|by left]. intros [R|([R1|R1] & [R2|R2])]; [done| | | |].
      * apply (reach_trans _ _ a); [exact R1|]. apply reach_sym'; done.
      * by destruct (Key k v Sk Ek).
      * by destruct (Key h u Sh Eh).
      * by destruct (Key h u Sh Eh).
Qed.
(** An element leaves its cycle. *)
Lemma labels_leave f lab h m x y : perm f -> labels f lab -> lab !! h = Some x -> f !! m = Some h -> m <> h ->
  (forall k, lab !! k <> Some y) -> labels (swap f h m) (<[h := y]> lab).
Proof.
  intros P L Eh Em N F.
  assert (Ih : is_Some (f !! h)) by (apply L; eauto). destruct Ih as [k Ek].
  assert (Lm : lab !! m = Some x).
  { eapply labels_same; [done|done|exact Eh|]. apply reach_sym'; [done|eauto|]. by apply reach_step. }
  assert (Fix : swap f h m !! h = Some h) by by apply (swap_l _ _ _ _ _ Ek Em).
  rewrite swap_comm. rewrite swap_comm in Fix.
  eapply (labels_cut f lab _ m h x y (fun k => k = h)); [done|done|done|done|done|done| | | |].
  - intros l. split; [intros ->; apply reach_refl|]. intros R. by apply reach_fixed in R.
  - intros l ->. apply lookup_insert.
  - intros l D. by rewrite lookup_insert_ne.
  - intros l. destruct (decide (l = h)); auto.
Qed.
(** Elements are removed with their whole cycles. *)
Lemma perm_del1 f h : perm f -> f !! h = Some h -> perm (delete h f).
Proof.
  intros [I C] E. split.
  - intros k k' l E1 E2. apply lookup_delete_Some in E1 as [_ E1]. apply lookup_delete_Some in E2 as [_ E2]. by eapply I.
  - intros k l E1. apply lookup_delete_Some in E1 as [D E1]. rewrite lookup_delete_ne; [by eapply C|].
    intros ->. apply D. by eapply I.
Qed.
Lemma reach_del f g h k : perm f -> perm g -> (forall h l, g !! h = Some l -> f !! h = Some l) -> is_Some (g !! h) -> reach g h k <-> reach f h k.
Proof. intros P P' Ext I. symmetry. by apply reach_new. Qed.
Lemma labels_del1 f lab h : perm f -> labels f lab -> f !! h = Some h -> labels (delete h f) (delete h lab).
Proof.
  intros P [D L] E. assert (P' := perm_del1 f h P E). split.
  - intros k. destruct (decide (k = h)) as [->|Dk]; [rewrite !lookup_delete; split; intros [? ?]; done|]. rewrite !lookup_delete_ne by done; apply D.
  - intros k l u v E1 E2. apply lookup_delete_Some in E1 as [D1 E1]. apply lookup_delete_Some in E2 as [D2 E2].
    rewrite (L _ _ _ _ E1 E2). symmetry. apply reach_del; [done|done| |].
    + intros h' l' E'. by apply lookup_delete_Some in E' as [_ E'].
    + rewrite lookup_delete_ne by done. apply D. eauto.
Qed.
Lemma perm_del2 f h h' : perm f -> f !! h = Some h' -> f !! h' = Some h -> perm (delete h (delete h' f)).
Proof.
  intros P E E'. destruct (decide (h = h')) as [->|D].
  - rewrite delete_idemp. by apply perm_del1.
  - destruct P as [I C]. split.
    + intros k k' l E1 E2. apply lookup_delete_Some in E1 as [_ E1]. apply lookup_delete_Some in E2 as [_ E2].
      apply lookup_delete_Some in E1 as [_ E1]. apply lookup_delete_Some in E2 as [_ E2]. by eapply I.
    + intros k l E1. apply lookup_delete_Some in E1 as [D1 E1]. apply lookup_delete_Some in E1 as [D2 E1].
      rewrite !lookup_delete_ne; [by eapply C| |].
      * intros ->. apply D1. by eapply I.
      * intros ->. apply D2. by eapply I.
Qed.
Lemma labels_del2 f lab h h' : perm f -> labels f lab -> f !! h = Some h' -> f !! h' = Some h ->
  labels (delete h (delete h' f)) (delete h (delete h' lab)).
Proof.
  intros P [D L] E E'. assert (P' := perm_del2 f h h' P E E'). split.
  - intros k. destruct (decide (k = h)) as [->|Dk]; [rewrite !lookup_delete; split; intros [? ?]; done|].
    destruct (decide (k = h')) as [->|Dk']; [rewrite !(lookup_delete_ne _ h) by done; rewrite !lookup_delete; split; intros [? ?]; done|]. rewrite !lookup_delete_ne by done; apply D.
  - intros k l u v E1 E2. apply lookup_delete_Some in E1 as [D1 E1]. apply lookup_delete_Some in E2 as [D2 E2].
    apply lookup_delete_Some in E1 as [D1' E1]. apply lookup_delete_Some in E2 as [D2' E2].
    rewrite (L _ _ _ _ E1 E2). symmetry. apply reach_del; [done|done| |].
    + intros x l' Ex. apply lookup_delete_Some in Ex as [_ Ex]. by apply lookup_delete_Some in Ex as [_ Ex].
    + rewrite !lookup_delete_ne by done. apply D. eauto.
Qed.
End Perm.
