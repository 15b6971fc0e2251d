(** A drawing whose polygons are connected across its segments has at least as many of them as in the plane:
    counted points + 2 polygons <= segments + wires + 2. *)
From stdpp Require Import gmap list relations.
From Coq Require Import Lia.
From Verif Require Import Decomp_Model Decomp_Perm Decomp_Surgery.
Local Open Scope nat_scope.

(** * Counting *)
Definition img (m : gmap he nat) : gset nat := list_to_set (snd <$> map_to_list m).
Lemma elem_of_img m x : x ∈ img m <-> exists h, m !! h = Some x.
Proof.
  unfold img. rewrite elem_of_list_to_set, elem_of_list_fmap. split.
  - intros ([h y] & -> & H). exists h. by apply elem_of_map_to_list.
  - intros [h H]. exists (h, x). split; [done|]. by apply elem_of_map_to_list.
Qed.
Definition segs {A} (m : gmap he A) : gset nat := set_map fst (dom m : gset he).
Lemma elem_of_segs {A} (m : gmap he A) g : g ∈ segs m <-> exists b, is_Some (m !! (g, b)).
Proof.
  unfold segs. rewrite elem_of_map. split.
  - intros ([g' b] & -> & H). exists b. by apply elem_of_dom.
  - intros [b H]. exists (g, b). split; [done|]. by apply elem_of_dom.
Qed.
Lemma segs_dels {A} (m : gmap he A) g : g ∈ segs m -> size (segs m) = S (size (segs (dels m g))).
Proof.
  intros H. assert (E : segs (dels m g) = segs m ∖ {[g]}).
  { apply set_eq. intros x. rewrite elem_of_difference, elem_of_singleton, !elem_of_segs. split.
    - intros [b Hb]. destruct (decide (x = g)) as [-> | D]; [rewrite dels_in in Hb; by destruct Hb|]. rewrite dels_ne in Hb by done. eauto.
    - intros [[b Hb] D]. exists b. by rewrite dels_ne. }
  rewrite E. assert (X := size_union_alt {[g]} (segs m)). rewrite size_singleton in X.
  replace ({[g]} ∪ segs m) with (segs m) in X by set_solver. lia.
Qed.
Lemma size_add (X Y : gset nat) x : X ⊆ {[x]} ∪ Y -> size X <= S (size Y).
Proof.
  intros H. apply subseteq_size in H. rewrite size_union_alt, size_singleton in H.
  assert (size (Y ∖ {[x]}) <= size Y) by (apply subseteq_size; set_solver). lia.
Qed.
Lemma size_less (X Y : gset nat) x : X ⊆ Y ∖ {[x]} -> x ∈ Y -> S (size X) <= size Y.
Proof.
  intros H Hx. apply subseteq_size in H. assert (X1 := size_union_alt {[x]} Y). rewrite size_singleton in X1.
  replace ({[x]} ∪ Y) with Y in X1 by set_solver. lia.
Qed.

(** * Orbits are finite *)
Lemma path f h k : reach f h k -> exists c : list he, h ∈ c /\ forall y, y ∈ c -> reach f h y /\ (y = k \/ exists z, f !! y = Some z /\ z ∈ c).
Proof.
  intros R. induction R as [x|x m k S R IH].
  - exists [x]. split; [left|]. intros y ->%elem_of_list_singleton. split; [apply reach_refl|by left].
  - destruct IH as (c & C1 & C2). exists (x :: c). split; [left|]. intros y [-> | Hy]%elem_of_cons.
    + split; [apply reach_refl|]. right. exists m. split; [done|by right].
    + destruct (C2 _ Hy) as [C3 C4]. split; [by eapply reach_l|]. destruct C4 as [-> | (z & Z1 & Z2)]; [by left|]. right. exists z. split; [done|by right].
Qed.
Lemma orbit f h : perm f -> is_Some (f !! h) -> exists c : list he, forall k, k ∈ c <-> reach f h k.
Proof.
  intros P I. destruct (cycle_pred _ _ P I) as (k & R & E). destruct (path _ _ _ R) as (c & C1 & C2). exists c.
  intros x. split; [intros Hx; by apply C2|]. intros Rx.
  assert (G : forall y, reach f y x -> y ∈ c -> x ∈ c); [|by apply (G h)].
  clear Rx. intros y Ry. induction Ry as [|y m x S Ry IH]; [done|]. intros Hy. apply IH. destruct (C2 _ Hy) as [_ [-> | (z & Z1 & Z2)]].
  - unfold step in S. rewrite E in S. by injection S as <-.
  - unfold step in S. rewrite Z1 in S. by injection S as <-.
Qed.

(** * Polygons of the sides *)
Definition cross (q : gmap he nat) (x y : nat) : Prop := exists h, q !! h = Some x /\ q !! flip h = Some y.
Record faces (f : gmap he he) (l q : gmap he nat) (P : gset nat) : Prop := Faces {
  q_dom h : is_Some (f !! h) <-> is_Some (q !! h);
  q_lab h k w : l !! h = Some w -> l !! k = Some w -> q !! h = q !! k;
  q_in h x : q !! h = Some x -> x ∈ P;
  q_conn x y : x ∈ P -> y ∈ P -> rtc (cross q) x y }.

Lemma rtc_map {A B} (R : relation A) (S : relation B) (r : A -> B) x y :
  (forall a b, R a b -> S (r a) (r b) \/ r a = r b) -> rtc R x y -> rtc S (r x) (r y).
Proof.
  intros H. induction 1 as [|x z y X1 X2 IH]; [apply rtc_refl|]. destruct (H _ _ X1) as [X3| ->]; [by eapply rtc_l|done].
Qed.
(** Without a segment that has the same polygon on both sides. *)
Lemma faces_dels f f' l l' q P g x : faces f l q P -> q !! (g, true) = Some x -> q !! (g, false) = Some x ->
  (forall h, is_Some (f' !! h) <-> is_Some (f !! h)) ->
  (forall h k w, fst h <> g -> fst k <> g -> l' !! h = Some w -> l' !! k = Some w -> exists w', l !! h = Some w' /\ l !! k = Some w') ->
  faces (dels f' g) (dels l' g) (dels q g) P.
Proof.
  intros [F1 F2 F3 F4] Qt Qf D L. constructor.
  - intros h. destruct (side_cases h g) as [Dh|[-> | ->]]; [rewrite !dels_ne by done; rewrite D; apply F1|rewrite !dels_in; split; by intros []..].
  - intros h k w. destruct (side_cases h g) as [Dh|[-> | ->]]; [|by rewrite dels_in..].
    destruct (side_cases k g) as [Dk|[-> | ->]]; [|by rewrite !dels_in..]. rewrite !dels_ne by done. intros H1 H2.
    destruct (L h k w Dh Dk H1 H2) as (w' & L1 & L2). by apply (F2 h k w').
  - intros h y H. destruct (side_cases h g) as [Dh|[-> | ->]]; [|by rewrite dels_in in H..]. rewrite dels_ne in H by done. by eapply F3.
  - intros y z Hy Hz. apply (rtc_map (cross q) (cross (dels q g)) (fun x => x)); [|by apply F4].
    intros a b (h & H1 & H2). destruct (side_cases h g) as [Dh|[-> | ->]]; [left; exists h; by rewrite !dels_ne|right; rewrite flip_pair in H2; cbn [negb] in H2; congruence..].
Qed.

Section Step.
Context (v : gmap he nat) (f : gmap he he) (l : gmap he nat) (q : gmap he nat) (P : gset nat) (g : nat).
Hypothesis T : topo v f l.
Hypothesis F : faces f l q P.
Lemma q_next h k : f !! h = Some k -> q !! k = q !! h.
Proof.
  intros E. assert (I : is_Some (l !! h)) by (apply (topo_dom_l _ _ _ _ T); eauto). destruct I as [w W].
  apply (q_lab _ _ _ _ F _ _ w); [|done]. by rewrite (topo_lab _ _ _ _ _ T E).
Qed.
(** The counts before and after a step. *)
Definition better : Prop := exists v' f' l' q' P', topo v' f' l' /\ faces f' l' q' P' /\ size (segs f) = S (size (segs f')) /\
  size (img v) + 2 * size P + size (segs f') + size (img l') <= size (segs f) + size (img l) + size (img v') + 2 * size P'.
Lemma img_dels_sub m : img (dels m g) ⊆ img m.
Proof.
  intros x. rewrite !elem_of_img. intros [h H]. destruct (side_cases h g) as [Dh|[-> | ->]]; [|by rewrite dels_in in H..].
  rewrite dels_ne in H by done. eauto.
Qed.
Lemma better_alone : (forall b, f !! (g, b) = Some (g, negb b)) -> better.
Proof.
  intros E. exists (dels v g), (dels f g), (dels l g), (dels q g), P.
  assert (Iq : is_Some (q !! (g, true))) by (apply (q_dom _ _ _ _ F); rewrite E; eauto). destruct Iq as [x Qt].
  assert (Qf := q_next _ _ (E true)). cbn [negb] in Qf. rewrite Qt in Qf.
  assert (Iw : is_Some (l !! (g, true))) by (apply (topo_dom_l _ _ _ _ T); rewrite E; eauto). destruct Iw as [w W].
  split; [by apply topo_alone_rm|]. split; [|split].
  - eapply faces_dels; [exact F|exact Qt|exact Qf|done|]. intros h k w' D1 D2 H1 H2. eauto.
  - apply segs_dels. apply elem_of_segs. exists true. by rewrite E.
  - assert (X1 : S (size (img (dels l g))) <= size (img l)).
    { apply (size_less _ _ w); [|apply elem_of_img; eauto]. intros y Hy. apply elem_of_difference. split; [by apply img_dels_sub|]. intros ->%elem_of_singleton.
      apply elem_of_img in Hy as [h Hy]. destruct (side_cases h g) as [Dh|[-> | ->]]; [|by rewrite dels_in in Hy..]. rewrite dels_ne in Hy by done.
      assert (R : reach f (g, true) h) by (apply (labels_reach _ _ _ _ w (t_wir _ _ _ T)); done).
      assert (G : forall k, reach f k h -> fst k = g -> fst h = g); [|by apply Dh, (G (g, true))]. clear R Dh Hy.
      intros k R. induction R as [|k m h S R IH]; [done|]. intros Fk. apply IH. unfold step in S. destruct k as [k b]. cbn in Fk. subst k. rewrite E in S. by injection S as <-. }
    assert (X2 : size (img v) <= S (S (size (img (dels v g))))).
    { assert (Ia : is_Some (v !! (g, false))) by (apply (topo_dom_v _ _ _ _ T); rewrite E; eauto). destruct Ia as [a A].
      assert (Ib : is_Some (v !! (g, true))) by (apply (topo_dom_v _ _ _ _ T); rewrite E; eauto). destruct Ib as [b B].
      etrans; [apply (size_add _ ({[b]} ∪ img (dels v g)) a)|apply le_n_S, (size_add _ _ b); done].
      intros y Hy. apply elem_of_img in Hy as [h Hy]. destruct (side_cases h g) as [Dh|[-> | ->]].
      - apply elem_of_union_r, elem_of_union_r, elem_of_img. exists h. by rewrite dels_ne.
      - apply elem_of_union_r, elem_of_union_l, elem_of_singleton. congruence.
      - apply elem_of_union_l, elem_of_singleton. congruence. }
    assert (X3 : size (segs f) = S (size (segs (dels f g)))) by (apply segs_dels, elem_of_segs; exists true; by rewrite E). lia.
Qed.
Lemma better_dendrite r : f !! (g, negb r) = Some (g, r) -> f !! (g, r) <> Some (g, negb r) -> better.
Proof.
  intros E N.
  assert (In : is_Some (f !! (g, negb r))) by eauto.
  destruct (cycle_pred _ _ (t_perm _ _ _ T) In) as (m & _ & Em).
  assert (Dm : m <> (g, r)) by (intros ->; done).
  assert (Fm : fst m <> g).
  { intros Fm. destruct (side_cases m g) as [?|[-> | ->]]; [done| |]; destruct r; cbn in *; congruence. }
  exists (dels v g), (dels (swap f (g, r) m) g), (dels l g), (dels q g), P.
  assert (Ir : is_Some (f !! (g, r))) by (apply (t_flip _ _ _ T) in In; by rewrite flip_pair, negb_involutive in In).
  assert (Iq : is_Some (q !! (g, negb r))) by (apply (q_dom _ _ _ _ F); eauto). destruct Iq as [x Qn].
  assert (Qr := q_next _ _ E). rewrite Qn in Qr.
  assert (Qq : forall b, q !! (g, b) = Some x) by (intros b; destruct b, r; done).
  assert (X3 : size (segs f) = S (size (segs (dels (swap f (g, r) m) g)))).
  { assert (Hs : segs (swap f (g, r) m) = segs f) by (apply set_eq; intros y; rewrite !elem_of_segs; by setoid_rewrite swap_dom).
    rewrite <- Hs. apply segs_dels. rewrite Hs. apply elem_of_segs. eauto. }
  split; [by apply (topo_dendrite_rm v f l g T r m)|]. split; [|split; [done|]].
  - eapply faces_dels; [exact F|apply Qq|apply Qq|intros h; apply swap_dom|]. intros h k w' D1 D2 H1 H2. eauto.
  - assert (X1 : size (img (dels l g)) <= size (img l)) by (apply subseteq_size, img_dels_sub).
    assert (X2 : size (img v) <= S (size (img (dels v g)))).
    { assert (Ia : is_Some (v !! (g, negb r))) by (apply (topo_dom_v _ _ _ _ T); eauto). destruct Ia as [a A].
      apply (size_add _ _ a). intros y Hy. apply elem_of_img in Hy as [h Hy].
      destruct (decide (fst h = g)) as [Dh|Dh].
      - destruct (decide (h = (g, negb r))) as [-> | D1]; [apply elem_of_union_l, elem_of_singleton; congruence|].
        assert (h = (g, r)) as ->. { destruct h as [h b]. cbn in Dh. subst h. f_equal. destruct b, r; done. }
        apply elem_of_union_r, elem_of_img. exists m. rewrite dels_ne by done.
        assert (O := topo_org _ _ _ _ _ T Em). rewrite flip_pair, negb_involutive in O. congruence.
      - apply elem_of_union_r, elem_of_img. exists h. by rewrite dels_ne. }
    lia.
Qed.
(** Two boundary wires, or a bridge. *)
Section Two.
Context (Nt : f !! (g, true) <> Some (g, false)) (Nf : f !! (g, false) <> Some (g, true)) (Ig : is_Some (f !! (g, true))).
Lemma two : exists m0 m1, f !! m0 = Some (g, true) /\ f !! m1 = Some (g, false) /\ fst m0 <> g /\ fst m1 <> g /\ m0 <> m1 /\
  swap f (g, false) m0 !! m1 = Some (g, false).
Proof.
  assert (If : is_Some (f !! (g, false))) by (by apply (t_flip _ _ _ T) in Ig).
  destruct (cycle_pred _ _ (t_perm _ _ _ T) Ig) as (m0 & _ & E0). destruct (cycle_pred _ _ (t_perm _ _ _ T) If) as (m1 & _ & E1).
  assert (D0 : m0 <> (g, false)) by (intros ->; done).
  assert (F0 := m0_ne _ _ _ _ T m0 E0 D0).
  assert (Np : forall b, f !! (g, b) <> Some (g, b)).
  { intros b E. assert (O := topo_org _ _ _ _ _ T E). rewrite flip_pair in O.
    assert (I : is_Some (v !! (g, b))) by (apply (topo_dom_v _ _ _ _ T); eauto). destruct I as [p Ip]. rewrite Ip in O.
    by apply (t_loop _ _ _ T _ _ Ip). }
  assert (F1 : fst m1 <> g).
  { intros Fm. destruct (side_cases m1 g) as [?|[-> | ->]]; [done..|]. by apply (Np false). }
  assert (D : m0 <> m1) by (intros ->; congruence).
  exists m0, m1. split; [done|]. split; [done|]. split; [done|]. split; [done|]. split; [done|]. rewrite swap_ne; [done| |done]. by intros ->.
Qed.
Lemma img_ends m0 m1 : f !! m0 = Some (g, true) -> f !! m1 = Some (g, false) -> fst m0 <> g -> fst m1 <> g -> img v ⊆ img (dels v g).
Proof.
  intros E0 E1 F0 F1 y Hy. apply elem_of_img in Hy as [h Hy]. apply elem_of_img. destruct (side_cases h g) as [Dh|[-> | ->]].
  - exists h. by rewrite dels_ne.
  - exists m1. rewrite dels_ne by done. assert (O := topo_org _ _ _ _ _ T E1). rewrite flip_pair in O; cbn [negb] in O. congruence.
  - exists m0. rewrite dels_ne by done. assert (O := topo_org _ _ _ _ _ T E0). rewrite flip_pair in O; cbn [negb] in O. congruence.
Qed.
Lemma segs_two m0 m1 : size (segs f) = S (size (segs (dels (swap (swap f (g, false) m0) (g, true) m1) g))).
Proof.
  assert (Hs : segs (swap (swap f (g, false) m0) (g, true) m1) = segs f) by (apply set_eq; intros y; rewrite !elem_of_segs; setoid_rewrite swap_dom; by setoid_rewrite swap_dom).
  rewrite <- Hs. apply segs_dels. rewrite Hs. apply elem_of_segs. eauto.
Qed.
(** Two wires become one; their polygons are united. *)
Lemma merge_step keep rm x y : l !! (g, true) = Some keep -> l !! (g, false) = Some rm -> keep <> rm ->
  q !! (g, true) = Some x -> q !! (g, false) = Some y ->
  exists f' l' q' P', topo (dels v g) f' l' /\ faces f' l' q' P' /\ size (segs f) = S (size (segs f')) /\
    S (size (img l')) <= size (img l) /\ img v ⊆ img (dels v g) /\ P' = (if decide (x = y) then P else P ∖ {[y]}).
Proof.
  intros Lt Lf D Qt Qf. destruct two as (m0 & m1 & E0 & E1 & F0 & F1 & D01 & Em1).
  set (rn := fun w : nat => if decide (w = rm) then keep else w). set (rq := fun z : nat => if decide (z = y) then x else z).
  exists (dels (swap (swap f (g, false) m0) (g, true) m1) g), (dels (rn <$> l) g), (dels (rq <$> q) g), (if decide (x = y) then P else P ∖ {[y]}).
  assert (D0 : m0 <> (g, false)) by (intros ->; done).
  split; [|split; [|split; [apply segs_two|split; [|split; [by apply (img_ends m0 m1)|done]]]]].
  - apply (topo_merge_rm v f l g T m0 m1 E0 D0 Em1 Nt keep rm); [congruence|by left|]. intros h. apply lookup_fmap.
  - assert (Hx : x ∈ P) by (by apply (q_in _ _ _ _ F (g, true))).
    assert (Rq : forall z, z ∈ P -> rq z ∈ (if decide (x = y) then P else P ∖ {[y]})).
    { intros z Hz. unfold rq. destruct (decide (z = y)) as [-> | Dz]; destruct (decide (x = y)) as [Dx|Dx]; [done|set_solver|done|set_solver]. }
    constructor.
    + intros h. destruct (side_cases h g) as [Dh|[-> | ->]]; [|rewrite !dels_in; split; by intros []..]. rewrite !dels_ne by done. rewrite !swap_dom, lookup_fmap, fmap_is_Some. apply F.
    + intros h k w. destruct (side_cases h g) as [Dh|[-> | ->]]; [|by rewrite dels_in..].
      destruct (side_cases k g) as [Dk|[-> | ->]]; [|by rewrite !dels_in..]. rewrite !dels_ne by done. rewrite !lookup_fmap.
      intros H1 H2. apply fmap_Some in H1 as (w1 & W1 & Z1), H2 as (w2 & W2 & Z2).
      assert (Qh : forall h, l !! h = Some rm -> rq <$> q !! h = Some x).
      { intros h' H'. rewrite (q_lab _ _ _ _ F h' (g, false) rm H' Lf), Qf. cbn. unfold rq. by rewrite decide_True. }
      assert (Qk : forall h, l !! h = Some keep -> rq <$> q !! h = Some x).
      { intros h' H'. rewrite (q_lab _ _ _ _ F h' (g, true) keep H' Lt), Qt. cbn. unfold rq. destruct (decide (x = y)); congruence. }
      destruct (decide (w1 = w2)) as [-> | D12]; [by rewrite (q_lab _ _ _ _ F h k w2 W1 W2)|].
      assert (X : (w1 = rm \/ w1 = keep) /\ (w2 = rm \/ w2 = keep)) by (unfold rn in *; destruct (decide (w1 = rm)), (decide (w2 = rm)); subst; auto; congruence).
      destruct X as [[-> | ->] [-> | ->]]; rewrite ?(Qh _ W1), ?(Qk _ W1), ?(Qh _ W2), ?(Qk _ W2); done.
    + intros h z H. destruct (side_cases h g) as [Dh|[-> | ->]]; [|by rewrite dels_in in H..]. rewrite dels_ne, lookup_fmap in H by done.
      apply fmap_Some in H as (z' & Z1 & ->). apply Rq. by apply (q_in _ _ _ _ F h).
    + intros z1 z2 H1 H2.
      assert (Fix : forall z, z ∈ (if decide (x = y) then P else P ∖ {[y]}) -> z ∈ P /\ rq z = z).
      { intros z. unfold rq. destruct (decide (x = y)) as [-> | Dx]; intros Hz.
        - split; [done|]. destruct (decide (z = y)); congruence.
        - apply elem_of_difference in Hz as [Hz1 Hz2]. split; [done|]. rewrite decide_False; [done|]. set_solver. }
      apply Fix in H1 as [H1 H1'], H2 as [H2 H2']. rewrite <- H1', <- H2'.
      apply (rtc_map (cross q)); [|by apply F]. intros a b (h & A & B). destruct (side_cases h g) as [Dh|[-> | ->]].
      * left. exists h. rewrite !dels_ne by done. rewrite !lookup_fmap, A, B. done.
      * right. rewrite flip_pair in B; cbn [negb] in B. unfold rq. destruct (decide (a = y)), (decide (b = y)); congruence.
      * right. rewrite flip_pair in B; cbn [negb] in B. unfold rq. destruct (decide (a = y)), (decide (b = y)); congruence.
  - apply (size_less _ _ rm); [|apply elem_of_img; eauto]. intros z Hz. apply elem_of_img in Hz as [h Hz].
    destruct (side_cases h g) as [Dh|[-> | ->]]; [|by rewrite dels_in in Hz..]. rewrite dels_ne, lookup_fmap in Hz by done.
    apply fmap_Some in Hz as (w & W & ->). apply elem_of_difference. unfold rn. destruct (decide (w = rm)) as [-> | Dw].
    + split; [apply elem_of_img; eauto|]. by intros ?%elem_of_singleton.
    + split; [apply elem_of_img; eauto|]. by intros ?%elem_of_singleton.
Qed.
Lemma better_merge : l !! (g, true) <> l !! (g, false) -> better.
Proof.
  intros D. assert (If : is_Some (f !! (g, false))) by (by apply (t_flip _ _ _ T) in Ig).
  assert (Wt : is_Some (l !! (g, true))) by (by apply (topo_dom_l _ _ _ _ T)). destruct Wt as [keep Lt].
  assert (Wf : is_Some (l !! (g, false))) by (by apply (topo_dom_l _ _ _ _ T)). destruct Wf as [rm Lf].
  assert (Wq : is_Some (q !! (g, true))) by (by apply (q_dom _ _ _ _ F)). destruct Wq as [x Qt].
  assert (Wq : is_Some (q !! (g, false))) by (by apply (q_dom _ _ _ _ F)). destruct Wq as [y Qf].
  destruct (merge_step keep rm x y Lt Lf ltac:(congruence) Qt Qf) as (f' & l' & q' & P' & M1 & M2 & M3 & M4 & M5 & M6).
  exists (dels v g), f', l', q', P'. split; [done|]. split; [done|]. split; [done|].
  assert (size P <= S (size P')).
  { apply (size_add _ _ y). subst P'. destruct (decide (x = y)); [set_solver|]. intros z Hz. destruct (decide (z = y)) as [-> | Dz]; set_solver. }
  apply subseteq_size in M5. lia.
Qed.
Lemma better_cut : l !! (g, true) = l !! (g, false) -> better.
Proof.
  intros D. assert (If : is_Some (f !! (g, false))) by (by apply (t_flip _ _ _ T) in Ig).
  assert (Wt : is_Some (l !! (g, true))) by (by apply (topo_dom_l _ _ _ _ T)). destruct Wt as [w Lt]. assert (Lf := Lt). rewrite D in Lf.
  assert (Wq : is_Some (q !! (g, true))) by (by apply (q_dom _ _ _ _ F)). destruct Wq as [x Qt].
  assert (Qf : q !! (g, false) = Some x) by (rewrite <- Qt; by apply (q_lab _ _ _ _ F _ _ w)).
  destruct two as (m0 & m1 & E0 & E1 & F0 & F1 & D01 & Em1).
  assert (D0 : m0 <> (g, false)) by (intros ->; done).
  destruct (fresh_label l) as [b Fb].
  assert (Pm : perm (swap f (g, false) m0)) by apply swap_perm, T.
  destruct (orbit (swap f (g, false) m0) (g, false) Pm) as [c Hc]; [by rewrite swap_dom|].
  set (l' := map_imap (fun h w => Some (if decide (h ∈ c) then b else w)) l).
  assert (L' : forall h, l' !! h = (fun w => if decide (h ∈ c) then b else w) <$> l !! h) by (intros h; unfold l'; rewrite map_lookup_imap; by destruct (l !! h)).
  assert (Lc : forall h, h ∈ c -> l !! h = Some w).
  { intros h Hh. apply Hc in Hh. assert (G : forall k, reach (swap f (g, false) m0) k h -> l !! k = Some w -> l !! h = Some w); [|by apply (G (g, false))].
    clear Hh. intros k R. induction R as [|k m h S R IH]; [done|]. intros Hk. apply IH. unfold step in S.
    assert (Lm0 : l !! m0 = Some w) by (rewrite <- Lt; symmetry; by apply (topo_lab _ _ _ _ _ T)).
    destruct If as [an Ean].
    destruct (decide (k = (g, false))) as [-> | D1]; [rewrite (swap_l _ _ _ _ _ Ean E0) in S; congruence|].
    destruct (decide (k = m0)) as [-> | D2]; [rewrite (swap_r _ _ _ _ _ Ean E0) in S; injection S as <-; rewrite <- Lf; by apply (topo_lab _ _ _ _ _ T)|].
    rewrite swap_ne in S by done. rewrite <- Hk. by apply (topo_lab _ _ _ _ _ T). }
  exists (dels v g), (dels (swap (swap f (g, false) m0) (g, true) m1) g), (dels l' g), (dels q g), P.
  split; [|split; [|split; [apply segs_two|]]].
  - apply (topo_cut_rm v f l g T m0 m1 E0 D0 Em1 Nt w b l' (fun h => h ∈ c)); try done.
    + intros h. destruct (decide (h ∈ c)); auto.
    + intros h Hh _. rewrite L', (Lc _ Hh). cbn. by rewrite decide_True.
    + intros h Hh. rewrite L'. destruct (l !! h); [|done]. cbn. by rewrite decide_False.
  - eapply faces_dels; [exact F|exact Qt|exact Qf|intros h; by rewrite !swap_dom|]. intros h k w'. rewrite !L'. intros _ _ H1 H2.
    apply fmap_Some in H1 as (w1 & W1 & Z1), H2 as (w2 & W2 & Z2). destruct (decide (h ∈ c)) as [Hh|Hh], (decide (k ∈ c)) as [Hk|Hk].
    + exists w. split; by apply Lc.
    + subst w2 w'. by apply Fb in W2.
    + subst w1 w'. by apply Fb in W1.
    + subst w1 w2. eauto.
  - assert (X1 : size (img (dels l' g)) <= S (size (img l))).
    { apply (size_add _ _ b). intros z Hz. apply img_dels_sub in Hz. apply elem_of_img in Hz as [h Hz]. rewrite L' in Hz. apply fmap_Some in Hz as (w1 & W1 & ->).
      destruct (decide (h ∈ c)); [by apply elem_of_union_l, elem_of_singleton|]. apply elem_of_union_r, elem_of_img. eauto. }
    assert (X2 := img_ends m0 m1 E0 E1 F0 F1). apply subseteq_size in X2. assert (X3 := segs_two m0 m1). lia.
Qed.
End Two.
End Step.

Theorem planar v f l q P : topo v f l -> faces f l q P ->
  size (img v) + 2 * size P <= size (segs f) + size (img l) + 2.
Proof.
  remember (size (segs f)) as n eqn:En. revert v f l q P En. induction n as [|n IH]; intros v f l q P En T F.
  - assert (Ef : f = ∅).
    { apply map_empty. intros [g b]. apply eq_None_not_Some. intros H. assert (X : segs f ≡ ∅) by (by apply size_empty_inv).
      apply (not_elem_of_empty (C := gset nat) g). rewrite <- X. apply elem_of_segs. eauto. }
    assert (Ev : img v ⊆ ∅). { intros y Hy. apply elem_of_img in Hy as [h Hy]. assert (I : is_Some (f !! h)) by (apply (topo_dom_v _ _ _ _ T); eauto). rewrite Ef in I. by destruct I. }
    apply subseteq_size in Ev. rewrite size_empty in Ev.
    assert (size P <= 1); [|lia]. destruct (set_choose_or_empty P) as [[x Hx]|X]; [|rewrite X, size_empty; lia].
    rewrite <- (size_empty (C := gset nat) (A := nat)). apply (size_add _ _ x). intros y Hy. apply elem_of_union_l, elem_of_singleton.
    assert (R := q_conn _ _ _ _ F _ _ Hx Hy). inversion R as [|? z ? (h & H & _) _]; [done|]. assert (I : is_Some (f !! h)) by (apply (q_dom _ _ _ _ F); eauto). rewrite Ef in I. by destruct I.
  - assert (X : exists g, g ∈ segs f).
    { destruct (set_choose_or_empty (segs f)) as [?|X]; [done|]. rewrite X, size_empty in En. done. }
    destruct X as [g Hg]. apply elem_of_segs in Hg as [b Hg].
    assert (Ig : forall b, is_Some (f !! (g, b))).
    { assert (Hf := t_flip _ _ _ T _ Hg). rewrite flip_pair in Hf. intros b'. destruct b, b'; done. }
    assert (B : better v f l P).
    { destruct (decide (f !! (g, true) = Some (g, false))) as [Et|Nt]; destruct (decide (f !! (g, false) = Some (g, true))) as [Ef|Nf].
      - apply (better_alone v f l q P g T F). by intros [|].
      - by apply (better_dendrite v f l q P g T F false).
      - by apply (better_dendrite v f l q P g T F true).
      - destruct (decide (l !! (g, true) = l !! (g, false))); [by apply (better_cut v f l q P g)|by apply (better_merge v f l q P g)]. }
    destruct B as (v' & f' & l' & q' & P' & T' & F' & B1 & B2). rewrite B1 in En. injection En as En.
    assert (IH' := IH v' f' l' q' P' En T' F'). lia.
Qed.
(** At equality the two sides of a segment between different wires belong to different polygons. *)
Theorem planar_sides v f l q P g : topo v f l -> faces f l q P -> size (img v) + 2 * size P = size (segs f) + size (img l) + 2 ->
  is_Some (f !! (g, true)) -> l !! (g, true) <> l !! (g, false) -> q !! (g, true) <> q !! (g, false).
Proof.
  intros T F E I D Q.
  assert (If : is_Some (f !! (g, false))) by (by apply (t_flip _ _ _ T) in I).
  assert (Wt : is_Some (l !! (g, true))) by (by apply (topo_dom_l _ _ _ _ T)). destruct Wt as [keep Lt].
  assert (Wf : is_Some (l !! (g, false))) by (by apply (topo_dom_l _ _ _ _ T)). destruct Wf as [rm Lf].
  assert (Wq : is_Some (q !! (g, true))) by (by apply (q_dom _ _ _ _ F)). destruct Wq as [x Qt].
  assert (Nt : f !! (g, true) <> Some (g, false)) by (intros X; apply D; symmetry; by apply (topo_lab _ _ _ _ _ T)).
  assert (Nf : f !! (g, false) <> Some (g, true)) by (intros X; apply D; by apply (topo_lab _ _ _ _ _ T)).
  destruct (merge_step v f l q P g T F Nt Nf I keep rm x x Lt Lf ltac:(congruence) Qt ltac:(congruence)) as (f' & l' & q' & P' & M1 & M2 & M3 & M4 & M5 & M6).
  rewrite decide_True in M6 by done. subst P'. assert (X := planar _ _ _ _ _ M1 M2). apply subseteq_size in M5. lia.
Qed.
