(** Cutting and joining of the cycles of segment sides, as the operations on segments do it. *)
From stdpp Require Import gmap list relations.
From Verif Require Import Decomp_Model Decomp_Perm.

Lemma flip_flip h : flip (flip h) = h.
Proof. destruct h as [g []]; done. Qed.
Lemma flip_ne h : flip h <> h.
Proof. destruct h as [g []]; done. Qed.
Lemma flip_inj h k : flip h = flip k -> h = k.
Proof. intros E. rewrite <- (flip_flip h), E. apply flip_flip. Qed.
Lemma flip_pair g b : flip (g, b) = (g, negb b).
Proof. done. Qed.
Lemma fst_flip h : fst (flip h) = fst h.
Proof. done. Qed.
Lemma same_seg h k : fst h = fst k -> h = k \/ h = flip k.
Proof. destruct h as [g []], k as [g' []]; cbn; intros ->; auto. Qed.

Definition rot (f : gmap he he) : gmap he he := flip <$> f.
Lemma rot_lookup f h : rot f !! h = flip <$> f !! h.
Proof. apply lookup_fmap. Qed.
Lemma rot_some f h k : rot f !! h = Some k <-> f !! h = Some (flip k).
Proof.
  rewrite rot_lookup. destruct (f !! h) as [m|]; cbn; split; intros E; try done; injection E as E; f_equal.
  - by rewrite <- E, flip_flip.
  - by rewrite E, flip_flip.
Qed.
Lemma rot_swap f a b : rot (swap f a b) = swap (rot f) a b.
Proof.
  unfold swap. rewrite !rot_lookup. destruct (f !! a) as [x|]; [|done]. destruct (f !! b) as [y|]; [|done]. cbn.
  unfold rot. by rewrite !fmap_insert.
Qed.
Lemma rot_delete f a : rot (delete a f) = delete a (rot f).
Proof. apply fmap_delete. Qed.
Lemma rot_insert f a b : rot (<[a := b]> f) = <[a := flip b]> (rot f).
Proof. apply fmap_insert. Qed.
Lemma rot_dom f h : is_Some (rot f !! h) <-> is_Some (f !! h).
Proof. rewrite rot_lookup. apply fmap_is_Some. Qed.

Definition closed_flip (f : gmap he he) := forall h, is_Some (f !! h) -> is_Some (f !! flip h).
Lemma perm_rot f : perm f -> closed_flip f -> perm (rot f).
Proof.
  intros [I C] F. split.
  - intros h h' k E1 E2. apply rot_some in E1, E2. by eapply I.
  - intros h k E. apply rot_some in E. apply rot_dom. apply C, F in E. by rewrite flip_flip in E.
Qed.

(** The links, end points and wires of segment sides. *)
Record topo (v : gmap he nat) (f : gmap he he) (l : gmap he nat) : Prop := Topo {
  t_perm : perm f;
  t_flip : closed_flip f;
  t_vtx : labels (rot f) v;
  t_wir : labels f l;
  t_loop : forall h p, v !! h = Some p -> v !! flip h <> Some p }.

Lemma topo_dom_v v f l h : topo v f l -> is_Some (v !! h) <-> is_Some (f !! h).
Proof. intros T. rewrite <- rot_dom. symmetry. apply (t_vtx _ _ _ T). Qed.
Lemma topo_dom_l v f l h : topo v f l -> is_Some (l !! h) <-> is_Some (f !! h).
Proof. intros T. symmetry. apply (t_wir _ _ _ T). Qed.
Lemma topo_org v f l h k : topo v f l -> f !! h = Some k -> v !! flip k = v !! h.
Proof.
  intros T E. assert (I : is_Some (v !! h)) by (apply (topo_dom_v _ _ _ _ T); eauto). destruct I as [p Ep].
  rewrite Ep. eapply labels_same; [by apply perm_rot; apply T|apply T|exact Ep|].
  apply reach_step, rot_some. by rewrite flip_flip.
Qed.
Lemma topo_lab v f l h k : topo v f l -> f !! h = Some k -> l !! k = l !! h.
Proof.
  intros T E. assert (I : is_Some (l !! h)) by (apply (topo_dom_l _ _ _ _ T); eauto). destruct I as [p Ep].
  rewrite Ep. eapply labels_same; [apply T|apply T|exact Ep|]. by apply reach_step.
Qed.

Lemma fresh_label (l : gmap he nat) : exists z, forall h, l !! h <> Some z.
Proof.
  exists (S (foldr Nat.max 0 (snd <$> map_to_list l))). intros h E.
  assert (In : (S (foldr Nat.max 0 (snd <$> map_to_list l))) ∈ snd <$> map_to_list l).
  { apply elem_of_list_fmap. eexists (h, _). split; [|by apply elem_of_map_to_list]. done. }
  revert In. generalize (snd <$> map_to_list l) as ns. intros ns In.
  assert (G : forall m, m ∈ ns -> m <= foldr Nat.max 0 ns).
  { clear. induction ns as [|n ns IH]; intros m Hm; [by apply elem_of_nil in Hm|]. cbn.
    apply elem_of_cons in Hm as [-> | Hm]; [lia|]. apply IH in Hm. lia. }
  apply G in In. lia.
Qed.

(** A segment with free ends. *)
Definition iso (f : gmap he he) (g : nat) : gmap he he := <[(g, true) := (g, false)]> (<[(g, false) := (g, true)]> f).
Lemma iso_flip f g b : iso f g !! (g, b) = Some (g, negb b).
Proof. unfold iso. destruct b; [by rewrite lookup_insert|]. rewrite lookup_insert_ne by done. by rewrite lookup_insert. Qed.
Lemma iso_ne f g h : fst h <> g -> iso f g !! h = f !! h.
Proof. intros D. unfold iso. rewrite !lookup_insert_ne; [done| |]; by intros <-. Qed.
Definition both {A} (l : gmap he A) (g : nat) (x y : A) : gmap he A := <[(g, true) := y]> (<[(g, false) := x]> l).
Lemma both_t {A} (l : gmap he A) g x y : both l g x y !! (g, true) = Some y.
Proof. apply lookup_insert. Qed.
Lemma both_f {A} (l : gmap he A) g x y : both l g x y !! (g, false) = Some x.
Proof. unfold both. rewrite lookup_insert_ne by done. apply lookup_insert. Qed.
Lemma both_ne {A} (l : gmap he A) g x y h : fst h <> g -> both l g x y !! h = l !! h.
Proof. intros D. unfold both. rewrite !lookup_insert_ne; [done| |]; by intros <-. Qed.
Lemma side_cases (h : he) g : fst h <> g \/ h = (g, true) \/ h = (g, false).
Proof. destruct h as [g' []]; cbn; destruct (decide (g' = g)) as [->|D]; auto. Qed.

Section Fresh.
Context (v : gmap he nat) (f : gmap he he) (l : gmap he nat) (g : nat).
Hypothesis T : topo v f l.
Hypothesis Fr : forall b, f !! (g, b) = None.

Lemma fresh_v b : v !! (g, b) = None.
Proof. apply eq_None_not_Some. intros I. apply (topo_dom_v _ _ _ _ T) in I. rewrite Fr in I. by destruct I. Qed.
Lemma fresh_l b : l !! (g, b) = None.
Proof. apply eq_None_not_Some. intros I. apply (topo_dom_l _ _ _ _ T) in I. rewrite Fr in I. by destruct I. Qed.
Lemma old_ne h k : f !! h = Some k -> fst h <> g.
Proof. intros E D. destruct h as [g' b]. cbn in D. subst g'. by rewrite Fr in E. Qed.
Lemma old_ne' h k : f !! h = Some k -> fst k <> g.
Proof. intros E. assert (I : is_Some (f !! k)) by by eapply (t_perm _ _ _ T). destruct I as [m I]. by eapply old_ne. Qed.

Lemma perm_iso : perm (iso f g).
Proof. apply perm_new2; [apply T| | |done]; apply Fr. Qed.
Lemma flip_iso : closed_flip (iso f g).
Proof.
  intros h I. destruct (side_cases h g) as [D|[-> | ->]]; [|rewrite flip_pair, iso_flip; eauto..].
  rewrite iso_ne in * by done. by apply (t_flip _ _ _ T).
Qed.
Lemma rot_iso : rot (iso f g) = both (rot f) g (g, false) (g, true).
Proof. unfold iso, both. by rewrite !rot_insert. Qed.
Lemma labels_iso_v x y : x <> y -> (forall h, v !! h <> Some x) -> (forall h, v !! h <> Some y) ->
  labels (rot (iso f g)) (both v g x y).
Proof.
  intros D Fx Fy. rewrite rot_iso. unfold both.
  assert (P : perm (rot f)) by (apply perm_rot; apply T).
  assert (N : forall b, rot f !! (g, b) = None) by (intros b; by rewrite rot_lookup, Fr).
  apply labels_new1; [by apply perm_new1| | |].
  - apply labels_new1; [done|apply T|done|done].
  - by rewrite lookup_insert_ne.
  - intros k. destruct (decide (k = (g, false))) as [->|Dk]; [rewrite lookup_insert; congruence|]. by rewrite lookup_insert_ne.
Qed.
Lemma labels_iso_l w : (forall h, l !! h <> Some w) -> labels (iso f g) (both l g w w).
Proof.
  intros Fw.
  destruct (fresh_label (both l g w w)) as [z Fz].
  assert (L : labels (both f g (g, false) (g, true)) (both l g w z)).
  { unfold both. apply labels_new1; [by apply perm_new1; [apply T|]| | |].
    - apply labels_new1; [apply T|apply T|done|done].
    - rewrite lookup_insert_ne by done. apply Fr.
    - intros k E. apply (Fz k). destruct (side_cases k g) as [D|[-> | ->]].
      + rewrite both_ne by done. rewrite lookup_insert_ne in E; [done|]. by intros <-.
      + rewrite lookup_insert_ne in E by done. by rewrite fresh_l in E.
      + rewrite lookup_insert in E. rewrite both_f. done. }
  assert (E : iso f g = swap (both f g (g, false) (g, true)) (g, false) (g, true)).
  { apply map_eq. intros h. destruct (side_cases h g) as [D|[-> | ->]].
    - rewrite iso_ne by done. rewrite swap_ne; [by rewrite both_ne| |]; by intros ->.
    - rewrite iso_flip. symmetry. eapply swap_r; [apply both_f|apply both_t].
    - rewrite iso_flip. symmetry. eapply swap_l; [apply both_f|apply both_t]. }
  rewrite E. eapply labels_join; [|exact L|apply both_f|apply both_t| |].
  - unfold both. apply perm_new1; [apply perm_new1; [apply T|apply Fr]|]. rewrite lookup_insert_ne by done. apply Fr.
  - intros ->. apply (Fz (g, true)). apply both_t.
  - intros h. destruct (side_cases h g) as [D|[-> | ->]].
    + rewrite !both_ne by done. destruct (l !! h) as [u|] eqn:Eu; [|done]. cbn. case_decide; [|done]. subst u.
      exfalso. apply (Fz h). by rewrite both_ne.
    + rewrite !both_t. cbn. by rewrite decide_True.
    + rewrite !both_f. cbn. case_decide; [|done]. done.
Qed.

(** A segment alone. *)
Lemma topo_alone a b w : a <> b -> (forall h, v !! h <> Some a) -> (forall h, v !! h <> Some b) -> (forall h, l !! h <> Some w) ->
  topo (both v g a b) (iso f g) (both l g w w).
Proof.
  intros D Fa Fb Fw. constructor.
  - apply perm_iso.
  - apply flip_iso.
  - by apply labels_iso_v.
  - by apply labels_iso_l.
  - intros h p E. destruct (side_cases h g) as [Dh|[-> | ->]].
    + rewrite both_ne in * by done. by apply (t_loop _ _ _ T).
    + rewrite flip_pair. cbn [negb]. rewrite both_t in E. rewrite both_f. congruence.
    + rewrite flip_pair. cbn [negb]. rewrite both_f in E. rewrite both_t. congruence.
Qed.

(** One end is connected after [p]. *)
Section Connect.
Context (r : bool) (p n : he) (a w : nat).
Hypothesis Ep : f !! p = Some n.
Hypothesis Ea : v !! p = Some a.
Hypothesis Ew : l !! p = Some w.
Definition f1 : gmap he he := swap (iso f g) (g, r) p.
Definition ends {A} (m : gmap he A) (x y : A) : gmap he A := if r then both m g y x else both m g x y.
Lemma ends_r {A} (m : gmap he A) x y : ends m x y !! (g, r) = Some x.
Proof. unfold ends. destruct r; [apply both_t|apply both_f]. Qed.
Lemma ends_n {A} (m : gmap he A) x y : ends m x y !! (g, negb r) = Some y.
Proof. unfold ends. destruct r; [apply both_f|apply both_t]. Qed.
Lemma ends_ne {A} (m : gmap he A) x y h : fst h <> g -> ends m x y !! h = m !! h.
Proof. unfold ends. destruct r; apply both_ne. Qed.
Lemma ends_cases (h : he) : fst h <> g \/ h = (g, r) \/ h = (g, negb r).
Proof. destruct (side_cases h g) as [D|[-> | ->]]; destruct r; auto. Qed.

Lemma iso_p : iso f g !! p = Some n.
Proof. rewrite iso_ne; [done|]. by eapply old_ne. Qed.
Lemma f1_r : f1 !! (g, r) = Some n.
Proof. eapply swap_l; [apply iso_flip|apply iso_p]. Qed.
Lemma f1_p : f1 !! p = Some (g, negb r).
Proof. eapply swap_r; [apply iso_flip|apply iso_p]. Qed.
Lemma f1_n : f1 !! (g, negb r) = Some (g, r).
Proof.
  unfold f1. rewrite swap_ne; [rewrite iso_flip; by rewrite negb_involutive| |].
  - by destruct r.
  - intros E. assert (D := old_ne _ _ Ep). rewrite <- E in D. done.
Qed.
Lemma f1_ne h : fst h <> g -> h <> p -> f1 !! h = f !! h.
Proof. intros D1 D2. unfold f1. rewrite swap_ne; [by apply iso_ne|by intros ->|done]. Qed.
Lemma perm_f1 : perm f1.
Proof. apply swap_perm, perm_iso. Qed.
Lemma flip_f1 : closed_flip f1.
Proof. intros h I. unfold f1 in *. rewrite swap_dom in *. by apply flip_iso. Qed.
Lemma labels_f1_v b : (forall h, v !! h <> Some b) -> labels (rot f1) (ends v a b).
Proof.
  intros Fb. unfold f1. rewrite rot_swap, swap_comm.
  assert (Dab : a <> b) by (intros ->; by apply (Fb p)).
  destruct (fresh_label (both v g a b)) as [z Fz].
  assert (Fz' : forall h, v !! h <> Some z).
  { intros h E. destruct (side_cases h g) as [D|[-> | ->]]; [|by rewrite fresh_v in E..]. apply (Fz h). by rewrite both_ne. }
  assert (Dzb : z <> b) by (intros ->; apply (Fz (g, true)), both_t).
  assert (Dza : z <> a) by (intros ->; apply (Fz (g, false)), both_f).
  assert (Dp := old_ne _ _ Ep).
  assert (L : labels (rot (iso f g)) (ends v z b)).
  { unfold ends. destruct r; apply labels_iso_v; (done || congruence). }
  assert (P : perm (rot (iso f g))) by (apply perm_rot; [apply perm_iso|apply flip_iso]).
  eapply (labels_join _ _ _ p (g, r) a z P L).
  - rewrite ends_ne by done. done.
  - apply ends_r.
  - congruence.
  - intros h. destruct (ends_cases h) as [D|[-> | ->]].
    + rewrite !ends_ne by done. destruct (v !! h) as [u|] eqn:Eu; [|done]. cbn. case_decide; [|done]. subst u. by destruct (Fz' h).
    + rewrite !ends_r. cbn. by rewrite decide_True.
    + rewrite !ends_n. cbn. rewrite decide_False by congruence. done.
Qed.
Lemma labels_f1_l : labels f1 (both l g w w).
Proof.
  unfold f1. rewrite swap_comm.
  destruct (fresh_label (both l g w w)) as [z Fz].
  assert (Fz' : forall h, l !! h <> Some z).
  { intros h E. destruct (side_cases h g) as [D|[-> | ->]]; [|by rewrite fresh_l in E..]. apply (Fz h). by rewrite both_ne. }
  assert (Dp := old_ne _ _ Ep).
  assert (L := labels_iso_l z Fz').
  eapply (labels_join _ _ _ p (g, r) w z perm_iso L).
  - rewrite both_ne by done. done.
  - destruct r; [apply both_t|apply both_f].
  - intros ->. apply (Fz (g, true)), both_t.
  - intros h. destruct (side_cases h g) as [D|[-> | ->]].
    + rewrite !both_ne by done. destruct (l !! h) as [u|] eqn:Eu; [|done]. cbn. case_decide; [|done]. subst u. by destruct (Fz' h).
    + rewrite !both_t. cbn. by rewrite decide_True.
    + rewrite !both_f. cbn. by rewrite decide_True.
Qed.
(** A segment with one free end. *)
Lemma topo_dendrite b : (forall h, v !! h <> Some b) -> topo (ends v a b) f1 (both l g w w).
Proof.
  intros Fb. constructor.
  - apply perm_f1.
  - apply flip_f1.
  - by apply labels_f1_v.
  - apply labels_f1_l.
  - assert (Dab : a <> b) by (intros ->; by apply (Fb p)).
    intros h q E. destruct (ends_cases h) as [Dh|[-> | ->]].
    + rewrite ends_ne in * by done. by apply (t_loop _ _ _ T).
    + rewrite flip_pair. rewrite ends_r in E. rewrite ends_n. congruence.
    + rewrite flip_pair, negb_involutive. rewrite ends_n in E. rewrite ends_r. congruence.
Qed.
End Connect.

(** Both ends are connected: side false after [pa], side true after [pb]. *)
Section Connect2.
Context (pa na pb nb : he) (a b wa wb : nat).
Hypothesis Epa : f !! pa = Some na.
Hypothesis Epb : f !! pb = Some nb.
Hypothesis Ea : v !! pa = Some a.
Hypothesis Eb : v !! pb = Some b.
Hypothesis Dab : a <> b.
Hypothesis Ewa : l !! pa = Some wa.
Hypothesis Ewb : l !! pb = Some wb.
Definition f2 : gmap he he := swap (f1 false pa) (g, true) pb.
Lemma pa_pb : pa <> pb.
Proof. intros ->. congruence. Qed.
Lemma f1_pb : f1 false pa !! pb = Some nb.
Proof. rewrite f1_ne; [done|by eapply old_ne|]. intros E. by apply pa_pb. Qed.
Lemma f1_true : f1 false pa !! (g, true) = Some (g, false).
Proof. by apply (f1_n false pa na). Qed.
Lemma f2_true : f2 !! (g, true) = Some nb.
Proof. eapply swap_l; [apply f1_true|apply f1_pb]. Qed.
Lemma f2_pb : f2 !! pb = Some (g, false).
Proof. eapply swap_r; [apply f1_true|apply f1_pb]. Qed.
Lemma f2_false : f2 !! (g, false) = Some na.
Proof.
  unfold f2. rewrite swap_ne; [by apply (f1_r false pa na)|done|]. intros E. assert (D := old_ne _ _ Epb). by rewrite <- E in D.
Qed.
Lemma f2_pa : f2 !! pa = Some (g, true).
Proof.
  unfold f2. rewrite swap_ne; [by apply (f1_p false pa na)| |apply pa_pb]. intros E. assert (D := old_ne _ _ Epa). by rewrite E in D.
Qed.
Lemma f2_ne h : fst h <> g -> h <> pa -> h <> pb -> f2 !! h = f !! h.
Proof. intros D1 D2 D3. unfold f2. rewrite swap_ne; [by apply f1_ne|by intros ->|done]. Qed.
Lemma f2_inserts : f2 = <[pb := (g, false)]> (<[(g, true) := nb]> (<[pa := (g, true)]> (<[(g, false) := na]> f))).
Proof.
  apply map_eq. intros h. assert (Da := old_ne _ _ Epa). assert (Db := old_ne _ _ Epb). assert (D := pa_pb).
  destruct (decide (h = pb)) as [->|D1]; [rewrite lookup_insert; apply f2_pb|rewrite lookup_insert_ne by done].
  destruct (decide (h = (g, true))) as [->|D2]; [rewrite lookup_insert; apply f2_true|rewrite lookup_insert_ne by done].
  destruct (decide (h = pa)) as [->|D3]; [rewrite lookup_insert; apply f2_pa|rewrite lookup_insert_ne by done].
  destruct (decide (h = (g, false))) as [->|D4]; [rewrite lookup_insert; apply f2_false|rewrite lookup_insert_ne by done].
  apply f2_ne; [|done|done]. destruct (side_cases h g) as [?|[?|?]]; done.
Qed.
Lemma perm_f2 : perm f2.
Proof. by apply swap_perm, perm_f1. Qed.
Lemma flip_f2 : closed_flip f2.
Proof. intros h I. unfold f2 in *. rewrite swap_dom in *. by apply flip_f1. Qed.
Lemma labels_f2_v : labels (rot f2) (both v g a b).
Proof.
  unfold f2. rewrite rot_swap, swap_comm.
  destruct (fresh_label (both v g a b)) as [z Fz].
  assert (Fz' : forall h, v !! h <> Some z).
  { intros h E. destruct (side_cases h g) as [D|[-> | ->]]; [|by rewrite fresh_v in E..]. apply (Fz h). by rewrite both_ne. }
  assert (Dzb : z <> b) by (intros ->; apply (Fz (g, true)), both_t).
  assert (Dza : z <> a) by (intros ->; apply (Fz (g, false)), both_f).
  assert (Db := old_ne _ _ Epb).
  assert (L := labels_f1_v false pa na a Epa Ea z Fz').
  assert (P : perm (rot (f1 false pa))) by (apply perm_rot; [by eapply perm_f1|by eapply flip_f1]).
  eapply (labels_join _ _ _ pb (g, true) b z P L).
  - rewrite ends_ne by done. done.
  - apply (ends_n false).
  - congruence.
  - unfold ends. intros h. destruct (side_cases h g) as [D|[-> | ->]].
    + rewrite !both_ne by done. destruct (v !! h) as [u|] eqn:Eu; [|done]. cbn. case_decide; [|done]. subst u. by destruct (Fz' h).
    + rewrite !both_t. cbn. by rewrite decide_True.
    + rewrite !both_f. cbn. by rewrite decide_False.
Qed.
Lemma loop_f2 h q : both v g a b !! h = Some q -> both v g a b !! flip h <> Some q.
Proof.
  intros E. destruct (side_cases h g) as [Dh|[-> | ->]].
  - rewrite both_ne in * by done. by apply (t_loop _ _ _ T).
  - rewrite flip_pair. cbn [negb]. rewrite both_t in E. rewrite both_f. congruence.
  - rewrite flip_pair. cbn [negb]. rewrite both_f in E. rewrite both_t. congruence.
Qed.
(** Two wires become one. *)
Lemma topo_join keep rm l' : wa <> wb -> (keep = wa /\ rm = wb) \/ (keep = wb /\ rm = wa) ->
  (forall s, l' !! (g, s) = Some keep) ->
  (forall h, fst h <> g -> l' !! h = (fun w => if decide (w = rm) then keep else w) <$> l !! h) ->
  topo (both v g a b) f2 l'.
Proof.
  intros Dw K E1 E2. constructor.
  - apply perm_f2.
  - apply flip_f2.
  - apply labels_f2_v.
  - assert (L := labels_f1_l false pa na wa Epa Ewa). assert (P := perm_f1 false pa).
    assert (Db := old_ne _ _ Epb).
    assert (B1 : both l g wa wa !! (g, true) = Some wa) by apply both_t.
    assert (B2 : both l g wa wa !! pb = Some wb) by by rewrite both_ne.
    destruct K as [[-> ->]|[-> ->]].
    + unfold f2. eapply (labels_join _ _ _ _ _ wa wb P L B1 B2 Dw).
      intros h. destruct (side_cases h g) as [D|[-> | ->]].
      * rewrite both_ne by done. by apply E2.
      * rewrite both_t. cbn. rewrite decide_False by done. apply E1.
      * rewrite both_f. cbn. rewrite decide_False by done. apply E1.
    + unfold f2. rewrite swap_comm. eapply (labels_join _ _ _ _ _ wb wa P L B2 B1); [done|].
      intros h. destruct (side_cases h g) as [D|[-> | ->]].
      * rewrite both_ne by done. by apply E2.
      * rewrite both_t. cbn. rewrite decide_True by done. apply E1.
      * rewrite both_f. cbn. rewrite decide_True by done. apply E1.
  - apply loop_f2.
Qed.
(** One wire becomes two; [S] is the cycle of side true. *)
Lemma f2_cut : wa = wb -> ~ reach f2 (g, true) (g, false).
Proof.
  intros <- R.
  assert (L := labels_f1_l false pa na wa Epa Ewa). assert (P := perm_f1 false pa).
  assert (Db := old_ne _ _ Epb).
  assert (R1 : reach (f1 false pa) (g, true) pb).
  { eapply labels_reach; [exact L|apply both_t|]. rewrite both_ne by done. done. }
  eapply (swap_cut (f1 false pa) (g, true) pb P); [rewrite f1_true; eauto|rewrite f1_pb; eauto| |exact R1|].
  - intros E. by rewrite <- E in Db.
  - fold f2. eapply reach_trans; [exact R|]. apply reach_sym'; [apply perm_f2|rewrite f2_false; eauto|].
    apply reach_step, f2_pb.
Qed.
Lemma topo_split left l' (S : he -> Prop) : wa = wb -> (forall h, l !! h <> Some left) -> wa <> left ->
  (forall h, S h <-> reach f2 (g, true) h) -> (forall h, S h \/ ~ S h) ->
  (forall h, S h -> l' !! h = Some left) ->
  l' !! (g, false) = Some wa ->
  (forall h, ~ S h -> fst h <> g -> l' !! h = l !! h) ->
  topo (both v g a b) f2 l'.
Proof.
  intros <- Fl Dl HS Dec E1 E2 E3. constructor.
  - apply perm_f2.
  - apply flip_f2.
  - apply labels_f2_v.
  - assert (L := labels_f1_l false pa na wa Epa Ewa). assert (P := perm_f1 false pa).
    assert (Db := old_ne _ _ Epb).
    unfold f2. rewrite swap_comm.
    eapply (labels_cut _ _ _ pb (g, true) wa left S P L).
    + by rewrite both_ne.
    + apply both_t.
    + intros E. by rewrite E in Db.
    + intros k E. destruct (side_cases k g) as [D|[-> | ->]].
      * rewrite both_ne in E by done. by apply (Fl k).
      * rewrite both_t in E. congruence.
      * rewrite both_f in E. congruence.
    + intros h. rewrite HS. unfold f2. by rewrite swap_comm.
    + done.
    + intros h Sh. destruct (side_cases h g) as [D|[-> | ->]].
      * rewrite both_ne by done. by apply E3.
      * exfalso. apply Sh, HS, reach_refl.
      * rewrite both_f. done.
    + done.
  - apply loop_f2.
Qed.
End Connect2.
End Fresh.

(** * Removal *)
Definition dels {A} (m : gmap he A) (g : nat) : gmap he A := delete (g, true) (delete (g, false) m).
Lemma dels_in {A} (m : gmap he A) g b : dels m g !! (g, b) = None.
Proof. unfold dels. destruct b; [apply lookup_delete|]. rewrite lookup_delete_ne by done. apply lookup_delete. Qed.
Lemma dels_ne {A} (m : gmap he A) g h : fst h <> g -> dels m g !! h = m !! h.
Proof. intros D. unfold dels. rewrite !lookup_delete_ne; [done| |]; by intros <-. Qed.

Section Removal.
Context (v : gmap he nat) (f : gmap he he) (l : gmap he nat) (g : nat).
Hypothesis T : topo v f l.

Lemma loop_dels h q : dels v g !! h = Some q -> dels v g !! flip h <> Some q.
Proof.
  intros E. destruct (side_cases h g) as [Dh|[-> | ->]]; [|by rewrite dels_in in E..].
  rewrite dels_ne in * by done. by apply (t_loop _ _ _ T).
Qed.
Lemma flip_dels f' : closed_flip f' -> closed_flip (dels f' g).
Proof.
  intros F h I. destruct (side_cases h g) as [D|[-> | ->]]; [|rewrite dels_in in I; by destruct I..].
  rewrite dels_ne in * by done. by apply F.
Qed.
(** What remains when both sides are linked to each other. *)
Lemma topo_dels v' f' l' : perm f' -> closed_flip f' -> labels (rot f') v' -> labels f' l' ->
  (forall b, f' !! (g, b) = Some (g, negb b)) -> (forall h, fst h <> g -> v' !! h = v !! h) ->
  topo (dels v g) (dels f' g) (dels l' g).
Proof.
  intros P F Lv Ll E Ev.
  assert (Et := E true). assert (Ef := E false). cbn in Et, Ef.
  assert (Er : forall b, rot f' !! (g, b) = Some (g, b)).
  { intros b. apply rot_some. apply E. }
  constructor.
  - by apply perm_del2.
  - by apply flip_dels.
  - assert (Q : dels v g = dels v' g).
    { apply map_eq. intros h. destruct (side_cases h g) as [D|[-> | ->]]; [|by rewrite !dels_in..].
      rewrite !dels_ne by done. symmetry. by apply Ev. }
    rewrite Q. unfold dels. rewrite !rot_delete.
    assert (Pr := perm_rot _ P F).
    apply labels_del1.
    + by apply perm_del1.
    + by apply labels_del1.
    + rewrite lookup_delete_ne by done. apply Er.
  - by apply labels_del2.
  - apply loop_dels.
Qed.
Lemma topo_alone_rm : (forall b, f !! (g, b) = Some (g, negb b)) -> topo (dels v g) (dels f g) (dels l g).
Proof. intros E. by apply (topo_dels v); try apply T. Qed.

(** One end leaves its point; [m] was linked to the other side. *)
Section Leave.
Context (r : bool) (m : he).
Hypothesis Em : f !! m = Some (g, negb r).
Hypothesis Dm : m <> (g, r).
Definition u1 : gmap he he := swap f (g, r) m.
Lemma dom_g b : is_Some (f !! (g, b)).
Proof.
  assert (I : is_Some (f !! (g, negb r))) by by eapply (t_perm _ _ _ T).
  destruct (decide (b = r)) as [->|D].
  - apply (t_flip _ _ _ T) in I. by rewrite flip_pair, negb_involutive in I.
  - replace b with (negb r); [done|]. by destruct b, r.
Qed.
Lemma u1_r : u1 !! (g, r) = Some (g, negb r).
Proof. destruct (dom_g r) as [k Ek]. by eapply swap_l. Qed.
Lemma u1_m k : f !! (g, r) = Some k -> u1 !! m = Some k.
Proof. intros Ek. by eapply swap_r. Qed.
Lemma u1_ne h : h <> (g, r) -> h <> m -> u1 !! h = f !! h.
Proof. intros D1 D2. by apply swap_ne. Qed.
Lemma m_n : f !! (g, negb r) <> Some (g, negb r).
Proof.
  intros E. assert (O := topo_org _ _ _ _ _ T E). rewrite flip_pair, negb_involutive in O.
  assert (I : is_Some (v !! (g, r))) by apply (topo_dom_v _ _ _ _ T), dom_g. destruct I as [p Ip].
  apply (t_loop _ _ _ T _ _ Ip). rewrite flip_pair. congruence.
Qed.
Lemma u1_n : u1 !! (g, negb r) = f !! (g, negb r).
Proof. apply u1_ne; [by destruct r|]. intros E. apply m_n. rewrite E at 1. apply Em. Qed.
Lemma perm_u1 : perm u1.
Proof. apply swap_perm, T. Qed.
Lemma flip_u1 : closed_flip u1.
Proof. intros h I. unfold u1 in *. rewrite swap_dom in *. by apply (t_flip _ _ _ T). Qed.
Lemma labels_u1_v z : (forall k, v !! k <> Some z) -> labels (rot u1) (<[(g, r) := z]> v).
Proof.
  intros Fz. unfold u1. rewrite rot_swap.
  assert (I : is_Some (v !! (g, r))) by apply (topo_dom_v _ _ _ _ T), dom_g. destruct I as [p Ip].
  eapply labels_leave; [apply perm_rot; apply T|apply T|exact Ip| |done|done].
  apply rot_some. apply Em.
Qed.
Lemma lab_m : l !! m = l !! (g, negb r).
Proof. symmetry. by apply (topo_lab _ _ _ _ _ T). Qed.

(** The other end was free. *)
Lemma topo_dendrite_rm : f !! (g, negb r) = Some (g, r) -> topo (dels v g) (dels u1 g) (dels l g).
Proof.
  intros Et.
  assert (Iw : is_Some (l !! (g, r))) by apply (topo_dom_l _ _ _ _ T), dom_g. destruct Iw as [w Ew].
  assert (Ewn : l !! (g, negb r) = Some w) by (rewrite <- Ew; symmetry; by apply (topo_lab _ _ _ _ _ T)).
  destruct (fresh_label v) as [z Fz]. destruct (fresh_label l) as [y Fy].
  assert (Loop : forall b, u1 !! (g, b) = Some (g, negb b)).
  { intros b. destruct (decide (b = r)) as [->|D]; [apply u1_r|]. replace b with (negb r) by (by destruct b, r).
    rewrite u1_n, Et. by rewrite negb_involutive. }
  assert (L' : labels u1 (both l g y y)).
  { unfold u1. rewrite swap_comm.
    eapply (labels_cut f l _ m (g, r) w y (fun h => fst h = g)); [apply T|apply T| |exact Ew|done|done| | | |].
    - by rewrite lab_m.
    - intros h. rewrite swap_comm. fold u1. split.
      + intros D. destruct (side_cases h g) as [D'|D']; [done|].
        assert (R : reach u1 (g, r) (g, negb r)) by apply reach_step, u1_r.
        destruct D' as [-> | ->]; destruct r; try done; apply reach_refl.
      + intros R. assert (G : forall x, fst x = g -> reach u1 x h -> fst h = g); [|by apply (G (g, r))].
        clear R. intros x Dx R. induction R as [|x k h S R IH]; [done|]. apply IH.
        unfold step in S. destruct x as [g' b]. cbn in Dx. subst g'. rewrite Loop in S. by injection S as <-.
    - intros h D. destruct (side_cases h g) as [D'|[-> | ->]]; [done|apply both_t|apply both_f].
    - intros h D. by apply both_ne.
    - intros h. destruct (decide (fst h = g)); auto. }
  assert (Q : dels l g = dels (both l g y y) g).
  { apply map_eq. intros h. destruct (side_cases h g) as [D|[-> | ->]]; [|by rewrite !dels_in..].
    rewrite !dels_ne by done. symmetry. by apply both_ne. }
  rewrite Q. eapply topo_dels; [apply perm_u1|apply flip_u1|by apply labels_u1_v|done|done|].
  intros h D. apply lookup_insert_ne. by intros <-.
Qed.
End Leave.

(** Both ends leave their points, side false first. *)
Section Leave2.
Context (m0 m1 : he).
Hypothesis Em0 : f !! m0 = Some (g, true).
Hypothesis D0 : m0 <> (g, false).
Definition g1 : gmap he he := u1 false m0.
Hypothesis Em1 : g1 !! m1 = Some (g, false).
Hypothesis Nt : f !! (g, true) <> Some (g, false).
Definition g2 : gmap he he := swap g1 (g, true) m1.
Lemma g1_false : g1 !! (g, false) = Some (g, true).
Proof. by apply (u1_r false m0). Qed.
Lemma g1_true : g1 !! (g, true) = f !! (g, true).
Proof. by apply (u1_n false m0). Qed.
Lemma m1_true : m1 <> (g, true).
Proof. intros ->. rewrite g1_true in Em1. done. Qed.
Lemma m1_false : m1 <> (g, false).
Proof. intros ->. rewrite g1_false in Em1. congruence. Qed.
Lemma m1_ne : fst m1 <> g.
Proof. destruct (side_cases m1 g) as [D|[E|E]]; [done|by apply m1_true in E|by apply m1_false in E]. Qed.
Lemma m0_ne : fst m0 <> g.
Proof.
  destruct (side_cases m0 g) as [D|[E|E]]; [done| |done]. exfalso. apply (m_n false m0 Em0 D0). cbn [negb]. rewrite <- E at 1. done.
Qed.
Lemma g2_true : g2 !! (g, true) = Some (g, false).
Proof.
  assert (I : is_Some (g1 !! (g, true))) by (rewrite g1_true; by apply (dom_g false m0)). destruct I as [k Ek].
  by eapply swap_l.
Qed.
Lemma g2_false : g2 !! (g, false) = Some (g, true).
Proof. unfold g2. rewrite swap_ne; [apply g1_false|done|]. intros E. by apply m1_false. Qed.
Lemma perm_g2 : perm g2.
Proof. by apply swap_perm, perm_u1. Qed.
Lemma flip_g2 : closed_flip g2.
Proof. intros h I. unfold g2 in *. rewrite swap_dom in *. by apply (flip_u1 false m0). Qed.
Lemma labels_g2_v : exists v', labels (rot g2) v' /\ forall h, fst h <> g -> v' !! h = v !! h.
Proof.
  destruct (fresh_label v) as [z Fz].
  assert (L := labels_u1_v false m0 Em0 D0 z Fz). fold g1 in L.
  destruct (fresh_label (<[(g, false) := z]> v)) as [y Fy].
  exists (<[(g, true) := y]> (<[(g, false) := z]> v)). split.
  - unfold g2. rewrite rot_swap.
    assert (I : is_Some (v !! (g, true))) by (apply (topo_dom_v _ _ _ _ T); by apply (dom_g false m0)). destruct I as [p Ip].
    eapply labels_leave; [apply perm_rot; [by apply perm_u1|by apply flip_u1]|exact L| | |apply m1_true|done].
    + rewrite lookup_insert_ne by done. exact Ip.
    + apply rot_some. done.
  - intros h D. rewrite !lookup_insert_ne; [done| |]; by intros <-.
Qed.
(** The last link of the sides is cut from the rest. *)
Lemma labels_g2_l l1 w : labels g1 l1 -> l1 !! (g, true) = Some w -> exists l2, labels g2 l2 /\ forall h, fst h <> g -> l2 !! h = l1 !! h.
Proof.
  intros L E. destruct (fresh_label l1) as [y Fy]. exists (both l1 g y y). split; [|by intros; apply both_ne].
  unfold g2. rewrite swap_comm.
  assert (P : perm g1) by by apply perm_u1.
  assert (E0 : l1 !! (g, false) = Some w).
  { eapply labels_same; [exact P|exact L|exact E|]. apply reach_sym'; [exact P|apply L; eauto|]. apply reach_step, g1_false. }
  eapply (labels_cut g1 l1 _ m1 (g, true) w y (fun h => fst h = g)); [done|done| |done|apply m1_true|done| | | |].
  - eapply labels_same; [exact P|exact L|exact E0|]. apply reach_sym'; [exact P|apply L; eauto|]. by apply reach_step.
  - rewrite swap_comm. fold g2.
    assert (Loop : forall b, g2 !! (g, b) = Some (g, negb b)) by (intros []; [apply g2_true|apply g2_false]).
    intros h. split.
    + intros D. destruct (side_cases h g) as [D'|[-> | ->]]; [done|apply reach_refl|]. apply reach_step, g2_true.
    + intros R. assert (G : forall x, fst x = g -> reach g2 x h -> fst h = g); [|by apply (G (g, true))].
      clear R. intros x Dx R. induction R as [|x k h S R IH]; [done|]. apply IH.
      unfold step in S. destruct x as [g' b]. cbn in Dx. subst g'. rewrite Loop in S. by injection S as <-.
  - intros h D. destruct (side_cases h g) as [D'|[-> | ->]]; [done|apply both_t|apply both_f].
  - intros h D. by apply both_ne.
  - intros h. destruct (decide (fst h = g)); auto.
Qed.
Lemma topo_leave2 l1 : labels g1 l1 -> topo (dels v g) (dels g2 g) (dels l1 g).
Proof.
  intros L. assert (I : is_Some (l1 !! (g, true))) by (apply L; rewrite g1_true; by apply (dom_g false m0)). destruct I as [w Ew].
  destruct labels_g2_v as (v' & Lv & Ev). destruct (labels_g2_l l1 w L Ew) as (l2 & L2 & E2).
  assert (Q : dels l1 g = dels l2 g).
  { apply map_eq. intros h. destruct (side_cases h g) as [D|[-> | ->]]; [|by rewrite !dels_in..].
    rewrite !dels_ne by done. symmetry. by apply E2. }
  rewrite Q. eapply topo_dels; [apply perm_g2|apply flip_g2|exact Lv|exact L2| |done].
  intros []; [apply g2_true|apply g2_false].
Qed.
(** Different wires on the two sides become one. *)
Lemma topo_merge_rm keep rm l' : l !! (g, true) <> l !! (g, false) ->
  (l !! (g, true) = Some keep /\ l !! (g, false) = Some rm) \/ (l !! (g, true) = Some rm /\ l !! (g, false) = Some keep) ->
  (forall h, l' !! h = (fun w => if decide (w = rm) then keep else w) <$> l !! h) ->
  topo (dels v g) (dels g2 g) (dels l' g).
Proof.
  intros Dl K E. apply topo_leave2.
  assert (Lm : l !! m0 = l !! (g, true)) by by apply (lab_m false m0).
  unfold g1, u1. destruct K as [[K1 K2]|[K1 K2]].
  - rewrite swap_comm. eapply (labels_join _ _ _ m0 (g, false) keep rm); [apply T|apply T| |done| |done]; congruence.
  - eapply (labels_join _ _ _ (g, false) m0 keep rm); [apply T|apply T|done| | |done]; congruence.
Qed.
(** The same wire on both sides becomes two; [S] is the part that leads from side true to side false. *)
Lemma topo_cut_rm w b l' (S : he -> Prop) : l !! (g, true) = Some w -> l !! (g, false) = Some w -> (forall h, l !! h <> Some b) ->
  (forall h, S h <-> reach g1 (g, false) h) -> (forall h, S h \/ ~ S h) ->
  (forall h, S h -> fst h <> g -> l' !! h = Some b) -> (forall h, ~ S h -> l' !! h = l !! h) ->
  topo (dels v g) (dels g2 g) (dels l' g).
Proof.
  intros Et Ef Fb HS Dec E1 E2.
  assert (Q : dels l' g = dels (both l' g b b) g).
  { apply map_eq. intros h. destruct (side_cases h g) as [D|[-> | ->]]; [|by rewrite !dels_in..].
    rewrite !dels_ne by done. symmetry. by apply both_ne. }
  rewrite Q. apply topo_leave2.
  assert (Lm : l !! m0 = l !! (g, true)) by by apply (lab_m false m0).
  unfold g1, u1. rewrite swap_comm.
  eapply (labels_cut f l _ m0 (g, false) w b S); [apply T|apply T|congruence|done|done|done| | | |done].
  - intros h. rewrite HS. unfold g1, u1. by rewrite swap_comm.
  - intros h Sh. destruct (side_cases h g) as [D|[-> | ->]]; [|apply both_t|apply both_f].
    rewrite both_ne by done. by apply E1.
  - intros h Sh. destruct (side_cases h g) as [D|[-> | ->]].
    + rewrite both_ne by done. by apply E2.
    + exfalso. apply Sh, HS. apply reach_step, g1_false.
    + exfalso. apply Sh, HS. apply reach_refl.
Qed.
End Leave2.
End Removal.
