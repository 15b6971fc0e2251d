(** Proofs about heal_mesh.py: the invariant of the edits. *)
From stdpp Require Import gmap.
From Coq Require Import ZArith QArith Lia.
From Verif Require Import Heal_Model Heal_Spec.
Local Open Scope Z_scope.

Record inv (s : st) : Prop := {
  i_exact : exact s;
  i_closed : closed (nodes s) (els s);
  i_el : forall i e, els s !! i = Some e -> i <= max_el s;
  i_nd : forall n p, nodes s !! n = Some p -> n <= max_nd s }.
(** What any sequence of edits does. *)
Record leads (s s' : st) : Prop := {
  l_max : max_el s <= max_el s';
  l_nd : max_nd s <= max_nd s';
  l_mod : modif s ⊆ modif s';
  l_ids : forall i e, els s' !! i = Some e -> els s !! i = Some e \/ max_el s < i;
  l_snap : forall i e, els s' !! i = Some e -> i ∈ modif s' \/ snap s' i = snap s i }.
Lemma leads_refl s : leads s s.
Proof. split; auto; lia. Qed.
Lemma snap_els s s' i : snap s' i = snap s i -> els s' !! i = els s !! i.
Proof.
  unfold snap. intros H. destruct (els s !! i) as [e|], (els s' !! i) as [e'|]; cbn in H; congruence.
Qed.
Lemma leads_trans s1 s2 s3 : leads s1 s2 -> leads s2 s3 -> leads s1 s3.
Proof.
  intros [A B C D E] [A' B' C' D' E']. split; try lia.
  - set_solver.
  - intros i e H. apply D' in H. destruct H as [H|H]; [|right; lia]. apply D in H. destruct H; [auto|right; lia].
  - intros i e H. destruct (E' i e H) as [Q|Q]; auto. pose proof (snap_els _ _ _ Q) as Q2. rewrite H in Q2. symmetry in Q2.
    destruct (E i e Q2) as [Q3|Q3]; [left; set_solver|right; congruence].
Qed.
Lemma tick_inv k s : inv (set_tick k s) <-> inv s.
Proof. split; intros [A B C D]; split; auto. Qed.
Lemma tick_leads k s : leads s (set_tick k s).
Proof. split; cbn; auto; lia. Qed.
Lemma leads_tick k s s' : leads (set_tick k s) s' -> leads s s'.
Proof. apply leads_trans, tick_leads. Qed.

(** A method that keeps the invariant when called in a state satisfying [P]. *)
Definition keeps {A} (P : st -> Prop) (m : M A) : Prop :=
  forall s, inv s -> P s -> inv (snd (m s)) /\ leads s (snd (m s)).
(** Conditions that stay true. *)
Definition stable (P : st -> Prop) : Prop := forall s s', P s -> leads s s' -> P s'.
Definition any (s : st) : Prop := True.
Lemma any_stable : stable any. Proof. intros s s' H _. exact H. Qed.

Lemma keeps_bind {A B} P (m : M A) (f : A -> M B) : stable P ->
  keeps P m -> (forall a, keeps P (f a)) -> keeps P (bind m f).
Proof.
  intros St Hm Hf s I HP. destruct (Hm s I HP) as [I1 L1]. unfold bind. destruct (m s) as [[a|] s1] eqn:E; cbn in *.
  - destruct (Hf a s1 I1 (St _ _ HP L1)) as [I2 L2]. split; auto. eapply leads_trans; eauto.
  - auto.
Qed.
Lemma keeps_ret {A} P (a : A) : keeps P (ret a).
Proof. intros s I _. cbn. auto using leads_refl. Qed.
Lemma keeps_raise {A} P : keeps P (@raise A).
Proof. intros s I _. cbn. auto using leads_refl. Qed.
Lemma keeps_weaken {A} (P Q : st -> Prop) (m : M A) : (forall s, Q s -> P s) -> keeps P m -> keeps Q m.
Proof. intros H K s I HQ. apply K; auto. Qed.
Lemma keeps_for_each {A} P (l : list A) f : stable P -> (forall a, a ∈ l -> keeps P (f a)) -> keeps P (for_each l f).
Proof.
  intros St. induction l as [|x l IH]; intros H; cbn [for_each]; [apply keeps_ret|].
  apply keeps_bind; auto; [apply H; set_solver|]. intros _. apply IH. intros a Ha. apply H. set_solver.
Qed.
Lemma keeps_for_active P l f : stable P -> (forall a, keeps P (f a)) -> keeps P (for_active l f).
Proof.
  intros St H. induction l as [|x l IH]; cbn [for_active]; [apply keeps_ret|].
  intros s I HP. destruct (els s !! x); [|apply IH; auto].
  apply (keeps_bind P (f x) (fun _ => for_active l f)); auto.
Qed.
Lemma keeps_here {A} P (f : st -> M A) : (forall k, keeps P (f k)) -> keeps P (fun s => f s s).
Proof. intros H s I HP. apply H; auto. Qed.

(** * The index *)
Lemma nels_insert s n m X : nels (set_idx (<[n := X]> (idx s)) s) m = if decide (m = n) then X else nels s m.
Proof.
  unfold nels. cbn. destruct (decide (m = n)) as [->|N]; [rewrite lookup_insert|rewrite lookup_insert_ne by auto]; auto.
Qed.
Lemma nels_eq s s' : idx s' = idx s -> forall n, nels s' n = nels s n.
Proof. intros H n. unfold nels. rewrite H. auto. Qed.
Lemma add_idx_spec eid ns : forall i n,
  default ∅ (add_idx eid ns i !! n) = if decide (n ∈ ns) then {[eid]} ∪ default ∅ (i !! n) else default ∅ (i !! n).
Proof.
  induction ns as [|m ns IH]; intros i n; cbn [add_idx foldl].
  - rewrite decide_False by set_solver. auto.
  - change (foldl _ ?x ns) with (add_idx eid ns x). rewrite IH.
    destruct (decide (n = m)) as [->|N].
    + rewrite lookup_insert. cbn. rewrite (decide_True (P := m ∈ m :: ns)) by set_solver.
      destruct (decide (m ∈ ns)); set_solver.
    + rewrite lookup_insert_ne by auto. destruct (decide (n ∈ ns)).
      * rewrite decide_True by set_solver. auto.
      * rewrite decide_False by set_solver. auto.
Qed.
Lemma drop_idx_ok eid ns : forall s, NoDup ns -> (forall n, n ∈ ns -> eid ∈ nels s n) ->
  exists i', drop_idx eid ns s = (Ok tt, set_idx i' s) /\
    forall n, default ∅ (i' !! n) = if decide (n ∈ ns) then nels s n ∖ {[eid]} else nels s n.
Proof.
  induction ns as [|m ns IH]; intros s ND H; cbn [drop_idx].
  - exists (idx s). split; [destruct s; auto|]. intros n. rewrite decide_False by set_solver. auto.
  - rewrite decide_True by (apply H; set_solver). inversion ND as [|? ? N1 N2]; subst.
    destruct (IH (set_idx (<[m := nels s m ∖ {[eid]}]> (idx s)) s)) as (i' & E & F); auto.
    { intros n Hn. rewrite nels_insert. rewrite decide_False by (intros ->; auto). apply H. set_solver. }
    exists i'. split; [exact E|]. intros n. rewrite F, nels_insert. destruct (decide (n = m)) as [->|N].
    + rewrite decide_False by auto. rewrite decide_True by set_solver. auto.
    + destruct (decide (n ∈ ns)); [rewrite decide_True by set_solver|rewrite decide_False by set_solver]; auto.
Qed.

(** * Removing an element *)
Lemma remove_element_ok s i e : inv s -> els s !! i = Some e ->
  exists i', remove_element i s = (Ok tt, set_els (delete i (els s)) (set_idx i' s)) /\
    inv (set_els (delete i (els s)) (set_idx i' s)).
Proof.
  intros I E. unfold remove_element. rewrite E. unfold bind.
  destruct (drop_idx_ok i (remove_dups (e_nodes e)) s) as (i' & D & F).
  { apply NoDup_remove_dups. }
  { intros n Hn. apply (i_exact s I). exists e. split; auto. apply elem_of_remove_dups. auto. }
  exists i'. rewrite D. split; [reflexivity|]. destruct I as [A B C D']. split; cbn; auto.
  - intros n j. unfold nels. cbn. rewrite F.
    transitivity (j <> i /\ uses s j n).
    + destruct (decide (n ∈ remove_dups (e_nodes e))) as [Hn|Hn]; rewrite elem_of_remove_dups in Hn.
      * rewrite elem_of_difference, (A n j). set_solver.
      * rewrite (A n j). split; [|tauto]. intros (e' & E' & Hn'). split; [|exists e'; auto]. intros ->. congruence.
    + unfold uses. cbn. split.
      * intros (N & e' & E' & Hn). exists e'. rewrite lookup_delete_ne by auto. auto.
      * intros (e' & E' & Hn). destruct (decide (j = i)) as [->|N]; [rewrite lookup_delete in E'; discriminate|].
        rewrite lookup_delete_ne in E' by auto. split; auto. exists e'. auto.
  - intros j e' n H. apply lookup_delete_Some in H. destruct H. eauto.
  - intros j e' H. apply lookup_delete_Some in H. destruct H. eauto.
Qed.
Lemma leads_delete s s' i : nodes s' = nodes s -> els s' = delete i (els s) -> modif s' = modif s -> max_el s' = max_el s ->
  max_nd s' = max_nd s -> leads s s'.
Proof.
  intros A B C D E. split; rewrite ?D, ?E, ?C, ?B; auto; try lia.
  - intros j e H. apply lookup_delete_Some in H. tauto.
  - intros j e H. apply lookup_delete_Some in H. destruct H as [N H]. right. unfold snap. rewrite A, B.
    rewrite lookup_delete_ne by auto. auto.
Qed.
Lemma keeps_remove_element i : keeps any (remove_element i).
Proof.
  intros s I _. destruct (els s !! i) as [e|] eqn:E.
  - destruct (remove_element_ok s i e I E) as (i' & R & I'). rewrite R. cbn. split; auto.
    apply leads_delete with (i := i); auto.
  - unfold remove_element. rewrite E. cbn. auto using leads_refl.
Qed.
(** * Adding *)
Section P.
Context (pick : nat -> gset Z -> list Z).
Lemma keeps_common P ns : keeps P (common pick ns).
Proof.
  intros s I _. unfold common. destruct (shared s ns); cbn; auto using leads_refl.
  split; [apply tick_inv; auto|apply tick_leads].
Qed.
Lemma keeps_is_duplicate P ty ns : stable P -> keeps P (is_duplicate pick ty ns).
Proof.
  intros St. apply keeps_bind; auto; [apply keeps_common|]. intros l s I _. cbn. auto using leads_refl.
Qed.
Lemma points_closed s ns ps n : points s ns = Some ps -> n ∈ ns -> is_Some (nodes s !! n).
Proof.
  unfold points. destruct (_ && _); [|discriminate]. intros H Hn. apply mapM_Some in H.
  apply elem_of_list_lookup in Hn. destruct Hn as [k Hk].
  destruct (Forall2_lookup_l _ _ _ _ _ H Hk) as (y & _ & Hy). eauto.
Qed.
Lemma shaped_closed s ns n : shaped s ns = true -> n ∈ ns -> is_Some (nodes s !! n).
Proof. unfold shaped. destruct (points s ns) eqn:E; [|discriminate]. intros _. eapply points_closed; eauto. Qed.
Definition added (i : Z) (e : elem) (s : st) : st :=
  set_modif ({[i]} ∪ modif s) (set_idx (add_idx i (e_nodes e) (idx s)) (set_els (<[i := e]> (els s)) (set_max_el i s))).
Lemma added_inv s e : inv s -> (forall n, n ∈ e_nodes e -> is_Some (nodes s !! n)) ->
  inv (added (max_el s + 1) e s) /\ leads s (added (max_el s + 1) e s).
Proof.
  intros [A B C D] Hn. set (i := max_el s + 1). assert (Fr : els s !! i = None).
  { destruct (els s !! i) as [e'|] eqn:E; auto. apply C in E. unfold i in E. lia. }
  split; split; cbn; auto; try lia.
  - intros n j. unfold nels. cbn. rewrite add_idx_spec. change (default ∅ (idx s !! n)) with (nels s n). unfold uses. cbn.
    destruct (decide (j = i)) as [->|N].
    + setoid_rewrite lookup_insert. split.
      * intros H. exists e. split; auto. destruct (decide (n ∈ e_nodes e)); auto. exfalso. apply (A n i) in H.
        destruct H as (e' & E' & _). congruence.
      * intros (e' & [= <-] & H). rewrite decide_True by auto. set_solver.
    + setoid_rewrite lookup_insert_ne; [|auto]. change (exists e0, els s !! j = Some e0 /\ n ∈ e_nodes e0) with (uses s j n).
      rewrite <- (A n j). destruct (decide (n ∈ e_nodes e)); set_solver.
  - intros j e' n H H'. apply lookup_insert_Some in H. destruct H as [[<- <-]|[N H]]; eauto.
  - intros j e' H. apply lookup_insert_Some in H. destruct H as [[<- <-]|[N H]]; [lia|]. apply C in H. unfold i. lia.
  - set_solver.
  - intros j e' H. apply lookup_insert_Some in H. destruct H as [[<- <-]|[N H]]; auto. right. unfold i. lia.
  - intros j e' H. apply lookup_insert_Some in H. destruct H as [[<- <-]|[N H]]; [left; set_solver|]. right.
    unfold snap. cbn. rewrite lookup_insert_ne by auto. auto.
Qed.
Lemma keeps_add_element e : keeps any (add_element pick e).
Proof.
  intros s I _. unfold add_element. destruct (shaped s (e_nodes e)) eqn:Sh; [|cbn; auto using leads_refl].
  unfold bind. pose proof (keeps_is_duplicate any (e_type e) (e_nodes e) any_stable s I Logic.I) as K.
  assert (N : forall s', snd (is_duplicate pick (e_type e) (e_nodes e) s) = s' -> nodes s' = nodes s).
  { intros s' <-. unfold is_duplicate, bind, common. destruct (shared s (e_nodes e)); cbn; auto. }
  destruct (is_duplicate pick (e_type e) (e_nodes e) s) as [[[|d ds]|] s'] eqn:E; cbn in *; auto.
  destruct K as [I' L']. destruct (added_inv s' e I') as [I2 L2].
  { intros n Hn. rewrite (N _ eq_refl). eapply shaped_closed; eauto. }
  split; auto. eapply leads_trans; eauto.
Qed.
Lemma keeps_add_node p : keeps any (add_node p).
Proof.
  intros s [A B C D] _. unfold add_node. cbn.
  assert (Fr : nodes s !! (max_nd s + 1) = None).
  { destruct (nodes s !! (max_nd s + 1)) as [q|] eqn:E; auto. apply D in E. lia. }
  assert (NU : forall j, ~ uses s j (max_nd s + 1)).
  { intros j (e & E & H). destruct (B j e _ E H) as [q Q]. congruence. }
  split; split; cbn; auto; try lia.
  - intros n j. unfold nels. cbn. destruct (decide (n = max_nd s + 1)) as [->|N].
    + rewrite lookup_insert. cbn. split; [set_solver|]. intros H. exfalso. apply (NU j). exact H.
    + rewrite lookup_insert_ne by auto. apply (A n j).
  - intros i e n E H. destruct (decide (n = max_nd s + 1)) as [->|N]; [rewrite lookup_insert; eauto|].
    rewrite lookup_insert_ne by auto. eauto.
  - intros n q H. apply lookup_insert_Some in H. destruct H as [[<- _]|[N H]]; [lia|]. apply D in H. lia.
  - intros i e E. right. unfold snap. cbn. rewrite E. cbn. do 2 f_equal. apply map_ext_in. intros n Hn.
    apply elem_of_list_In in Hn. rewrite lookup_insert_ne; auto. intros <-. apply (NU i). exists e. auto.
Qed.
(** * Moving, removing a node *)
Lemma moved_inv s n p : inv s -> n <= max_nd s ->
  inv (set_modif (modif s ∪ nels s n) (set_nodes (<[n := p]> (nodes s)) s)) /\
  leads s (set_modif (modif s ∪ nels s n) (set_nodes (<[n := p]> (nodes s)) s)).
Proof.
  intros [A B C D] Hn. split; split; cbn; auto; try lia.
  - intros i e m E H. destruct (decide (m = n)) as [->|N]; [rewrite lookup_insert; eauto|]. rewrite lookup_insert_ne by auto. eauto.
  - intros m q H. apply lookup_insert_Some in H. destruct H as [[<- _]|[N H]]; eauto.
  - set_solver.
  - intros i e E. destruct (decide (n ∈ e_nodes e)) as [H|H].
    + left. apply elem_of_union_r. apply (A n i). exists e. auto.
    + right. unfold snap. cbn. rewrite E. cbn. do 2 f_equal. apply map_ext_in. intros m Hm. apply elem_of_list_In in Hm.
      rewrite lookup_insert_ne; auto. congruence.
Qed.
Lemma shapes_of_spec s X : shapes_of s X = true <-> forall i e, i ∈ X -> els s !! i = Some e -> shaped s (e_nodes e) = true.
Proof.
  unfold shapes_of. rewrite forallb_forall. split.
  - intros H i e Hi E. specialize (H i). rewrite E in H. apply H. apply elem_of_list_In, elem_of_elements. auto.
  - intros H i Hi. apply elem_of_list_In, elem_of_elements in Hi. destruct (els s !! i) eqn:E; eauto.
Qed.
Lemma points_some s ns : is_Some (points s ns) <->
  (1 <= length ns <= 4)%nat /\ forall n, n ∈ ns -> is_Some (nodes s !! n).
Proof.
  unfold points. destruct (_ && _) eqn:L.
  - apply andb_prop in L. destruct L as [L1 L2]. apply Nat.leb_le in L1. apply Nat.leb_le in L2.
    rewrite mapM_is_Some, Forall_forall. split; [intros H; split; [lia|]|intros [_ H]]; auto.
  - split; [intros [? ?]; discriminate|]. intros [H _]. exfalso. apply andb_false_iff in L.
    destruct L as [L|L]; apply Nat.leb_gt in L; lia.
Qed.
Lemma shaped_spec s ns : shaped s ns = true <-> (1 <= length ns <= 4)%nat /\ forall n, n ∈ ns -> is_Some (nodes s !! n).
Proof.
  rewrite <- points_some. unfold shaped. destruct (points s ns); split; eauto; try discriminate. intros [? ?]. discriminate.
Qed.
Lemma shapes_again s n p X : shapes_of s X = true -> shapes_of (set_nodes (<[n := p]> (nodes s)) s) X = true.
Proof.
  rewrite !shapes_of_spec. cbn. intros H i e Hi E. specialize (H i e Hi E). rewrite shaped_spec in H |- *. cbn.
  destruct H as [H1 H2]. split; auto. intros m Hm. destruct (decide (m = n)) as [->|N]; [rewrite lookup_insert; eauto|].
  rewrite lookup_insert_ne by auto. auto.
Qed.
Lemma move_node_cases s n p :
  move_node n p s = if shapes_of s (nels s n)
    then (Ok tt, set_modif (modif s ∪ nels s n) (set_nodes (<[n := p]> (nodes s)) s)) else (Raise, s).
Proof.
  unfold move_node. destruct (shapes_of s (nels s n)) eqn:E; auto.
  change (nels (set_nodes (<[n := p]> (nodes s)) s) n) with (nels s n). rewrite shapes_again by auto. auto.
Qed.
Definition known (n : Z) (s : st) : Prop := n <= max_nd s.
Lemma known_stable n : stable (known n).
Proof. intros s s' H L. pose proof (l_nd _ _ L). unfold known in *. lia. Qed.
Lemma keeps_move_node n p : keeps (known n) (move_node n p).
Proof.
  intros s I K. rewrite move_node_cases. destruct (shapes_of s (nels s n)); cbn; auto using leads_refl.
  apply moved_inv; auto.
Qed.
Lemma keeps_remove_node n : keeps any (remove_node n).
Proof.
  intros s I _. unfold remove_node. destruct (decide (nels s n = ∅)) as [E|E]; [|cbn; auto using leads_refl].
  destruct (nodes s !! n) as [p|] eqn:Hn; [|cbn; auto using leads_refl]. cbn. destruct I as [A B C D].
  assert (NU : forall j, ~ uses s j n). { intros j H. apply (A n j) in H. rewrite E in H. set_solver. }
  split; split; cbn; auto; try lia.
  - intros m j. unfold nels. cbn. destruct (decide (m = n)) as [->|N].
    + rewrite lookup_delete. cbn. split; [set_solver|]. intros H. exfalso. apply (NU j). exact H.
    + rewrite lookup_delete_ne by auto. apply (A m j).
  - intros i e m E' H. rewrite lookup_delete_ne; eauto. intros <-. apply (NU i). exists e. auto.
  - intros m q H. apply lookup_delete_Some in H. destruct H. eauto.
  - intros i e E'. right. unfold snap. cbn. rewrite E'. cbn. do 2 f_equal. apply map_ext_in. intros m Hm.
    apply elem_of_list_In in Hm. rewrite lookup_delete_ne; auto. intros <-. apply (NU i). exists e. auto.
Qed.
(** * Merging *)
Lemma keeps_if_known {A} n (m : M A) : keeps (known n) m -> keeps any (fun s => match nodes s !! n with Some _ => m s | None => (Raise, s) end).
Proof.
  intros H s I _. destruct (nodes s !! n) eqn:E; [|cbn; auto using leads_refl]. apply H; auto. eapply i_nd; eauto.
Qed.
Lemma keeps_subst rm target i : keeps any (fun s =>
     match els s !! i with
     | None => (Raise, s)
     | Some (ty, tags, ns) =>
       (remove_element i ;~ _ <~ add_element pick (ty, tags, subst rm target ns) ; ret tt) s
     end).
Proof.
  intros s I _. destruct (els s !! i) as [[[ty tags] ns]|]; [|cbn; auto using leads_refl].
  revert s I. intros s I. apply (keeps_bind any (remove_element i) (fun _ => _ <~ add_element pick (ty, tags, subst rm target ns) ; ret tt)); auto using any_stable, keeps_remove_element; [|exact Logic.I].
  intros _. apply keeps_bind; auto using any_stable, keeps_add_element, keeps_ret.
Qed.
Lemma keeps_merge_node a b : keeps any (merge_node pick a b).
Proof.
  intros s I _. unfold merge_node. destruct (Z.eqb a b); [cbn; auto using leads_refl|].
  revert s I. cut (keeps any (l <~ common pick [a; b] ;
   for_active l remove_element ;~
   (fun s => match nodes s !! a, nodes s !! b with
             | Some p, Some q => move_node b (average p q) s
             | _, _ => (Raise, s)
             end) ;~
   l <~ common pick [a] ;
   for_active l (fun i s =>
     match els s !! i with
     | None => (Raise, s)
     | Some (ty, tags, ns) =>
       (remove_element i ;~ _ <~ add_element pick (ty, tags, subst a b ns) ; ret tt) s
     end) ;~
   remove_node a)). { intros H s I. apply H; auto. exact Logic.I. }
  pose proof any_stable. apply keeps_bind; auto using keeps_common. intros l.
  apply keeps_bind; auto using keeps_for_active, keeps_remove_element. intros _.
  apply keeps_bind; auto.
  - intros s I _. destruct (nodes s !! a) as [p|]; [|cbn; auto using leads_refl].
    destruct (nodes s !! b) as [q|] eqn:E; [|cbn; auto using leads_refl]. apply keeps_move_node; auto. eapply i_nd; eauto.
  - intros _. apply keeps_bind; auto using keeps_common. intros l2.
    apply keeps_bind; auto using keeps_remove_node. apply keeps_for_active; auto. intros i. apply keeps_subst.
Qed.
(** * Start *)
Lemma make_spec es n i : i ∈ default ∅ (make_node_to_el es !! n) <-> exists e, es !! i = Some e /\ n ∈ e_nodes e.
Proof.
  unfold make_node_to_el. revert n i.
  apply (map_fold_ind (fun r m => forall n i, i ∈ default ∅ (r !! n) <-> exists e, m !! i = Some e /\ n ∈ e_nodes e)).
  - intros n i. rewrite lookup_empty. cbn. split; [set_solver|]. intros (e & E & _). rewrite lookup_empty in E. discriminate.
  - intros j e m r Hj IH n i. rewrite add_idx_spec. destruct (decide (i = j)) as [->|N].
    + setoid_rewrite lookup_insert. split.
      * intros H. exists e. split; auto. destruct (decide (n ∈ e_nodes e)); auto. apply IH in H. destruct H as (e' & E & _). congruence.
      * intros (e' & [= <-] & H). rewrite decide_True by auto. set_solver.
    + setoid_rewrite lookup_insert_ne; [|auto]. rewrite <- (IH n i). destruct (decide (n ∈ e_nodes e)); set_solver.
Qed.
Lemma max_key_spec {A} (m : gmap Z A) k : max_key m = Some k -> (forall i x, m !! i = Some x -> i <= k) /\ is_Some (m !! k).
Proof.
  unfold max_key. destruct ((map_to_list m).*1) as [|k0 l] eqn:E; [discriminate|]. intros [= <-].
  assert (X : forall i x, m !! i = Some x -> i ∈ k0 :: l).
  { intros i x H. rewrite <- E. apply elem_of_list_fmap. exists (i, x). split; auto. apply elem_of_map_to_list. auto. }
  assert (Y : forall i, i ∈ k0 :: l -> is_Some (m !! i)).
  { intros i H. rewrite <- E in H. apply elem_of_list_fmap in H. destruct H as ([i' x] & -> & H). apply elem_of_map_to_list in H. eauto. }
  clear E. split.
  - intros i x H. apply X in H. clear X Y. induction l as [|j l IH]; cbn; [set_solver by lia|].
    apply elem_of_cons in H. destruct H as [->|H].
    + assert (k0 <= foldr Z.max k0 l) by (apply IH; set_solver). lia.
    + apply elem_of_cons in H. destruct H as [->|H]; [lia|]. assert (i <= foldr Z.max k0 l) by (apply IH; set_solver). lia.
  - apply Y. clear X Y. induction l as [|j l IH]; cbn; [set_solver|].
    destruct (Z.max_spec j (foldr Z.max k0 l)) as [[_ ->]|[_ ->]]; set_solver.
Qed.
Lemma min_key_spec {A} (m : gmap Z A) k : min_key m = Some k -> (forall i x, m !! i = Some x -> k <= i) /\ is_Some (m !! k).
Proof.
  unfold min_key. destruct ((map_to_list m).*1) as [|k0 l] eqn:E; [discriminate|]. intros [= <-].
  assert (X : forall i x, m !! i = Some x -> i ∈ k0 :: l).
  { intros i x H. rewrite <- E. apply elem_of_list_fmap. exists (i, x). split; auto. apply elem_of_map_to_list. auto. }
  assert (Y : forall i, i ∈ k0 :: l -> is_Some (m !! i)).
  { intros i H. rewrite <- E in H. apply elem_of_list_fmap in H. destruct H as ([i' x] & -> & H). apply elem_of_map_to_list in H. eauto. }
  clear E. split.
  - intros i x H. apply X in H. clear X Y. induction l as [|j l IH]; cbn; [set_solver by lia|].
    apply elem_of_cons in H. destruct H as [->|H].
    + assert (foldr Z.min k0 l <= k0) by (apply IH; set_solver). lia.
    + apply elem_of_cons in H. destruct H as [->|H]; [lia|]. assert (foldr Z.min k0 l <= i) by (apply IH; set_solver). lia.
  - apply Y. clear X Y. induction l as [|j l IH]; cbn; [set_solver|].
    destruct (Z.min_spec j (foldr Z.min k0 l)) as [[_ ->]|[_ ->]]; set_solver.
Qed.
Lemma init_inv ns es tol s t : closed ns es -> init ns es tol = Some (s, t) ->
  inv s /\ nodes s = ns /\ els s = es /\ modif s = ∅.
Proof.
  unfold init. intros Cl. destruct (max_key es) as [me|] eqn:E1; [|discriminate].
  destruct (max_key ns) as [mn|] eqn:E2; [|discriminate]. destruct (min_key ns) as [mi|] eqn:E3; [|discriminate].
  intros [= <- <-]. split; auto. apply max_key_spec in E1. apply max_key_spec in E2. destruct E1 as [E1 _], E2 as [E2 _]. split; cbn; auto.
  intros n i. apply make_spec.
Qed.
End P.
