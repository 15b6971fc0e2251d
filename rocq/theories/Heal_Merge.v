(** Proofs about heal_mesh.py: merge_node; node ids. *)
From stdpp Require Import gmap.
From Coq Require Import ZArith QArith Lia.
From Verif Require Import Heal_Model Heal_Spec Heal_Proofs Heal_Loop Heal_Term Heal_Run.
Local Open Scope Z_scope.
Local Notation length := List.length.

Lemma subst_in a b ns n : n ∈ subst a b ns <-> (n ∈ ns /\ n <> a) \/ (n = b /\ a ∈ ns).
Proof.
  unfold subst. rewrite elem_of_list_In, in_map_iff. setoid_rewrite <- elem_of_list_In. split.
  - intros [m [E H]]. destruct (Z.eqb_spec m a) as [Ea|N]; subst; auto.
  - intros [[H N]|[-> H]].
    + exists n. destruct (Z.eqb_spec n a); [contradiction|auto].
    + exists a. rewrite Z.eqb_refl. auto.
Qed.
Lemma subst_nodup a b ns : NoDup ns -> b ∉ ns -> NoDup (subst a b ns).
Proof.
  intros ND H. induction ns as [|n ns IH]; [constructor|]. apply NoDup_cons in ND. destruct ND as [N1 N2].
  change (subst a b (n :: ns)) with ((if Z.eqb n a then b else n) :: subst a b ns). apply NoDup_cons. split.
  - rewrite subst_in. destruct (Z.eqb_spec n a) as [->|N].
    + intros [[Q _]|[_ Q]]; set_solver.
    + intros [[Q _]|[-> Q]]; set_solver.
  - apply IH; auto. set_solver.
Qed.
Lemma subst_length a b ns : length (subst a b ns) = length ns. Proof. apply map_length. Qed.

Section Mg.
Context (pick : nat -> gset Z -> list Z) (Fair : fair pick).

Lemma is_duplicate_ok s ty ns : inv s -> ns <> [] -> exists d, is_duplicate pick ty ns s = (Ok d, set_tick (S (tick s)) s) /\
  forall i, i ∈ d <-> exists e, els s !! i = Some e /\ e_type e = ty /\ ns ⊆ e_nodes e.
Proof.
  intros I N. unfold is_duplicate, bind. destruct (common pick ns s) as [[l|] s1] eqn:E.
  - destruct (common_ok pick Fair _ _ _ _ E) as (-> & _ & Hl). eexists. split; [reflexivity|]. intros i.
    rewrite elem_of_list_In, List.filter_In, <- elem_of_list_In, Hl. cbn.
    assert (X : forall n, i ∈ nels s n <-> uses s i n) by (intros n; apply (i_exact s I)). setoid_rewrite X. split.
    + intros [H H']. destruct (els s !! i) as [e|] eqn:Ei; [|discriminate]. apply Z.eqb_eq in H'. exists e. split; auto. split; auto.
      intros n Hn. destruct (H n Hn) as (e' & Ee & Hn'). rewrite Ei in Ee. injection Ee as <-. auto.
    + intros (e & Ei & Ty & Sub). rewrite Ei. split; [|apply Z.eqb_eq; auto]. intros n Hn. exists e. auto.
  - exfalso. unfold common in E. destruct ns; [congruence|]. discriminate.
Qed.
(** Adding an element: either it is covered or it is there with a new id. *)
Lemma add_element_cases s e : inv s -> shaped s (e_nodes e) = true ->
  (exists i e', els s !! i = Some e' /\ covers e' e /\ add_element pick e s = (Ok None, set_tick (S (tick s)) s)) \/
  ((forall i e', els s !! i = Some e' -> ~ covers e' e) /\
   add_element pick e s = (Ok (Some (max_el s + 1)), added (max_el s + 1) e (set_tick (S (tick s)) s))).
Proof.
  intros I Sh. assert (N : e_nodes e <> []). { apply shaped_spec in Sh. destruct Sh as [L _]. intros E. rewrite E in L. cbn in L. lia. }
  destruct (is_duplicate_ok s (e_type e) (e_nodes e) I N) as (d & E & H). unfold add_element. rewrite Sh. unfold bind. rewrite E.
  destruct d as [|i d].
  - right. split; [|reflexivity]. intros i e' Ei [C1 C2]. assert (i ∈ @nil Z); [|set_solver]. apply H. exists e'. auto.
  - left. assert (Hi : i ∈ i :: d) by set_solver. apply H in Hi. destruct Hi as (e' & Ei & Ty & Sub). exists i, e'. split; auto. split; [split; auto|reflexivity].
Qed.
Lemma remove_element_ok2 s i e : inv s -> els s !! i = Some e -> exists s', remove_element i s = (Ok tt, s') /\ inv s' /\
  els s' = delete i (els s) /\ nodes s' = nodes s /\ max_el s' = max_el s /\ max_nd s' = max_nd s.
Proof.
  intros I E. destruct (remove_element_ok s i e I E) as (i' & R & I'). eexists. split; [exact R|]. cbn. auto 10.
Qed.

Section Two.
Context (a b : Z).
(** Body of the second loop of merge_node. *)
Definition replace (i : Z) : M unit := fun s =>
     match els s !! i with
     | None => (Raise, s)
     | Some (ty, tags, ns) =>
       (remove_element i ;~ _ <~ add_element pick (ty, tags, subst a b ns) ; ret tt) s
     end.
Lemma replace_ok s i e : inv s -> els s !! i = Some e -> (1 <= length (e_nodes e) <= 4)%nat -> is_Some (nodes s !! b) ->
  exists s', replace i s = (Ok tt, s') /\ inv s' /\ nodes s' = nodes s /\ max_nd s' = max_nd s /\
   ((max_el s' = max_el s /\ els s' = delete i (els s) /\ exists k e', k <> i /\ els s !! k = Some e' /\ covers e' (subst_el a b e)) \/
    (max_el s' = max_el s + 1 /\ els s' = <[max_el s + 1 := subst_el a b e]> (delete i (els s)) /\
     forall k e', k <> i -> els s !! k = Some e' -> ~ covers e' (subst_el a b e))).
Proof.
  intros I E Len Hb. destruct e as [[ty tags] ns]. cbn in Len. unfold replace.
  rewrite (E : @lookup Z (Z * list Z * list Z) (gmap Z elem) _ i (els s) = Some (ty, tags, ns)).
  destruct (remove_element_ok2 s i _ I E) as (s1 & R & I1 & El & Nd & Mx & Mn). unfold bind at 1. rewrite R.
  assert (Sh : shaped s1 (e_nodes (ty, tags, subst a b ns)) = true).
  { apply shaped_spec. cbn. rewrite subst_length. split; auto. intros n Hn. rewrite Nd. apply subst_in in Hn. destruct Hn as [[Hn _]|[-> _]]; auto.
    eapply i_closed; eauto. }
  destruct (add_element_cases s1 _ I1 Sh) as [(k & e' & Ek & Cv & A)|[Nc A]].
  - unfold bind. rewrite A. eexists. split; [reflexivity|]. split; [apply tick_inv; auto|]. cbn. split; auto. split; auto. left.
    split; auto. split; auto. rewrite El in Ek. apply lookup_delete_Some in Ek. destruct Ek as [N Ek]. exists k, e'. auto.
  - unfold bind. rewrite A. eexists. split; [reflexivity|].
    destruct (added_inv (set_tick (S (tick s1)) s1) (ty, tags, subst a b ns)) as [I2 _].
    { apply tick_inv; auto. } { intros n Hn. cbn. eapply shaped_closed; eauto. }
    split; [exact I2|]. cbn. split; auto. split; auto. right. rewrite Mx, El. split; auto. split; auto. intros k e' N Ek.
    apply (Nc k e'). rewrite El, lookup_delete_ne; auto.
Qed.
Lemma replace_loop l : forall s, inv s -> NoDup l -> is_Some (nodes s !! b) ->
  (forall i, i ∈ l -> exists e, els s !! i = Some e /\ (1 <= length (e_nodes e) <= 4)%nat /\ a ∈ e_nodes e /\ b ∉ e_nodes e) ->
  exists s', for_active l replace s = (Ok tt, s') /\ inv s' /\ nodes s' = nodes s /\ max_nd s' = max_nd s /\ max_el s <= max_el s' /\
    (forall i, i <= max_el s -> i ∉ l -> els s' !! i = els s !! i) /\
    (forall i, i ∈ l -> els s' !! i = None) /\
    (forall i e', max_el s < i -> els s' !! i = Some e' ->
       (exists j e, j ∈ l /\ els s !! j = Some e /\ e' = subst_el a b e) /\
       forall k e2, k < i -> els s' !! k = Some e2 -> ~ covers e2 e') /\
    (forall j e, j ∈ l -> els s !! j = Some e -> exists k e2, els s' !! k = Some e2 /\ covers e2 (subst_el a b e)).
Proof.
  induction l as [|j l IH]; intros s I ND Hb Hl.
  - exists s. split; [reflexivity|]. split; auto. split; auto. split; auto. split; [lia|]. split; auto. split; [set_solver|]. split; [|set_solver].
    intros i e' Hi E. apply (i_el s I) in E. lia.
  - apply NoDup_cons in ND. destruct ND as [Nj ND]. destruct (Hl j) as (e & Ej & Len & Ha & Nb); [set_solver|].
    destruct (replace_ok s j e I Ej Len Hb) as (s1 & R & I1 & Nd & Mn & Cs). cbn [for_active]. rewrite Ej. unfold bind at 1. rewrite R.
    assert (Mj : j <= max_el s) by (eapply i_el; eauto).
    assert (Same : forall i, i <> j -> i <= max_el s -> els s1 !! i = els s !! i).
    { intros i N M. destruct Cs as [(_ & -> & _)|(_ & -> & _)]; [|rewrite lookup_insert_ne by lia]; apply lookup_delete_ne; auto. }
    assert (Mx : max_el s <= max_el s1 <= max_el s + 1). { destruct Cs as [(-> & _)|(-> & _)]; lia. }
    assert (Dj : els s1 !! j = None).
    { destruct Cs as [(_ & -> & _)|(_ & -> & _)]; [|rewrite lookup_insert_ne by lia]; apply lookup_delete. }
    destruct (IH s1 I1 ND) as (s' & R' & I' & Nd' & Mn' & Mx' & Q1 & Q2 & Q3 & Q4).
    { rewrite Nd. auto. }
    { intros i Hi. destruct (Hl i) as (e2 & E2 & P2); [set_solver|]. exists e2. split; auto. rewrite Same; auto; [set_solver|].
      eapply i_el; eauto. }
    assert (Ml : forall i, i ∈ l -> i <= max_el s). { intros i Hi. destruct (Hl i) as (e2 & E2 & _); [set_solver|]. eapply i_el; eauto. }
    exists s'. split; auto. split; auto. split; [congruence|]. split; [congruence|]. split; [lia|]. split; [|split; [|split]].
    + intros i Mi Hi. rewrite Q1; [apply Same; auto; set_solver|lia|set_solver].
    + intros i Hi. apply elem_of_cons in Hi. destruct Hi as [->|Hi]; auto. rewrite Q1; auto. lia.
    + intros i e' Mi E'. destruct (Z_lt_dec (max_el s1) i) as [Lt|Ge].
      * destruct (Q3 i e' Lt E') as [(k & e2 & Hk & Ek & ->) Nc]. split; auto. exists k, e2. split; [set_solver|]. split; auto.
        rewrite <- Ek. symmetry. apply Same; auto. set_solver.
      * assert (i = max_el s + 1) as -> by lia. assert (Hi : max_el s + 1 ∉ l). { intros H. apply Ml in H. lia. }
        rewrite Q1 in E' by (auto; lia). destruct Cs as [(M1 & _)|(M1 & E1 & Nc)]; [lia|]. rewrite E1, lookup_insert in E'. injection E' as <-.
        split; [exists j, e; split; [set_solver|auto]|]. intros k e2 Hk Ek. destruct (decide (k ∈ l)) as [Hkl|Hkl].
        { rewrite Q2 in Ek by auto. discriminate. }
        rewrite Q1 in Ek by (auto; lia). rewrite E1, lookup_insert_ne in Ek by lia. apply lookup_delete_Some in Ek. destruct Ek as [N Ek].
        apply (Nc k e2); auto.
    + intros k e2 Hk Ek. apply elem_of_cons in Hk. destruct Hk as [->|Hk].
      * rewrite Ej in Ek. injection Ek as <-.
        assert (exists k e2, els s1 !! k = Some e2 /\ covers e2 (subst_el a b e)) as (k & e2 & Ek & Cv).
        { destruct Cs as [(_ & -> & k & e2 & N & Ek & Cv)|(_ & -> & _)].
          - exists k, e2. rewrite lookup_delete_ne; auto.
          - exists (max_el s + 1), (subst_el a b e). rewrite lookup_insert. split; auto. split; auto. }
        exists k, e2. split; auto. rewrite Q1; auto; [eapply i_el; eauto|]. intros Hk. destruct (Hl k) as (e3 & E3 & _ & _ & Nb3); [set_solver|].
        rewrite Same in Ek; [|set_solver|auto]. rewrite E3 in Ek. injection Ek as <-. apply Nb3. apply Cv. cbn. apply subst_in. auto.
      * eapply Q4; eauto. rewrite Same; auto. set_solver.
Qed.
Lemma remove_all l : forall s, inv s -> exists s', for_active l remove_element s = (Ok tt, s') /\ inv s' /\ nodes s' = nodes s /\
  max_el s' = max_el s /\ max_nd s' = max_nd s /\ (forall i, els s' !! i = if decide (i ∈ l) then None else els s !! i).
Proof.
  induction l as [|j l IH]; intros s I; cbn [for_active].
  - exists s. split; [reflexivity|]. auto 10.
  - destruct (els s !! j) as [e|] eqn:Ej.
    + destruct (remove_element_ok2 s j e I Ej) as (s1 & R & I1 & El & Nd & Mx & Mn). unfold bind. rewrite R.
      destruct (IH s1 I1) as (s' & R' & I' & Nd' & Mx' & Mn' & H). exists s'. split; auto. split; auto. split; [congruence|]. split; [congruence|].
      split; [congruence|]. intros i. rewrite H, El. destruct (decide (i = j)) as [->|N].
      * rewrite (decide_True (P := j ∈ j :: l)) by set_solver. rewrite lookup_delete. destruct (decide _); auto.
      * rewrite lookup_delete_ne by auto. destruct (decide (i ∈ l)); [rewrite decide_True by set_solver|rewrite decide_False by set_solver]; auto.
    + destruct (IH s I) as (s' & R' & I' & Nd' & Mx' & Mn' & H). exists s'. split; auto. split; auto. split; auto. split; auto. split; auto.
      intros i. rewrite H. destruct (decide (i = j)) as [->|N].
      * rewrite (decide_True (P := j ∈ j :: l)) by set_solver. rewrite Ej. destruct (decide _); auto.
      * destruct (decide (i ∈ l)); [rewrite decide_True by set_solver|rewrite decide_False by set_solver]; auto.
Qed.
Lemma merge_node_ok s p q : inv s -> a <> b -> nodes s !! a = Some p -> nodes s !! b = Some q ->
  (forall i e, els s !! i = Some e -> (1 <= length (e_nodes e) <= 4)%nat) ->
  exists s', merge_node pick a b s = (Ok tt, s') /\ inv s' /\
    nodes s' = delete a (<[b := average p q]> (nodes s)) /\
    (forall i e, els s !! i = Some e -> els s' !! i = if decide (a ∈ e_nodes e) then None else Some e) /\
    (forall i e', els s' !! i = Some e' -> els s !! i = Some e' \/
       max_el s < i /\ (exists j e, els s !! j = Some e /\ a ∈ e_nodes e /\ b ∉ e_nodes e /\ e' = subst_el a b e) /\
       forall k e2, k < i -> els s' !! k = Some e2 -> ~ covers e2 e') /\
    (forall j e, els s !! j = Some e -> a ∈ e_nodes e -> b ∉ e_nodes e -> exists k e2, els s' !! k = Some e2 /\ covers e2 (subst_el a b e)).
Proof.
  intros I N Pa Pb Len. unfold merge_node. destruct (Z.eqb_spec a b) as [Eab|Nab]; [contradiction|].
  destruct (common pick [a; b] s) as [[l|] s1] eqn:E1; [|discriminate E1]. unfold bind at 1. rewrite E1.
  destruct (common_ok pick Fair _ _ _ _ E1) as (-> & _ & Hl).
  assert (I1 : inv (set_tick (S (tick s)) s)) by (apply tick_inv; auto).
  destruct (remove_all l _ I1) as (s2 & R2 & I2 & Nd2 & Mx2 & Mn2 & El2). cbn in Nd2, Mx2, Mn2, El2. unfold bind at 1. rewrite R2.
  unfold bind at 1. rewrite Nd2, Pa, Pb.
  assert (El2' : forall i e, els s2 !! i = Some e -> els s !! i = Some e).
  { intros i e. rewrite El2. destruct (decide _); [discriminate|auto]. }
  rewrite move_node_cases.
  assert (Sh : shapes_of s2 (nels s2 b) = true).
  { apply shapes_of_spec. intros i e _ Ei. apply shaped_spec. split; [eapply Len, El2'; eauto|]. intros n Hn. eapply i_closed; eauto. }
  rewrite Sh. destruct (moved_inv s2 b (average p q) I2) as [I3 _]. { rewrite Mn2. eapply i_nd; eauto. }
  set (s3 := set_modif _ _) in *.
  destruct (common pick [a] s3) as [[l2|] s4] eqn:E4; [|discriminate E4]. unfold bind at 1. rewrite E4.
  destruct (common_ok pick Fair _ _ _ _ E4) as (-> & ND2 & Hl2).
  assert (I4 : inv (set_tick (S (tick s3)) s3)) by (apply tick_inv; auto).
  assert (Hl3 : forall i, i ∈ l2 <-> uses s2 i a).
  { intros i. rewrite Hl2. rewrite <- (i_exact s2 I2 a i). split; intros H; [apply H; set_solver|]. intros n' Hn. assert (n' = a) as -> by set_solver. auto. }
  assert (Hl4 : forall i, i ∈ l <-> uses s i a /\ uses s i b).
  { intros i. rewrite Hl. rewrite <- (i_exact s I a i), <- (i_exact s I b i). split; [intros H; split; apply H; set_solver|].
    intros [U V] n' Hn. apply elem_of_cons in Hn. destruct Hn as [->|Hn]; auto. assert (n' = b) as -> by set_solver. auto. }
  assert (U2 : forall i e, els s !! i = Some e -> i ∈ l2 <-> a ∈ e_nodes e /\ b ∉ e_nodes e).
  { intros i e Ei. rewrite Hl3. unfold uses. rewrite El2. split.
    - intros (e' & E' & Ha). destruct (decide (i ∈ l)) as [H|H]; [discriminate|]. rewrite Ei in E'. injection E' as <-. split; auto.
      intros Hb. apply H. apply Hl4. split; exists e; auto.
    - intros [Ha Hb]. exists e. rewrite decide_False; auto. intros H. apply Hl4 in H. destruct H as [_ (e' & E' & Hb')]. congruence. }
  destruct (replace_loop l2 (set_tick (S (tick s3)) s3) I4 ND2) as (s5 & R5 & I5 & Nd5 & Mn5 & Mx5 & Q1 & Q2 & Q3 & Q4).
  { cbn. rewrite lookup_insert. eauto. }
  { cbn. intros i Hi. apply Hl3 in Hi as H. destruct H as (e & Ei & Ha). exists e. split; auto. pose proof (El2' _ _ Ei) as Es.
    split; [eauto|]. split; auto. apply (U2 i e Es); auto. }
  unfold bind at 1. change (for_active l2 _ _) with (for_active l2 replace (set_tick (S (tick s3)) s3)). rewrite R5.
  cbn in Q1, Q2, Q3, Q4, Nd5, Mx5. rewrite Mx2 in *.
  assert (NoA : forall i e, els s5 !! i = Some e -> a ∉ e_nodes e).
  { intros i e Ei Ha. destruct (Z_lt_dec (max_el s) i) as [Lt|Ge].
    - destruct (Q3 i e Lt Ei) as [(j & e' & _ & _ & ->) _]. cbn in Ha. apply subst_in in Ha. destruct Ha as [[_ Ha]|[Ha _]]; auto.
    - destruct (decide (i ∈ l2)) as [H|H]; [rewrite Q2 in Ei by auto; discriminate|]. rewrite Q1 in Ei by (auto; lia). apply H, Hl3. exists e. auto. }
  assert (Em : nels s5 a = ∅).
  { apply elem_of_equiv_empty_L. intros i Hi. apply (i_exact s5 I5) in Hi. destruct Hi as (e & Ei & Ha). eapply NoA; eauto. }
  assert (Na : nodes s5 !! a = Some p). { rewrite Nd5, lookup_insert_ne by auto. congruence. }
  assert (R6 : remove_node a s5 = (Ok tt, set_idx (delete a (idx s5)) (set_nodes (delete a (nodes s5)) s5))).
  { unfold remove_node. rewrite decide_True by auto. rewrite Na. auto. }
  rewrite R6. eexists. split; [reflexivity|].
  destruct (keeps_remove_node a s5 I5 Logic.I) as [I6 _]. rewrite R6 in I6. split; [exact I6|]. cbn.
  split; [rewrite Nd5, Nd2; auto|]. split; [|split].
  - intros i e Ei. assert (Mi : i <= max_el s) by (eapply i_el; eauto). destruct (decide (i ∈ l2)) as [H|H].
    + rewrite Q2 by auto. rewrite decide_True; auto. apply (U2 i e Ei); auto.
    + rewrite Q1 by auto. rewrite El2. destruct (decide (i ∈ l)) as [H'|H'].
      * apply Hl4 in H'. destruct H' as [(e' & E' & Ha) _]. rewrite decide_True; auto. congruence.
      * rewrite Ei. destruct (decide (a ∈ e_nodes e)) as [Ha|Ha]; auto. exfalso. apply H. apply (U2 i e Ei). split; auto.
        intros Hb. apply H', Hl4. split; exists e; auto.
  - intros i e' Ei. destruct (Z_lt_dec (max_el s) i) as [Lt|Ge].
    + right. split; auto. destruct (Q3 i e' Lt Ei) as [(j & e & Hj & Ej & ->) Nc]. split; auto. exists j, e. pose proof (El2' _ _ Ej) as Es.
      split; auto. apply (U2 j e Es) in Hj as [Ha Hb]. auto.
    + left. apply El2'. destruct (decide (i ∈ l2)) as [H|H]; [rewrite Q2 in Ei by auto; discriminate|]. rewrite Q1 in Ei by (auto; lia). auto.
  - intros j e Ej Ha Hb. assert (Hj : j ∈ l2) by (apply (U2 j e Ej); auto). apply (Q4 j e Hj). apply Hl3 in Hj. destruct Hj as (e2 & E2 & _).
    rewrite E2. apply El2' in E2. congruence.
Qed.
End Two.
Lemma merge_node_fails s a b : inv s -> (a = b \/ nodes s !! a = None \/ nodes s !! b = None) -> fst (merge_node pick a b s) = Raise.
Proof.
  intros I H. unfold merge_node. destruct (Z.eqb_spec a b) as [|N]; auto. destruct H as [H|H]; [contradiction|].
  destruct (common pick [a; b] s) as [[l|] s1] eqn:E1; [|discriminate E1]. unfold bind at 1. rewrite E1.
  destruct (common_ok pick Fair _ _ _ _ E1) as (-> & _ & Hl).
  destruct (remove_all l (set_tick (S (tick s)) s)) as (s2 & R2 & I2 & Nd2 & _). { apply tick_inv; auto. }
  cbn in Nd2. unfold bind at 1. rewrite R2. unfold bind at 1. rewrite Nd2. destruct H as [H|H]; rewrite H; auto.
  destruct (nodes s !! a); auto.
Qed.
End Mg.
