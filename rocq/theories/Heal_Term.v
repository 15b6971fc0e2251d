(** Proofs about heal_mesh.py: the loop of heal_mesh stops; what is checked. *)
From stdpp Require Import gmap.
From Coq Require Import ZArith QArith Lia.
From Verif Require Import Heal_Model Heal_Spec Heal_Proofs Heal_Loop.
Local Open Scope Z_scope.
Local Notation length := List.length.

Lemma bind_ok {A B} (m : M A) (f : A -> M B) s b s' : bind m f s = (Ok b, s') ->
  exists a s1, m s = (Ok a, s1) /\ f a s1 = (Ok b, s').
Proof. unfold bind. destruct (m s) as [[a|] s1]; [eauto|discriminate]. Qed.
Lemma keeps_ok {A} P (m : M A) s a s' : keeps P m -> inv s -> P s -> m s = (Ok a, s') -> inv s' /\ leads s s'.
Proof. intros K I HP E. specialize (K s I HP). rewrite E in K. exact K. Qed.
Lemma stays_dead X s s' i : i <= max_el s -> els s !! i = None -> tells X s s' -> els s' !! i = None.
Proof.
  intros H N L. destruct (els s' !! i) as [e|] eqn:E; auto. destruct (t_ids _ _ _ L i e E); [congruence|lia].
Qed.
Lemma shared_spec s ns X i : shared s ns = Some X -> i ∈ X <-> forall n, n ∈ ns -> i ∈ nels s n.
Proof.
  destruct ns as [|n ns]; [discriminate|]. cbn. intros [= <-]. revert i. induction ns as [|m ns IH]; intros i; cbn.
  - set_solver.
  - rewrite elem_of_intersection, IH. set_solver.
Qed.

Section T.
Context (pick : nat -> gset Z -> list Z) (Fair : fair pick) (G : geo).

Lemma common_ok s ns l s' : common pick ns s = (Ok l, s') ->
  s' = set_tick (S (tick s)) s /\ NoDup l /\ forall i, i ∈ l <-> forall n, n ∈ ns -> i ∈ nels s n.
Proof.
  unfold common. destruct (shared s ns) as [X|] eqn:E; [|discriminate]. intros [= <- <-]. split; auto. split; [apply Fair|].
  intros i. rewrite (pick_spec pick Fair). eapply shared_spec; eauto.
Qed.
(** * Elements that go away *)
Lemma remove_element_gone s i s' : inv s -> remove_element i s = (Ok tt, s') ->
  els s' = delete i (els s) /\ is_Some (els s !! i) /\ nodes s' = nodes s /\ modif s' = modif s /\ max_el s' = max_el s /\ max_nd s' = max_nd s.
Proof.
  intros I E. destruct (els s !! i) as [e|] eqn:H; [|unfold remove_element in E; rewrite H in E; discriminate].
  destruct (remove_element_ok s i e I H) as (i' & R & _). rewrite R in E. injection E as <-. cbn. eauto 10.
Qed.
Lemma for_active_remove l : forall s s' i, inv s -> for_active l remove_element s = (Ok tt, s') -> i ∈ l -> i <= max_el s -> els s' !! i = None.
Proof.
  induction l as [|j l IH]; intros s s' i I E Hi M; cbn [for_active] in E; [set_solver|].
  destruct (els s !! j) as [e|] eqn:Ej.
  - apply bind_ok in E. destruct E as ([] & s1 & E1 & E2). pose proof (remove_element_gone s j s1 I E1) as (D & _ & _ & _ & M1 & _).
    destruct (keeps_ok any _ _ _ _ (keeps_remove_element j) I Logic.I E1) as [I1 L1].
    destruct (decide (i = j)) as [->|N].
    + pose proof (keeps_for_active any l remove_element any_stable keeps_remove_element) as K.
      destruct (keeps_ok any _ _ _ _ K I1 Logic.I E2) as [I2 L2]. apply leads_tells in L2.
      eapply (stays_dead ∅ s1); eauto; [lia|]. rewrite D. apply lookup_delete.
    + eapply IH; eauto; [set_solver|lia].
  - destruct (decide (i = j)) as [->|N].
    + pose proof (keeps_for_active any l remove_element any_stable keeps_remove_element) as K.
      destruct (keeps_ok any _ _ _ _ K I Logic.I E) as [I2 L2]. apply leads_tells in L2. eapply (stays_dead ∅ s); eauto.
    + eapply IH; eauto. set_solver.
Qed.
Lemma merge_gone s a b s' i : inv s -> uses s i a -> uses s i b -> merge_node pick a b s = (Ok tt, s') -> els s' !! i = None.
Proof.
  intros I Ua Ub E. assert (M : i <= max_el s) by (destruct Ua as (e & H & _); eapply i_el; eauto).
  pose proof (keeps_ok any _ _ _ _ (keeps_merge_node pick a b) I Logic.I E) as [If Lf].
  unfold merge_node in E. destruct (Z.eqb a b); [discriminate|].
  apply bind_ok in E. destruct E as (l & s1 & E1 & E). destruct (common_ok _ _ _ _ E1) as (-> & _ & Hl).
  assert (I1 : inv (set_tick (S (tick s)) s)) by (apply tick_inv; auto).
  apply bind_ok in E. destruct E as ([] & s2 & E2 & E).
  assert (D : els s2 !! i = None).
  { eapply (for_active_remove l); eauto. apply Hl. intros n Hn. apply (i_exact s I). set_solver. }
  pose proof (keeps_for_active any l remove_element any_stable keeps_remove_element) as K.
  destruct (keeps_ok any _ _ _ _ K I1 Logic.I E2) as [I2 L2].
  assert (M2 : i <= max_el s2) by (pose proof (l_max _ _ L2); cbn in *; lia).
  revert E. match goal with |- ?m s2 = _ -> _ => assert (K2 : keeps any m) end.
  { pose proof any_stable. apply keeps_bind; auto.
    - intros t It _. destruct (nodes t !! a) as [p|]; [|cbn; auto using leads_refl].
      destruct (nodes t !! b) as [q|] eqn:Eb; [|cbn; auto using leads_refl]. apply keeps_move_node; auto. eapply i_nd; eauto.
    - intros _. apply keeps_bind; auto using keeps_common. intros l2.
      apply keeps_bind; auto using keeps_remove_node. apply keeps_for_active; auto. intros j. apply keeps_subst. }
  intros E. destruct (keeps_ok any _ _ _ _ K2 I2 Logic.I E) as [I3 L3]. apply leads_tells in L3. eapply stays_dead; eauto.
Qed.
(** * Nothing recorded stays unreported *)
Definition cleans (m : M (list Z)) : Prop := forall s l s', modif s = ∅ -> m s = (Ok l, s') -> modif s' = ∅.
(** The recorded elements are untouched. *)
Definition silent {A} (m : M A) : Prop := forall s, modif (snd (m s)) = modif s.
Lemma silent_bind {A B} (m : M A) (f : A -> M B) : silent m -> (forall a, silent (f a)) -> silent (bind m f).
Proof. intros Hm Hf s. unfold bind. specialize (Hm s). destruct (m s) as [[a|] s1]; cbn in *; auto. rewrite Hf. auto. Qed.
Lemma silent_cleans m : silent m -> cleans m.
Proof. intros H s l s' E R. specialize (H s). rewrite R in H. cbn in H. congruence. Qed.
Lemma silent_ret {A} (a : A) : silent (ret a). Proof. intros s. auto. Qed.
Lemma silent_raise {A} : silent (@raise A). Proof. intros s. auto. Qed.
Lemma silent_drop i ns : silent (drop_idx i ns).
Proof.
  induction ns as [|n ns IH]; [apply silent_ret|]. intros s. cbn [drop_idx]. destruct (decide _); auto. rewrite IH. auto.
Qed.
Lemma silent_remove i : silent (remove_element i).
Proof.
  intros s. unfold remove_element. destruct (els s !! i); auto.
  apply (silent_bind (drop_idx i (remove_dups (e_nodes e))) (fun _ s => (Ok tt, set_els (delete i (els s)) s))); [apply silent_drop|intros _ t; auto].
Qed.
Lemma silent_common ns : silent (common pick ns).
Proof. intros s. unfold common. destruct (shared s ns); auto. Qed.
Lemma silent_for_each {A} (l : list A) f : (forall a, silent (f a)) -> silent (for_each l f).
Proof. intros H. induction l; cbn [for_each]; [apply silent_ret|]. apply silent_bind; auto. Qed.
Lemma silent_for_active l f : (forall a, silent (f a)) -> silent (for_active l f).
Proof.
  intros H. induction l as [|i l IH]; cbn [for_active]; [apply silent_ret|]. intros s. destruct (els s !! i); [|apply IH].
  apply (silent_bind (f i) (fun _ => for_active l f)); auto.
Qed.
Lemma cleans_after {A} (m : M A) : cleans (m ;~ reset_modified pick).
Proof. intros s l s' _ E. apply bind_ok in E. destruct E as (a & s1 & _ & E). injection E as <- <-. auto. Qed.
Lemma cleans_bind {A} (m : M A) f : silent m -> (forall a, cleans (f a)) -> cleans (bind m f).
Proof.
  intros Hm Hf s l s' E R. apply bind_ok in R. destruct R as (a & s1 & R1 & R2). eapply Hf; [|exact R2].
  specialize (Hm s). rewrite R1 in Hm. cbn in Hm. congruence.
Qed.
Lemma cleans_tail {A} (m : M A) f : (forall a, cleans (f a) /\ forall s l s', f a s = (Ok l, s') -> modif s' = ∅) -> cleans (bind m f).
Proof. intros H s l s' _ R. apply bind_ok in R. destruct R as (a & s1 & R1 & R2). destruct (H a). eauto. Qed.
(** Whatever it did before, the records are empty at the end. *)
Definition empties (m : M (list Z)) : Prop := forall s l s', m s = (Ok l, s') -> modif s' = ∅.
Lemma empties_cleans m : empties m -> cleans m. Proof. intros H s l s' _. apply H. Qed.
Lemma empties_bind {A} (m : M A) f : (forall a, empties (f a)) -> empties (bind m f).
Proof. intros H s l s' R. apply bind_ok in R. destruct R as (a & s1 & R1 & R2). eapply H; eauto. Qed.
Lemma empties_reset : empties (reset_modified pick).
Proof. intros s l s' [= <- <-]. auto. Qed.
Lemma empties_raise : empties raise. Proof. intros s l s' R. discriminate. Qed.
Lemma cleans_or_else m f : cleans m -> cleans f -> cleans (or_else m f).
Proof.
  intros Hm Hf s l s' E R. apply bind_ok in R. destruct R as (l1 & s1 & R1 & R2). pose proof (Hm _ _ _ E R1) as E1.
  destruct l1; [eauto|]. injection R2 as <- <-. auto.
Qed.
Lemma cleans_here {A} (f : A -> M (list Z)) g : (forall a, cleans (f a)) -> cleans (fun s => f (g s) s).
Proof. intros H s l s'. apply H. Qed.
Lemma cleans_dupl x : cleans (check_dupl_nodes pick x).
Proof.
  apply silent_cleans. unfold check_dupl_nodes. destruct (List.find _ _) as [e|]; [|apply silent_ret].
  destruct (ends _ _) as [[a b]|]; [|apply silent_raise]. apply silent_bind; [apply silent_remove|]. intros _.
  apply silent_bind; [apply silent_common|]. intros l s. auto.
Qed.
Lemma cleans_degen x : cleans (check_degen_nodes pick G x).
Proof.
  unfold check_degen_nodes. destruct (_ =? _)%nat; [apply silent_cleans, silent_ret|]. apply empties_cleans.
  intros s l s' R. apply bind_ok in R. destruct R as (a & s1 & _ & R). eapply empties_reset; eauto.
Qed.
Lemma cleans_duplicate x : cleans (check_duplicate pick x).
Proof.
  apply silent_cleans. unfold check_duplicate, is_duplicate. apply silent_bind.
  - apply silent_bind; [apply silent_common|]. intros l s. auto.
  - intros d. destruct (_ <? _)%nat; [|apply silent_ret]. apply silent_bind; [|intros _; apply silent_ret].
    apply silent_for_each. intros i. destruct (Z.eqb _ _); [apply silent_ret|apply silent_remove].
Qed.
Lemma cleans_flat_triangle x : cleans (check_flat_triangle pick G x).
Proof.
  intros s l s' E. unfold check_flat_triangle. destruct (_ <? _)%nat; [intros [= <- <-]; auto|].
  destruct (if (length (l_nodes x) =? 4)%nat then _ else _) as [tria|]; [|discriminate]. revert E.
  match goal with |- _ -> ?m s = _ -> _ => assert (R : cleans m); [|apply R] end.
  apply cleans_bind; [apply silent_common|]. intros a.
  apply cleans_bind; [apply silent_for_active; intros; apply silent_remove|]. intros _.
  destruct (g_proj G _ _) as [[q|]|]; [|apply silent_cleans, silent_ret|apply silent_cleans, silent_raise].
  apply empties_cleans. destruct (tria !! _) as [np|] eqn:Np; [|apply empties_raise].
  destruct (edges_of 3 !! _) as [e|]; [|apply empties_raise].
  destruct (ends _ _) as [[u v]|]; [|apply empties_raise].
  repeat (apply empties_bind; intros ?). apply empties_reset.
Qed.
Lemma cleans_flat_tetra x : cleans (check_flat_tetra pick G x).
Proof.
  intros s l s' E. unfold check_flat_tetra. destruct (negb _); [intros [= <- <-]; auto|].
  destruct (g_flat G _ _) as [[[[signs flat] isec]|]|]; [|intros [= <- <-]; auto|discriminate].
  assert (T : forall o, empties (tria_flat pick x flat o)).
  { intros o. unfold tria_flat. destruct (l_nodes x !! _); [|apply empties_raise].
    destruct (vtxs_faces !! o ≫= _); [|apply empties_raise]. repeat (apply empties_bind; intros ?). apply empties_reset. }
  destruct (length (List.filter _ signs)) as [|[|[|[|n]]]]; try discriminate; try (solve [apply empties_cleans, E; apply T]).
  apply empties_cleans; auto. unfold quad_flat. repeat (apply empties_bind; intros ?). apply empties_reset.
Qed.
Lemma cleans_check i : cleans (check_ele pick G i).
Proof.
  intros s l s' E. destruct (els s !! i) as [e|] eqn:Ei.
  - destruct (points s (e_nodes e)) as [ps|] eqn:Ps.
    + rewrite (check_ele_unfold pick G i s e ps Ei Ps). set (x := Ele _ _ _ _). revert E. revert s Ei Ps. intros s _ _.
      match goal with |- _ -> ?m s = _ -> _ => assert (R : cleans m); [|apply R] end.
      repeat apply cleans_or_else; auto using cleans_dupl, cleans_degen, cleans_duplicate.
      intros t l' t' Et. destruct (_ <? _)%nat; [intros [= <- <-]; auto|].
      destruct (g_good _ _ _) as [[]|]; [intros [= <- <-]; auto| |discriminate]. revert Et.
      match goal with |- _ -> ?m t = _ -> _ => assert (R : cleans m); [|apply R] end.
      repeat apply cleans_or_else; auto using cleans_flat_tetra, cleans_flat_triangle.
      apply empties_cleans. intros u lu u' Ru. apply bind_ok in Ru. destruct Ru as (a & s1 & _ & R). eapply empties_reset; eauto.
    + unfold check_ele. rewrite Ei. unfold bind, make_ele. rewrite Ei, Ps. discriminate.
  - unfold check_ele. rewrite Ei. intros [= <- <-]. auto.
Qed.
(** * What a check achieves *)
Definition live (x : ele) (s : st) : Prop := exists tags, els s !! l_id x = Some (l_type x, tags, l_nodes x).
(** Nothing but the records has changed. *)
Definition calm (l : list Z) (s s' : st) : Prop :=
  els s' = els s /\ nodes s' = nodes s /\ max_el s' = max_el s /\
  ((modif s' = modif s /\ l = []) \/ (modif s' = ∅ /\ exists k, l = pick k (modif s))).
Definition settles (x : ele) (m : M (list Z)) : Prop :=
  forall s l s', inv s -> live x s -> knows (l_nodes x) s -> m s = (Ok l, s') ->
    (progress s s' /\ (els s' !! l_id x = None \/ l_id x ∈ l)) \/ calm l s s'.
Lemma live_max x s : inv s -> live x s -> l_id x <= max_el s.
Proof. intros I [t H]. eapply i_el; eauto. Qed.
Lemma settles_or_else x m f : settles x m -> settles x f -> reports (knows (l_nodes x)) m -> reports (knows (l_nodes x)) f ->
  settles x (or_else m f).
Proof.
  intros Hm Hf Rm Rf s l s' I Lv K R. apply bind_ok in R. destruct R as (l1 & s1 & R1 & R2).
  pose proof (Rm s I K) as T1. rewrite R1 in T1. destruct T1 as [I1 T1].
  destruct l1 as [|i l1].
  - assert (K1 : knows (l_nodes x) s1). { intros n Hn. specialize (K n Hn). pose proof (t_nd _ _ _ T1). lia. }
    pose proof (Rf s1 I1 K1) as T2. rewrite R2 in T2. destruct T2 as [I2 T2].
    destruct (Hm _ _ _ I Lv K R1) as [[P [D|D]]|C].
    + left. split.
      * apply (progress_then (list_to_set l) s s1 s'); auto. apply (t_max _ _ _ T1).
      * left. eapply stays_dead; [|exact D|exact T2]. pose proof (live_max x s I Lv). pose proof (t_max _ _ _ T1). lia.
    + set_solver.
    + destruct C as (C1 & C2 & C3 & C4).
      assert (C5 : modif s1 = modif s).
      { destruct C4 as [[C4 _]|[C4 [k C5]]]; auto. rewrite C4. symmetry in C5 |- *. apply elem_of_equiv_empty_L. intros j Hj.
        apply (pick_spec pick Fair k) in Hj. rewrite C5 in Hj. set_solver. }
      assert (L1 : live x s1). { destruct Lv as [t H]. exists t. congruence. }
      destruct (Hf _ _ _ I1 L1 K1 R2) as [[P D]|C].
      * left. split; auto. unfold progress in *. rewrite <- C1, <- C3. auto.
      * right. destruct C as (D1 & D2 & D3 & D4). rewrite C1, C2, C3, C5 in *. split; [|split; [|split]]; auto.
  - injection R2 as <- <-. eauto.
Qed.
Lemma gone_settles x s l s' : inv s -> live x s -> inv s' -> tells (list_to_set l) s s' -> els s' !! l_id x = None ->
  (progress s s' /\ (els s' !! l_id x = None \/ l_id x ∈ l)) \/ calm l s s'.
Proof. intros I [t H] I' T D. left. split; auto. eapply progress_gone; eauto. Qed.
Lemma reports_ok P m s l s' : reports P m -> inv s -> P s -> m s = (Ok l, s') -> inv s' /\ tells (list_to_set l) s s'.
Proof. intros K I HP E. specialize (K s I HP). rewrite E in K. exact K. Qed.
Lemma leads_max s s' i : leads s s' -> i <= max_el s -> i <= max_el s'.
Proof. intros [L _ _ _ _]. lia. Qed.
Lemma settles_gone x m : reports (knows (l_nodes x)) m ->
  (forall s l s', inv s -> live x s -> knows (l_nodes x) s -> m s = (Ok l, s') -> els s' !! l_id x = None) -> settles x m.
Proof.
  intros R H s l s' I Lv K E. destruct (reports_ok _ _ _ _ _ R I K E) as [I' T]. eapply gone_settles; eauto.
Qed.
Lemma dead_keeps {A} P (m : M A) s a s' i : keeps P m -> inv s -> P s -> m s = (Ok a, s') -> i <= max_el s -> els s !! i = None ->
  inv s' /\ els s' !! i = None /\ i <= max_el s'.
Proof.
  intros K I HP E M D. destruct (keeps_ok P m s a s' K I HP E) as [I' L]. split; auto.
  split; [|eapply leads_max; eauto]. apply leads_tells in L. eapply stays_dead; eauto.
Qed.
Lemma remove_dead s i s' : inv s -> remove_element i s = (Ok tt, s') -> inv s' /\ els s' !! i = None /\ i <= max_el s'.
Proof.
  intros I E. destruct (remove_element_gone s i s' I E) as (A & [e B] & _ & _ & M & _).
  destruct (keeps_ok any _ _ _ _ (keeps_remove_element i) I Logic.I E) as [I' _]. split; auto. split.
  - rewrite A. apply lookup_delete.
  - rewrite M. eapply i_el; eauto.
Qed.
Lemma settles_ret x : settles x (ret []).
Proof. intros s l s' _ _ _ [= <- <-]. right. unfold calm. auto 10. Qed.
Lemma settles_dupl x : settles x (check_dupl_nodes pick x).
Proof.
  unfold check_dupl_nodes. destruct (List.find _ _) as [e|] eqn:F; [|apply settles_ret].
  apply settles_gone.
  { pose proof (reports_dupl_nodes pick Fair (knows (l_nodes x)) x) as R. unfold check_dupl_nodes in R. rewrite F in R. exact R. }
  intros s l s' I Lv K E. destruct (ends _ _) as [[a b]|]; [|discriminate].
  apply bind_ok in E. destruct E as ([] & s1 & E1 & E). destruct (remove_dead _ _ _ I E1) as (I1 & D1 & M1).
  apply bind_ok in E. destruct E as (l1 & s2 & E2 & E). destruct (common_ok _ _ _ _ E2) as (-> & _). injection E as <- <-. exact D1.
Qed.
Lemma ends_in ns e a b : ends ns e = Some (a, b) -> a ∈ ns /\ b ∈ ns.
Proof.
  unfold ends. destruct (ns !! fst e) eqn:A; [|discriminate]. destruct (ns !! snd e) eqn:B; [|discriminate].
  intros [= <- <-]. eauto using elem_of_list_lookup_2.
Qed.
Lemma merge_edge_gone x i s s' : inv s -> live x s -> merge_edge pick x i s = (Ok tt, s') -> els s' !! l_id x = None.
Proof.
  intros I [t H]. unfold merge_edge. destruct (_ !! i) as [e|]; [|discriminate]. destruct (ends _ _) as [[a b]|] eqn:E; [|discriminate].
  apply ends_in in E. destruct E as [Ha Hb]. apply merge_gone; auto; eexists; split; eauto.
Qed.
Lemma settles_degen x : settles x (check_degen_nodes pick G x).
Proof.
  intros s l s' I Lv K E. pose proof (reports_ok _ _ _ _ _ (reports_degen pick Fair G (knows (l_nodes x)) x (knows_stable _)) I K E) as [I' T].
  unfold check_degen_nodes in E. destruct (_ =? _)%nat; [apply (settles_ret x _ _ _ I Lv K E)|].
  apply bind_ok in E. destruct E as ([] & s1 & E1 & E). destruct (g_short _ _ _) as [i|].
  - pose proof (merge_edge_gone _ _ _ _ I Lv E1) as D. injection E as <- <-. eapply gone_settles; eauto.
  - injection E1 as <-. injection E as <- <-. right. split; [|split; [|split]]; auto. right. split; auto. eexists. reflexivity.
Qed.
Lemma filter_nodup {A} (f : A -> bool) l : NoDup l -> NoDup (List.filter f l).
Proof.
  intros H. apply NoDup_ListNoDup. apply NoDup_ListNoDup in H. apply List.NoDup_filter. auto.
Qed.
Lemma settles_duplicate x : settles x (check_duplicate pick x).
Proof.
  intros s l s' I Lv K E. pose proof (reports_ok _ _ _ _ _ (reports_duplicate pick Fair (knows (l_nodes x)) x (knows_stable _)) I K E) as [I' T].
  unfold check_duplicate in E. apply bind_ok in E. destruct E as (d & s1 & E1 & E).
  unfold is_duplicate in E1. apply bind_ok in E1. destruct E1 as (d0 & s2 & E0 & E1). destruct (common_ok _ _ _ _ E0) as (-> & ND & Hd).
  injection E1 as Hd1 <-. destruct (1 <? length d)%nat eqn:Len.
  - apply bind_ok in E. destruct E as ([] & s3 & E2 & E). injection E as <- <-. left. split; [|right; set_solver].
    apply Nat.ltb_lt in Len. assert (NDd : NoDup d) by (subst d; apply filter_nodup; auto).
    assert (exists j, j ∈ d /\ j <> l_id x) as (j & Hj & Nj).
    { destruct d as [|u [|v d]]; cbn in Len; try lia. apply NoDup_cons in NDd. destruct NDd as [N1 _].
      destruct (decide (u = l_id x)) as [->|]; [exists v|exists u]; split; set_solver. }
    assert (Lj : is_Some (els s !! j)).
    { subst d. apply elem_of_list_In, List.filter_In in Hj. destruct Hj as [_ Hj]. cbn in Hj. destruct (els s !! j); [eauto|discriminate]. }
    destruct Lj as [e Ej]. eapply progress_gone; eauto.
    assert (I1 : inv (set_tick (S (tick s)) s)) by (apply tick_inv; auto).
    assert (Mj : j <= max_el (set_tick (S (tick s)) s)) by (cbn; eapply i_el; eauto).
    clear - Hj Nj I1 Mj E2. revert I1 Mj E2 Hj. generalize (set_tick (S (tick s)) s). induction d as [|u d IH]; intros t It Mj E Hj; [set_solver|].
    cbn [for_each] in E. apply bind_ok in E. destruct E as ([] & t1 & E1 & E2). destruct (decide (j = u)) as [<-|N].
    + destruct (Z.eqb_spec j (l_id x)); [congruence|]. destruct (remove_dead _ _ _ It E1) as (I1 & D & M).
      eapply (dead_keeps any); [|exact I1|exact Logic.I|exact E2| |]; auto.
      apply keeps_for_each; [apply any_stable|]. intros a _. destruct (Z.eqb _ _); [apply keeps_ret|apply keeps_remove_element].
    + apply (IH t1); auto; [| |set_solver].
      * destruct (Z.eqb u (l_id x)); [injection E1 as <-; auto|]. apply (remove_dead _ _ _ It E1).
      * destruct (Z.eqb u (l_id x)); [injection E1 as <-; auto|]. destruct (remove_element_gone _ _ _ It E1) as (_ & _ & _ & _ & -> & _). auto.
  - injection E as <- <-. right. unfold calm. cbn. auto 10.
Qed.
Lemma settles_flat_triangle x : settles x (check_flat_triangle pick G x).
Proof.
  intros s l s' I Lv K E. pose proof (reports_ok _ _ _ _ _ (reports_flat_triangle pick Fair G x) I K E) as [I' T].
  unfold check_flat_triangle in E. destruct (_ <? _)%nat; [apply (settles_ret x _ _ _ I Lv K E)|].
  destruct (if (length (l_nodes x) =? 4)%nat then _ else _) as [tria|] eqn:F; [|discriminate].
  assert (Kt : forall n, n ∈ tria -> n ∈ l_nodes x).
  { destruct (length (l_nodes x) =? 4)%nat.
    - destruct (vtxs_faces !! _) as [f|]; [|discriminate]. intros n Hn. eapply mapM_nodes; eauto.
    - injection F as <-. auto. }
  eapply gone_settles; eauto.
  apply bind_ok in E. destruct E as (l1 & s1 & E1 & E). destruct (common_ok _ _ _ _ E1) as (-> & _ & Hl).
  assert (I1 : inv (set_tick (S (tick s)) s)) by (apply tick_inv; auto).
  apply bind_ok in E. destruct E as ([] & s2 & E2 & E).
  assert (Mx : l_id x <= max_el s) by (apply live_max; auto).
  assert (D : els s2 !! l_id x = None).
  { eapply (for_active_remove l1); eauto. apply Hl. intros n Hn. apply (i_exact s I). destruct Lv as [t Lv]. eexists. split; [exact Lv|].
    cbn. auto. }
  pose proof (keeps_for_active any l1 remove_element any_stable keeps_remove_element) as K1.
  destruct (keeps_ok any _ _ _ _ K1 I1 Logic.I E2) as [I2 L2].
  assert (M2 : l_id x <= max_el s2) by (pose proof (l_max _ _ L2); cbn in *; lia).
  clear T I' E1 E2.
  destruct (g_proj G _ _) as [[q|]|]; [|injection E as <- <-; auto|discriminate].
  destruct (tria !! _) as [np|] eqn:Np; [|discriminate]. destruct (edges_of 3 !! _) as [e|]; [|discriminate].
  destruct (ends _ _) as [[a b]|]; [|discriminate].
  apply bind_ok in E. destruct E as ([] & s3 & E3 & E).
  assert (Kn : known np s2).
  { unfold known. pose proof (l_nd _ _ L2). cbn in H. apply elem_of_list_lookup_2 in Np. specialize (K np (Kt _ Np)). lia. }
  destruct (dead_keeps (known np) _ _ _ _ (l_id x) (keeps_move_node np q) I2 Kn E3 M2 D) as (I3 & D3 & M3).
  apply bind_ok in E. destruct E as (l4 & s4 & E4 & E). destruct (common_ok _ _ _ _ E4) as (-> & _).
  apply bind_ok in E. destruct E as ([] & s5 & E5 & E). injection E as <- <-. cbn.
  eapply (dead_keeps any) with (4 := E5); auto; [|apply tick_inv; auto|exact Logic.I].
  apply keeps_for_active; [apply any_stable|]. intros i. apply keeps_split_el.
Qed.
Lemma settles_quad x flat isec pe ne : settles x (quad_flat pick x flat isec pe ne).
Proof.
  apply settles_gone; [apply reports_quad_flat; auto|]. intros s l s' I Lv K E.
  apply bind_ok in E. destruct E as ([] & s1 & E1 & E).
  destruct (keeps_ok _ _ _ _ _ (keeps_move_all (l_nodes x) flat) I K E1) as [I1 _].
  apply bind_ok in E. destruct E as ([] & s2 & E2 & E). destruct (remove_dead _ _ _ I1 E2) as (I2 & D2 & M2).
  apply bind_ok in E. destruct E as (n & s3 & E3 & E).
  destruct (dead_keeps any _ _ _ _ (l_id x) (keeps_add_node isec) I2 Logic.I E3) as (I3 & D3 & M3); auto.
  apply bind_ok in E. destruct E as ([] & s4 & E4 & E). injection E as <- <-. cbn.
  eapply (dead_keeps any) with (4 := E4); auto; [|exact Logic.I].
  apply keeps_for_each; [apply any_stable|]. intros cf _.
  destruct (mapM _ cf) as [[|a [|b r]]|]; try apply keeps_raise. apply keeps_bind; auto using keeps_common, any_stable.
  intros l. apply keeps_for_active; [apply any_stable|]. intros i. apply keeps_split_el.
Qed.
Lemma settles_tria x flat outer : settles x (tria_flat pick x flat outer).
Proof.
  apply settles_gone; [apply reports_tria_flat; auto|]. intros s l s' I Lv K E. unfold tria_flat in E.
  destruct (l_nodes x !! _) as [inner|]; [|discriminate]. destruct (vtxs_faces !! outer ≫= _) as [vs|]; [|discriminate].
  apply bind_ok in E. destruct E as ([] & s1 & E1 & E).
  destruct (keeps_ok _ _ _ _ _ (keeps_move_all (l_nodes x) flat) I K E1) as [I1 _].
  apply bind_ok in E. destruct E as ([] & s2 & E2 & E). destruct (remove_dead _ _ _ I1 E2) as (I2 & D2 & M2).
  apply bind_ok in E. destruct E as (l4 & s4 & E4 & E). destruct (common_ok _ _ _ _ E4) as (-> & _).
  apply bind_ok in E. destruct E as ([] & s5 & E5 & E). injection E as <- <-. cbn.
  eapply (dead_keeps any) with (4 := E5); auto; [|apply tick_inv; auto|exact Logic.I].
  apply keeps_for_active; [apply any_stable|]. intros i. apply keeps_split_el.
Qed.
Lemma settles_flat_tetra x : settles x (check_flat_tetra pick G x).
Proof.
  intros s l s' I Lv K E. unfold check_flat_tetra in E. destruct (negb _); [apply (settles_ret x _ _ _ I Lv K E)|].
  destruct (g_flat G _ _) as [[[[signs flat] isec]|]|]; [|apply (settles_ret x _ _ _ I Lv K E)|discriminate].
  destruct (length (List.filter _ signs)) as [|[|[|[|n]]]]; try discriminate.
  - eapply settles_tria; eauto.
  - eapply settles_quad; eauto.
  - eapply settles_tria; eauto.
Qed.
Lemma settles_small x : settles x (check_small_edge pick G x).
Proof.
  apply settles_gone; [apply reports_small_edge; auto using knows_stable|]. intros s l s' I Lv K E.
  apply bind_ok in E. destruct E as ([] & s1 & E1 & E). injection E as <- <-. cbn. eapply merge_edge_gone; eauto.
Qed.
Lemma check_settles i s l s' : inv s -> check_ele pick G i s = (Ok l, s') ->
  (progress s s' /\ (els s' !! i = None \/ i ∈ l)) \/ calm l s s'.
Proof.
  intros I E. destruct (els s !! i) as [e|] eqn:Ei.
  - destruct (points s (e_nodes e)) as [ps|] eqn:Ps.
    + rewrite (check_ele_unfold pick G i s e ps Ei Ps) in E. pose proof (points_knows s i e ps I Ps) as K.
      set (x := Ele i (e_type e) (e_nodes e) ps) in *. pose proof (knows_stable (l_nodes x)) as St.
      assert (Lv : live x s). { exists (e_tags e). etransitivity; [exact Ei|]. destruct e as [[? ?] ?]. reflexivity. }
      revert I Lv K E. change i with (l_id x). match goal with |- _ -> _ -> _ -> ?m s = _ -> _ => assert (R : settles x m); [|apply R] end.
      apply settles_or_else; auto using settles_dupl, reports_dupl_nodes.
      2: apply reports_or_else; auto using reports_degen; apply reports_or_else; auto using reports_duplicate, reports_rest.
      apply settles_or_else; auto using settles_degen, reports_degen.
      2: apply reports_or_else; auto using reports_duplicate, reports_rest.
      apply settles_or_else; auto using settles_duplicate, reports_duplicate, reports_rest.
      intros t l' t' It Lt Kt. destruct (_ <? _)%nat; [apply (settles_ret x _ _ _ It Lt Kt)|].
      destruct (g_good _ _ _) as [[]|]; [apply (settles_ret x _ _ _ It Lt Kt)| |discriminate]. revert It Lt Kt.
      match goal with |- _ -> _ -> _ -> ?m t = _ -> _ => assert (R : settles x m); [|apply R] end.
      apply settles_or_else; auto using settles_flat_tetra, reports_flat_tetra.
      2: apply reports_or_else; auto using reports_flat_triangle, reports_small_edge.
      apply settles_or_else; auto using settles_flat_triangle, reports_flat_triangle, settles_small, reports_small_edge.
    + unfold check_ele in E. rewrite Ei in E. unfold bind, make_ele in E. rewrite Ei, Ps in E. discriminate.
  - unfold check_ele in E. rewrite Ei in E. injection E as <- <-. right. unfold calm. auto 10.
Qed.
End T.
