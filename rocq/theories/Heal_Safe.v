(** Proofs about heal_mesh.py: healing of meshes of points and lines; node ids. *)
From stdpp Require Import gmap.
From Coq Require Import ZArith QArith Lia.
From Verif Require Import Heal_Model Heal_Spec Heal_Proofs Heal_Loop Heal_Term Heal_Run Heal_Merge.
Local Open Scope Z_scope.
Local Notation length := List.length.

Section S.
Context (pick : nat -> gset Z -> list Z) (Fair : fair pick) (G : geo).
Local Notation sensible := (sensible G).
Lemma thin_sub s s' : (forall i e, els s' !! i = Some e -> els s !! i = Some e) -> thin s -> thin s'.
Proof. intros H T i e E. eapply T, H; eauto. Qed.
Lemma merge_thin s a b : inv s -> thin s -> a <> b -> is_Some (nodes s !! a) -> is_Some (nodes s !! b) ->
  exists s', merge_node pick a b s = (Ok tt, s') /\ inv s' /\ thin s'.
Proof.
  intros I T N [p Pa] [q Pb]. destruct (merge_node_ok pick Fair a b s p q I N Pa Pb) as (s' & R & I' & _ & _ & H & _).
  { intros i e E. destruct (T i e E). lia. }
  exists s'. split; auto. split; auto. intros i e' E. destruct (H i e' E) as [E0|(_ & (j & e & Ej & Ha & Hb & ->) & _)]; [eauto|].
  destruct (T j e Ej) as [L ND]. cbn. rewrite subst_length. split; auto. apply subst_nodup; auto.
Qed.
Lemma remove_each d x : forall s, inv s -> thin s -> NoDup d -> (forall i, i ∈ d -> is_Some (els s !! i)) ->
  exists s', for_each d (fun i => if Z.eqb i x then ret tt else remove_element i) s = (Ok tt, s') /\ inv s' /\ thin s'.
Proof.
  induction d as [|i d IH]; intros s I T ND H; cbn [for_each]; [exists s; split; auto|].
  apply NoDup_cons in ND. destruct ND as [N ND]. destruct (H i) as [e E]; [set_solver|]. unfold bind.
  destruct (Z.eqb i x).
  - apply IH; auto. intros j Hj. apply H. set_solver.
  - destruct (remove_element_ok2 s i e I E) as (s1 & R & I1 & El & _). rewrite R. apply IH; auto.
    + eapply thin_sub; [|exact T]. intros j f. rewrite El. intros Q. apply lookup_delete_Some in Q. tauto.
    + intros j Hj. rewrite El, lookup_delete_ne by set_solver. apply H. set_solver.
Qed.
Lemma points_length s ns ps : points s ns = Some ps -> length ps = length ns.
Proof. unfold points. destruct (_ && _); [|discriminate]. apply mapM_length || (intros H; apply mapM_Some, Forall2_length in H; auto). Qed.
Lemma check_thin i s : sensible -> inv s -> thin s -> exists l s', check_ele pick G i s = (Ok l, s') /\ inv s' /\ thin s'.
Proof.
  intros Sn I T. destruct (els s !! i) as [e|] eqn:E; [|unfold check_ele; rewrite E; eauto].
  destruct (T i e E) as [Len ND].
  assert (P : is_Some (points s (e_nodes e))).
  { apply points_some. split; [lia|]. intros n Hn. eapply i_closed; eauto. }
  destruct P as [ps Ps]. rewrite (check_ele_unfold pick G i s e ps E Ps). set (x := Ele i (e_type e) (e_nodes e) ps).
  assert (D : check_dupl_nodes pick x = ret []).
  { unfold check_dupl_nodes. cbn. destruct (e_nodes e) as [|a [|b [|? ?]]]; cbn in Len |- *; auto; try lia.
    destruct (Z.eqb_spec a b) as [->|]; auto. apply NoDup_cons in ND. set_solver. }
  rewrite D. unfold or_else at 1, bind at 1, ret at 1.
  assert (S1 : exists l s1, check_degen_nodes pick G x s = (Ok l, s1) /\ inv s1 /\ thin s1).
  { unfold check_degen_nodes. cbn [l_nodes l_pts x]. destruct (length (e_nodes e) =? 1)%nat eqn:L1; [cbn; eauto|]. apply Nat.eqb_neq in L1.
    unfold bind. destruct (g_short G (tick s) ps) as [j|] eqn:Sh.
    - apply Sn in Sh. rewrite (points_length _ _ _ Ps) in Sh. unfold merge_edge. cbn [l_nodes x].
      destruct (e_nodes e) as [|a [|b [|? ?]]] eqn:En; cbn in Len, L1, Sh; try lia. assert (j = 0%nat) as -> by lia. cbn.
      destruct (merge_thin s a b) as (s1 & R & I1 & T1); auto.
      + apply NoDup_cons in ND. set_solver.
      + eapply (i_closed s I i e); eauto. rewrite En. set_solver.
      + eapply (i_closed s I i e); eauto. rewrite En. set_solver.
      + rewrite R. do 2 eexists. split; [reflexivity|]. split; [|exact T1]. destruct I1; split; auto.
    - cbn. do 2 eexists. split; [reflexivity|]. split; [|exact T]. destruct I; split; auto. }
  destruct S1 as (l1 & s1 & R1 & I1 & T1). unfold or_else at 1, bind at 1. rewrite R1. destruct l1 as [|j l1]; [|cbn; eauto].
  destruct (is_duplicate_ok pick Fair s1 (l_type x) (l_nodes x) I1) as (d & Rd & Hd). { cbn. intros Z. rewrite Z in Len. cbn in Len. lia. }
  assert (NDd : NoDup d).
  { unfold is_duplicate in Rd. apply bind_ok in Rd. destruct Rd as (l & s2 & C & F). apply (common_ok pick Fair) in C. destruct C as (_ & C & _).
    injection F as <- _. apply filter_nodup; auto. }
  assert (S2 : exists l s2, check_duplicate pick x s1 = (Ok l, s2) /\ inv s2 /\ thin s2).
  { unfold check_duplicate, bind at 1. rewrite Rd.
    assert (It : inv (set_tick (S (tick s1)) s1)) by (apply tick_inv; auto).
    destruct (_ <? _)%nat; [|do 2 eexists; split; [reflexivity|]; split; auto].
    destruct (remove_each d (l_id x) (set_tick (S (tick s1)) s1)) as (s2 & R2 & I2 & T2); auto.
    { intros k Hk. apply Hd in Hk. destruct Hk as (f & Hf & _). cbn. eauto. }
    unfold bind. rewrite R2. do 2 eexists. split; [reflexivity|]. split; auto. }
  destruct S2 as (l2 & s2 & R2 & I2 & T2). unfold or_else at 1, bind at 1. rewrite R2. destruct l2 as [|j l2]; [|cbn; eauto].
  cbn [l_nodes x]. assert ((length (e_nodes e) <? 3)%nat = true) as -> by (apply Nat.ltb_lt; lia). eauto.
Qed.
Lemma heal_thin frac fuel s : sensible -> inv s -> thin s -> forall r s', heal pick G frac fuel s = Some (r, s') -> r <> Raised.
Proof.
  intros Sn I T r s' E. unfold heal, heal_start in E.
  revert E. generalize (frac * inject_Z (max_el s))%Q, (rev (pick (tick s) (dom (els s)))), (@nil Z). intros limit q m.
  assert (I1 : inv (set_tick (S (tick s)) s)) by (apply tick_inv; auto). assert (T1 : thin (set_tick (S (tick s)) s)) by exact T.
  revert I1 T1. generalize (set_tick (S (tick s)) s). clear s I T. revert q m.
  induction fuel as [|fuel IH]; intros q m s I T E; [discriminate|]. cbn [heal_loop] in E.
  unfold heal_step in E at 1. destruct q as [|j q]; [injection E as <- _; discriminate|].
  destruct (over limit s); [injection E as <- _; discriminate|].
  destruct (rev m ++ j :: q) as [|i q1] eqn:Q. { apply (f_equal (@List.length Z)) in Q. rewrite app_length in Q. cbn in Q. lia. }
  destruct (check_thin i (set_tick (S (tick s)) s)) as (l & s1 & R & I1 & T1); auto. { apply tick_inv; auto. }
  rewrite R in E. eapply IH; [| |exact E]; auto.
Qed.
(** * Node ids *)
Definition still {A} (m : M A) : Prop := forall s, nodes (snd (m s)) = nodes s /\ max_nd (snd (m s)) = max_nd s.
(** Nodes appear with new ids only. *)
Definition fresh {A} (m : M A) : Prop := forall s, max_nd s <= max_nd (snd (m s)) /\
  forall n, is_Some (nodes (snd (m s)) !! n) -> is_Some (nodes s !! n) \/ max_nd s < n <= max_nd (snd (m s)).
Lemma still_fresh {A} (m : M A) : still m -> fresh m.
Proof. intros H s. destruct (H s) as [-> ->]. split; auto. lia. Qed.
Lemma fresh_bind {A B} (m : M A) (f : A -> M B) : fresh m -> (forall a, fresh (f a)) -> fresh (bind m f).
Proof.
  intros Hm Hf s. unfold bind. specialize (Hm s). destruct (m s) as [[a|] s1]; cbn in *; auto. destruct Hm as [M1 H1].
  destruct (Hf a s1) as [M2 H2]. split; [lia|]. intros n Hn. destruct (H2 n Hn) as [Q|Q]; [|right; lia]. destruct (H1 n Q); auto. right. lia.
Qed.
Lemma still_bind {A B} (m : M A) (f : A -> M B) : still m -> (forall a, still (f a)) -> still (bind m f).
Proof.
  intros Hm Hf s. unfold bind. specialize (Hm s). destruct (m s) as [[a|] s1]; cbn in *; auto. destruct (Hf a s1). destruct Hm. split; congruence.
Qed.
Lemma still_ret {A} (a : A) : still (ret a). Proof. split; auto. Qed.
Lemma still_drop i ns : still (drop_idx i ns).
Proof.
  induction ns as [|n ns IH]; [apply still_ret|]. intros s. cbn [drop_idx]. destruct (decide _); auto.
  destruct (IH (set_idx (<[n:=nels s n ∖ {[i]}]> (idx s)) s)) as [A B]. split; [rewrite A|rewrite B]; auto.
Qed.
Lemma still_remove i : still (remove_element i).
Proof.
  intros s. unfold remove_element. destruct (els s !! i); auto.
  apply (still_bind (drop_idx i (remove_dups (e_nodes e))) (fun _ s => (Ok tt, set_els (delete i (els s)) s))); [apply still_drop|intros _ t; auto].
Qed.
Lemma still_common ns : still (common pick ns).
Proof. intros s. unfold common. destruct (shared s ns); auto. Qed.
Lemma still_add e : still (add_element pick e).
Proof.
  intros s. unfold add_element. destruct (shaped _ _); auto.
  match goal with |- context [?m s] => assert (H : still m); [|exact (H s)] end.
  apply still_bind; [unfold is_duplicate; apply still_bind; [apply still_common|intros l t; auto]|].
  intros [|? ?]; [intros t; auto|apply still_ret].
Qed.
Lemma still_for_active l f : (forall a, still (f a)) -> still (for_active l f).
Proof.
  intros H. induction l as [|i l IH]; cbn [for_active]; [apply still_ret|]. intros s. destruct (els s !! i); [|apply IH].
  apply (still_bind (f i) (fun _ => for_active l f)); auto.
Qed.
Lemma fresh_move n p s : is_Some (nodes s !! n) -> forall m, is_Some (nodes (snd (move_node n p s)) !! m) -> is_Some (nodes s !! m).
Proof.
  intros H m. rewrite move_node_cases. destruct (shapes_of _ _); cbn; auto. destruct (decide (m = n)) as [->|N]; auto.
  rewrite lookup_insert_ne by auto. auto.
Qed.
Lemma move_max n p s : max_nd (snd (move_node n p s)) = max_nd s.
Proof. rewrite move_node_cases. destruct (shapes_of _ _); auto. Qed.
Lemma fresh_remove_node n : fresh (remove_node n).
Proof.
  intros s. unfold remove_node. destruct (decide _); [|cbn; split; auto; lia]. destruct (nodes s !! n); [|cbn; split; auto; lia]. cbn. split; [lia|].
  intros m [q H]. apply lookup_delete_Some in H. destruct H. eauto.
Qed.
Lemma fresh_merge a b : fresh (merge_node pick a b).
Proof.
  intros s. unfold merge_node. destruct (Z.eqb a b); [cbn; split; auto; lia|].
  match goal with |- context [?m s] => assert (H : fresh m); [|exact (H s)] end.
  apply fresh_bind; [apply still_fresh, still_common|]. intros l. apply fresh_bind; [apply still_fresh, still_for_active; intros; apply still_remove|].
  intros _. apply fresh_bind.
  - intros t. destruct (nodes t !! a); [|cbn; split; auto; lia]. destruct (nodes t !! b) as [q|] eqn:E; [|cbn; split; auto; lia].
    rewrite move_max. split; [lia|]. intros n Hn. left. eapply fresh_move; eauto.
  - intros _. apply fresh_bind; [apply still_fresh, still_common|]. intros l2. apply fresh_bind; [|intros _; apply fresh_remove_node].
    apply still_fresh, still_for_active. intros i t. destruct (els t !! i) as [[[ty tags] ns]|]; auto.
    match goal with |- context [?m t] => assert (H : still m); [|exact (H t)] end.
    apply still_bind; [apply still_remove|]. intros _. apply still_bind; [apply still_add|intros; apply still_ret].
Qed.
Lemma step_fresh o s : edit o -> legal o s -> max_nd s <= max_nd (step pick G o s) /\
  forall n, is_Some (nodes (step pick G o s) !! n) -> is_Some (nodes s !! n) \/ max_nd s < n <= max_nd (step pick G o s).
Proof.
  intros Ed Lg. destruct o; cbn [step]; try contradiction.
  - apply (still_fresh _ (still_add e) s).
  - cbn. split; [lia|]. intros n [q H]. apply lookup_insert_Some in H. destruct H as [[<- _]|[_ H]]; [right; lia|eauto].
  - rewrite move_max. split; [lia|]. intros m Hm. left. eapply fresh_move; eauto.
  - apply (fresh_merge rm target s).
  - apply (still_fresh _ (still_remove i) s).
  - apply (fresh_remove_node n s).
  - cbn. split; auto. lia.
Qed.
Lemma run_fresh os : forall s, Forall edit os -> legal_run pick G os s -> max_nd s <= max_nd (run pick G os s) /\
  forall n, is_Some (nodes (run pick G os s) !! n) -> is_Some (nodes s !! n) \/ max_nd s < n.
Proof.
  induction os as [|o os IH]; intros s F L; [cbn; split; auto; lia|]. apply Forall_cons in F. destruct F as [F1 F2], L as [L1 L2].
  destruct (step_fresh o s F1 L1) as [M H]. destruct (IH _ F2 L2) as [M' H']. change (run pick G (o :: os) s) with (run pick G os (step pick G o s)).
  split; [lia|]. intros n Hn. destruct (H' n Hn) as [Q|Q]; [|right; lia]. destruct (H n Q); [auto|right; lia].
Qed.
End S.
