(** Proofs about heal_mesh.py: the loop of heal_mesh and whole programs. *)
From stdpp Require Import gmap.
From Coq Require Import ZArith QArith Qround Lia.
From Verif Require Import Heal_Model Heal_Spec Heal_Proofs Heal_Loop Heal_Term.
Local Open Scope Z_scope.
Local Notation length := List.length.

(** What remains of [leads] when records may be reset. *)
Record moves (s s' : st) : Prop := {
  m_max : max_el s <= max_el s';
  m_nd : max_nd s <= max_nd s';
  m_ids : forall i e, els s' !! i = Some e -> els s !! i = Some e \/ max_el s < i }.
Lemma tells_moves X s s' : tells X s s' -> moves s s'.
Proof. intros [A B C D E]. split; auto. Qed.
Lemma leads_moves s s' : leads s s' -> moves s s'.
Proof. intros [A B C D E]. split; auto. Qed.
Lemma moves_refl s : moves s s. Proof. split; auto; lia. Qed.
Lemma moves_trans s1 s2 s3 : moves s1 s2 -> moves s2 s3 -> moves s1 s3.
Proof.
  intros [A B C] [A' B' C']. split; try lia. intros i e H. apply C' in H. destruct H as [H|H]; [|right; lia].
  apply C in H. destruct H; [auto|right; lia].
Qed.

Section R.
Context (pick : nat -> gset Z -> list Z) (Fair : fair pick) (G : geo).
Local Notation passes := (passes pick G).
Local Notation checked := (checked pick G).
Local Notation legal_run := (legal_run pick G).

Lemma heal_step_inl limit q m s q' m' s' : heal_step pick G limit (q, m, s) = inl (q', m', s') ->
  exists i, q <> [] /\ over limit s = false /\ rev m ++ q = i :: q' /\ check_ele pick G i (set_tick (S (tick s)) s) = (Ok m', s').
Proof.
  unfold heal_step. destruct q as [|j q]; [discriminate|]. destruct (over limit s) eqn:O; [discriminate|].
  destruct (rev m ++ j :: q) as [|i q1] eqn:E; [discriminate|].
  destruct (check_ele pick G i _) as [[l|] s1] eqn:C; [|discriminate]. intros [= <- <- <-]. exists i. repeat split; auto.
Qed.
Lemma step_tells limit q m s q' m' s' : inv s -> heal_step pick G limit (q, m, s) = inl (q', m', s') ->
  inv s' /\ tells (list_to_set m') s s'.
Proof.
  intros I E. apply heal_step_inl in E. destruct E as (i & _ & _ & _ & E).
  destruct (reports_ok any _ _ _ _ (reports_check_ele pick Fair G any i) (proj2 (tick_inv _ s) I) Logic.I E) as [I' T]. split; auto.
  eapply leads_tells_trans; [apply tick_leads|exact T].
Qed.
Lemma stop_leads limit q m s r s' : inv s -> heal_step pick G limit (q, m, s) = inr (r, s') -> inv s' /\ moves s s'.
Proof.
  intros I. unfold heal_step. destruct q as [|j q]; [intros [= <- <-]; auto using moves_refl|].
  destruct (over limit s); [intros [= <- <-]; auto using moves_refl|].
  destruct (rev m ++ j :: q) as [|i q1]; [intros [= <- <-]; auto using moves_refl|].
  pose proof (reports_check_ele pick Fair G any i (set_tick (S (tick s)) s) (proj2 (tick_inv _ s) I) Logic.I) as K.
  destruct (check_ele pick G i _) as [[l|] s1] eqn:C; [discriminate|]. intros [= <- <-]. destruct K as [I1 L1]. split; auto.
  apply leads_moves. eapply leads_trans; [apply tick_leads|exact L1].
Qed.
Lemma loop_moves limit fuel : forall c r s', inv (snd c) -> heal_loop pick G limit fuel c = Some (r, s') -> inv s' /\ moves (snd c) s'.
Proof.
  induction fuel as [|fuel IH]; intros [[q m] s] r s' I E; [discriminate|]. cbn [heal_loop] in E.
  destruct (heal_step pick G limit (q, m, s)) as [[[q' m'] s1]|[r1 s1]] eqn:H.
  - destruct (step_tells _ _ _ _ _ _ _ I H) as [I1 T]. destruct (IH (q', m', s1) _ _ I1 E) as [I2 L2]. split; auto.
    eapply moves_trans; [|exact L2]. eapply tells_moves; eauto.
  - injection E as <- <-. eapply stop_leads; eauto.
Qed.
(** * Termination *)
Lemma not_over limit s : over limit s = false -> max_el s <= Qfloor limit.
Proof.
  unfold over. intros H. apply negb_false_iff, Qle_bool_iff in H. apply Qfloor_resp_le in H. rewrite Qfloor_Z in H. exact H.
Qed.
Lemma step_descends limit q m s q' m' s' : inv s -> heal_step pick G limit (q, m, s) = inl (q', m', s') ->
  let rank s := Z.to_nat (Qfloor limit + 1 - max_el s) in
  let kept s : nat := if decide (modif s = ∅) then 0%nat else 1%nat in
  (rank s' < rank s)%nat \/
  (rank s' = rank s /\ (size (els s') < size (els s))%nat) \/
  (rank s' = rank s /\ size (els s') = size (els s) /\ (kept s' < kept s)%nat) \/
  (rank s' = rank s /\ size (els s') = size (els s) /\ kept s' = kept s /\ (length q' + length m' < length q + length m)%nat).
Proof.
  intros I E rank kept. destruct (step_tells _ _ _ _ _ _ _ I E) as [I' T].
  apply heal_step_inl in E. destruct E as (i & Q & O & EQ & E). apply not_over in O.
  assert (L : (length q + length m = S (length q'))%nat).
  { apply (f_equal (@List.length Z)) in EQ. rewrite app_length, rev_length in EQ. cbn in EQ. lia. }
  destruct (check_settles pick Fair G i _ _ _ (proj2 (tick_inv _ s) I) E) as [[P _]|C].
  - pose proof (t_max _ _ _ T) as M. destruct P as [P|P]; cbn in P.
    + left. unfold rank. lia.
    + destruct (Z.eq_dec (max_el s') (max_el s)) as [H|H]; [right; left|left]; unfold rank; [rewrite H; auto|lia].
  - destruct C as (C1 & C2 & C3 & C4). cbn in C1, C2, C3, C4. right; right. unfold rank, kept. rewrite C3, C1.
    destruct (decide (modif s = ∅)) as [N|N].
    + right. assert (m' = [] /\ modif s' = ∅) as [-> N'].
      { destruct C4 as [[C4 C5]|[C4 [k C5]]]; [split; congruence|]. rewrite N, (pick_empty pick Fair) in C5. auto. }
      rewrite decide_True by auto. cbn. split; auto. split; auto. split; auto. lia.
    + destruct C4 as [[C4 C5]|[C4 [k C5]]].
      * right. rewrite decide_False by congruence. subst m'. cbn. split; auto. split; auto. split; auto. lia.
      * left. rewrite decide_True by auto. auto.
Qed.
Lemma loop_ends limit q m s : inv s -> exists fuel r, heal_loop pick G limit fuel (q, m, s) = Some r.
Proof.
  set (rank s := Z.to_nat (Qfloor limit + 1 - max_el s)).
  set (kept s := if decide (modif s = ∅) then 0%nat else 1%nat).
  intros I. remember (rank s) as a eqn:Ea. remember (size (els s)) as b eqn:Eb. remember (kept s) as c eqn:Ec.
  remember (length q + length m)%nat as d eqn:Ed. revert b c d q m s I Ea Eb Ec Ed.
  induction a as [a IHa] using lt_wf_ind. intros b. induction b as [b IHb] using lt_wf_ind.
  intros c. induction c as [c IHc] using lt_wf_ind. intros d. induction d as [d IHd] using lt_wf_ind.
  intros q m s I Ea Eb Ec Ed.
  destruct (heal_step pick G limit (q, m, s)) as [[[q' m'] s']|r] eqn:E.
  - assert (exists fuel r, heal_loop pick G limit fuel (q', m', s') = Some r) as (fuel & r & H).
    { destruct (step_tells _ _ _ _ _ _ _ I E) as [I' _].
      destruct (step_descends _ _ _ _ _ _ _ I E) as [H|[[H1 H2]|[(H1 & H2 & H3)|(H1 & H2 & H3 & H4)]]].
      - eapply (IHa (rank s')); eauto. subst a. exact H.
      - eapply (IHb (size (els s'))); eauto; [subst b; exact H2|]. subst a. symmetry. exact H1.
      - eapply (IHc (kept s')); eauto; [subst c; exact H3| |subst b; auto]. subst a. symmetry. exact H1.
      - eapply (IHd (length q' + length m')%nat); eauto; [subst d; exact H4| | |]; subst; symmetry; auto. }
    exists (S fuel), r. cbn [heal_loop]. rewrite E. auto.
  - exists 1%nat, r. cbn [heal_loop]. rewrite E. auto.
Qed.
Lemma loop_more limit fuel : forall c r fuel', heal_loop pick G limit fuel c = Some r -> (fuel <= fuel')%nat ->
  heal_loop pick G limit fuel' c = Some r.
Proof.
  induction fuel as [|fuel IH]; intros c r fuel' E L; [discriminate|]. destruct fuel' as [|fuel']; [lia|]. cbn [heal_loop] in *.
  destruct (heal_step pick G limit c); auto. apply IH; auto. lia.
Qed.
Lemma heal_ends frac s : inv s -> exists fuel r, forall fuel', (fuel <= fuel')%nat -> heal pick G frac fuel' s = Some r.
Proof.
  intros I. unfold heal, heal_start.
  destruct (loop_ends (frac * inject_Z (max_el s))%Q (rev (pick (tick s) (dom (els s)))) [] (set_tick (S (tick s)) s)) as (fuel & r & H).
  { apply tick_inv. auto. }
  exists fuel, r. intros f L. eapply loop_more; eauto.
Qed.
(** * Which elements were checked *)
Lemma snap_tick k s i : snap (set_tick k s) i = snap s i. Proof. reflexivity. Qed.
Lemma passes_checked limit q0 s0 : inv s0 -> modif s0 = ∅ -> (forall i e, els s0 !! i = Some e -> i ∈ q0) ->
  forall c, passes limit (q0, [], s0) c ->
  inv (snd c) /\ modif (snd c) = ∅ /\
  forall i e, els (snd c) !! i = Some e -> i ∈ c.1.1 \/ i ∈ c.1.2 \/ checked limit (q0, [], s0) c i.
Proof.
  intros I0 M0 Q0. apply (rtc_ind_r (fun c => inv (snd c) /\ modif (snd c) = ∅ /\
    forall i e, els (snd c) !! i = Some e -> i ∈ c.1.1 \/ i ∈ c.1.2 \/ checked limit (q0, [], s0) c i)).
  - cbn. split; auto. split; auto. intros i e H. left. eauto.
  - intros [[q m] s] [[q' m'] s'] R E (I & M & H). cbn in I, M, H. destruct (step_tells _ _ _ _ _ _ _ I E) as [I' T].
    pose proof E as E0. apply heal_step_inl in E. destruct E as (i & Q & O & EQ & E).
    pose proof (cleans_check pick G i (set_tick (S (tick s)) s) m' s' M E) as M'. cbn. split; auto. split; auto.
    intros j e Hj. destruct (t_snap _ _ _ T j e Hj) as [Hs|Hs].
    { right; left. rewrite M', right_id_L in Hs by apply _. apply elem_of_list_to_set in Hs. auto. }
    pose proof (snap_els _ _ _ Hs) as Ej. rewrite Hj in Ej. symmetry in Ej.
    assert (C : j ∈ rev m ++ q \/ checked limit (q0, [], s0) (q, m, s) j).
    { destruct (H j e Ej) as [C|[C|C]]; auto; left; apply elem_of_app; [auto|left].
      apply elem_of_list_In. rewrite <- in_rev. apply elem_of_list_In. auto. }
    destruct C as [C|C].
    + rewrite EQ in C. apply elem_of_cons in C. destruct C as [->|C]; auto.
      destruct (check_settles pick Fair G i _ _ _ (proj2 (tick_inv _ s) I) E) as [[P [D|D]]|C]; [congruence|auto|].
      destruct C as (C1 & C2 & C3 & C4). cbn in C1, C2, C4.
      assert (m' = []) as ->.
      { destruct C4 as [[_ C5]|[_ [k C5]]]; auto. rewrite M, (pick_empty pick Fair) in C5. auto. }
      right; right. exists q, m, s, q', s'. split; auto. split; auto. split; auto. split; auto. split; auto. split; auto. apply rtc_refl.
    + right; right. destruct C as (q1 & m1 & s1 & q2 & s2 & P1 & P2 & P3 & P4 & P5 & P6 & P7).
      exists q1, m1, s1, q2, s2. split; auto. split; auto. split; auto. split; auto. split; auto. split.
      * eapply rtc_r; eauto.
      * cbn in P7 |- *. congruence.
Qed.
Lemma loop_done limit fuel : forall c s', heal_loop pick G limit fuel c = Some (Done, s') -> exists m, passes limit c ([], m, s').
Proof.
  induction fuel as [|fuel IH]; intros [[q m] s] s' E; [discriminate|]. cbn [heal_loop] in E.
  destruct (heal_step pick G limit (q, m, s)) as [c1|r] eqn:H.
  - destruct (IH _ _ E) as [m' P]. exists m'. eapply rtc_l; eauto.
  - injection E as ->. unfold heal_step in H. destruct q as [|j q]; [injection H as <-; exists m; apply rtc_refl|].
    destruct (over limit s); [discriminate|]. destruct (rev m ++ j :: q); [discriminate|].
    destruct (check_ele pick G z _) as [[l0|] s1]; discriminate.
Qed.
(** * Programs *)
Lemma step_inv o s : inv s -> legal o s -> inv (step pick G o s) /\ moves s (step pick G o s).
Proof.
  intros I Lg.
  assert (K : forall A (m : M A) P, keeps P m -> P s -> inv (snd (m s)) /\ moves s (snd (m s))).
  { intros A m P K HP. destruct (K s I HP). split; auto. apply leads_moves; auto. }
  destruct o; cbn [step].
  - apply (K _ _ any); [apply keeps_add_element|exact Logic.I].
  - apply (K _ _ any); [apply keeps_add_node|exact Logic.I].
  - apply (K _ _ (known n)); [apply keeps_move_node|]. destruct Lg as [q Lg]. eapply i_nd; eauto.
  - apply (K _ _ any); [apply keeps_merge_node|exact Logic.I].
  - apply (K _ _ any); [apply keeps_remove_element|exact Logic.I].
  - apply (K _ _ any); [apply keeps_remove_node|exact Logic.I].
  - pose proof (reports_reset pick Fair any s I Logic.I) as R. cbn in *. destruct R as [I' T]. split; auto. eapply tells_moves; eauto.
  - destruct (heal pick G frac fuel s) as [[r s']|] eqn:E; [|auto using moves_refl].
    unfold heal in E. destruct (heal_start pick frac s) as [c limit] eqn:Hs. unfold heal_start in Hs. injection Hs as <- <-.
    apply loop_moves in E; [|apply tick_inv; auto]. cbn in E. destruct E as [I' L]. split; auto.
    eapply moves_trans; [|exact L]. apply leads_moves, tick_leads.
Qed.
Lemma run_inv os : forall s, inv s -> legal_run os s -> inv (run pick G os s) /\ moves s (run pick G os s).
Proof.
  induction os as [|o os IH]; intros s I Lg; cbn; [auto using moves_refl|]. destruct Lg as [L1 L2].
  destruct (step_inv o s I L1) as [I1 M1]. destruct (IH _ I1 L2) as [I2 M2]. split; auto. eapply moves_trans; eauto.
Qed.
Lemma run_app os1 os2 s : run pick G (os1 ++ os2) s = run pick G os2 (run pick G os1 s).
Proof. unfold run. apply foldl_app. Qed.
Lemma legal_app os1 os2 s : legal_run (os1 ++ os2) s <-> legal_run os1 s /\ legal_run os2 (run pick G os1 s).
Proof.
  revert s. induction os1 as [|o os1 IH]; intros s; cbn [app legal_run].
  - cbn. tauto.
  - rewrite IH. unfold run. cbn [foldl]. tauto.
Qed.
End R.
