(** Lemmas about the undo stack model. *)
From Coq Require Import List String Bool Arith Lia.
From Verif Require Import Undo_Model Undo_Spec.
Import ListNotations.

Section Proofs.
Variable D : Type.
Variable V : D -> Prop.

Definition strip_act (a : action D) : action D := mkAct (a_gen a) None (a_text a).
Definition strip (e : entry D) : entry D :=
  match e with
  | EAct a => EAct (strip_act a)
  | EGrp s l => EGrp s (map strip_act l)
  end.

Definition link (e : entry D) (d0 d : D) : Prop :=
  entry_do (strip e) d0 = (Ok e, d, []) /\
  exists ps, entry_undo e d = (Ok (strip e), d0, ps).

Fixpoint past_ok (us : list (entry D)) (ds : list D) (d : D) : Prop :=
  match us, ds with
  | [], [] => True
  | e :: us', d0 :: ds' => V d0 /\ link e d0 d /\ past_ok us' ds' d0
  | _, _ => False
  end.

Fixpoint future_ok (rs : list (entry D)) (ds : list D) (d : D) : Prop :=
  match rs, ds with
  | [], [] => True
  | e :: rs', d1 :: ds' =>
      V d1 /\ (exists e', e = strip e' /\ link e' d d1) /\ future_ok rs' ds' d1
  | _, _ => False
  end.

Definition Inv (h : hist D) (st : state D) : Prop :=
  doc st = cur h /\ V (cur h) /\ recv (stack st) = RMain /\
  past_ok (undos (stack st)) (past h) (cur h) /\
  future_ok (redos (stack st)) (future h) (cur h).

Lemma list_push_app : forall (ls : list (list (action D))) l a,
  list_push (ls ++ [l]) (List.length ls) a = ls ++ [l ++ [a]].
Proof. induction ls as [|x ls IH]; intros; simpl; [reflexivity|]. now rewrite IH. Qed.

Lemma append_all_list : forall ps (s : stk D) i, recv s = RList i ->
  undos (append_all s ps) = undos s /\ redos (append_all s ps) = redos s /\
  savept (append_all s ps) = savept s /\ recv (append_all s ps) = RList i.
Proof.
  induction ps as [|a ps IH]; intros s i H; [simpl; auto|].
  change (append_all s (a :: ps)) with (append_all (append s a) ps).
  assert (E : append s a = mkStk (undos s) (redos s) (RList i) (list_push (lists s) i a) (savept s)).
  { unfold append; now rewrite H. }
  destruct (IH (append s a) i) as (H1 & H2 & H3 & H4).
  { now rewrite E. }
  rewrite E in *. simpl in *. auto.
Qed.

Lemma append_main : forall (s : stk D) a, recv s = RMain ->
  append s a = mkStk (EAct a :: undos s) [] RMain (lists s) (savept s).
Proof. intros s a H. unfold append. now rewrite H. Qed.

(** Effect of undo in terms of the entry. *)
Lemma undo_ok : forall (st : state D) e us e' d' ps,
  undos (stack st) = e :: us ->
  entry_undo e (doc st) = (Ok e', d', ps) ->
  exists ls, undo st = (true, mkSt d' (mkStk us (e' :: redos (stack st)) RMain ls (savept (stack st)))).
Proof.
  intros st e us e' d' ps Hu He. unfold undo. rewrite Hu, He.
  edestruct (append_all_list ps (set_new_receiver
     (mkStk us (redos (stack st)) (recv (stack st)) (lists (stack st)) (savept (stack st)))))
    as (H1 & H2 & H3 & H4); [reflexivity|].
  unfold reset_receiver. simpl. rewrite H1, H2, H3. simpl. eexists. reflexivity.
Qed.

Lemma redo_ok : forall (st : state D) e rs e' d' ps,
  redos (stack st) = e :: rs ->
  entry_do e (doc st) = (Ok e', d', ps) ->
  exists ls, redo st = (true, mkSt d' (mkStk (e' :: undos (stack st)) rs RMain ls (savept (stack st)))).
Proof.
  intros st e us e' d' ps Hu He. unfold redo. rewrite Hu, He.
  edestruct (append_all_list ps (set_new_receiver
     (mkStk (undos (stack st)) us (recv (stack st)) (lists (stack st)) (savept (stack st)))))
    as (H1 & H2 & H3 & H4); [reflexivity|].
  unfold reset_receiver. simpl. rewrite H1, H2, H3. simpl. eexists. reflexivity.
Qed.

Lemma undo_exn : forall (st : state D) e us d' ps,
  undos (stack st) = e :: us ->
  entry_undo e (doc st) = (Exn, d', ps) ->
  exists ls, undo st = (false, mkSt d' (mkStk [] [] RMain ls None)).
Proof.
  intros st e us d' ps Hu He. unfold undo. rewrite Hu, He. unfold clear. eexists. reflexivity.
Qed.

Lemma redo_exn : forall (st : state D) e us d' ps,
  redos (stack st) = e :: us ->
  entry_do e (doc st) = (Exn, d', ps) ->
  exists ls, redo st = (false, mkSt d' (mkStk [] [] RMain ls None)).
Proof.
  intros st e us d' ps Hu He. unfold redo. rewrite Hu, He. unfold clear. eexists. reflexivity.
Qed.

(** One reversible call gives a link. *)
Lemma call_link : forall g d t r d' ps,
  reversible V g -> V d -> next g d = (NYield t r, d', ps) ->
  V d' /\ ps = [] /\ link (EAct (mkAct g (Some r) t)) d d'.
Proof.
  intros g d t r d' ps Hr HV Hn. specialize (Hr d HV). rewrite Hn in Hr.
  destruct Hr as (HV' & Hps & o & ps' & Hu & Ho).
  split; [assumption|]. split; [assumption|]. subst ps.
  split.
  - simpl. unfold strip_act, act_do; simpl. rewrite Hn. reflexivity.
  - simpl. unfold act_undo; simpl. rewrite Hu.
    destruct o; [eexists; reflexivity | eexists; reflexivity | now elim Ho].
Qed.

Lemma nth_list_push : forall (ls : list (list (action D))) i a, i < List.length ls ->
  nth i (list_push ls i a) [] = nth i ls [] ++ [a].
Proof.
  induction ls as [|l ls IH]; intros i a H; simpl in *; [lia|].
  destruct i; simpl; [reflexivity|]. apply IH. lia.
Qed.

Lemma length_list_push : forall (ls : list (list (action D))) i a,
  List.length (list_push ls i a) = List.length ls.
Proof.
  induction ls as [|l ls IH]; intros i a; simpl in *; [lia|].
  destruct i; simpl; [reflexivity|]. now rewrite IH.
Qed.

Lemma group_run : forall gs (s : stk D) i d,
  recv s = RList i -> i < List.length (lists s) ->
  V d -> Forall (fun g => reversible V g /\ never_fails V g) gs ->
  exists acts d' s',
    (fix run (l : list (op D)) (s : state D) : bool * state D :=
               match l with
               | [] => (true, s)
               | o' :: l' => match exec o' s with
                             | (true, s') => run l' s'
                             | (false, s') => (false, s')
                             end
               end) (map OCall gs) (mkSt d s) = (true, mkSt d' s') /\
    d' = effects gs d /\ V d' /\
    undos s' = undos s /\ redos s' = redos s /\ savept s' = savept s /\
    nth i (lists s') [] = nth i (lists s) [] ++ acts /\
    acts_do (map strip_act acts) d = (Ok acts, d', []) /\
    (exists ps, acts_undo acts d' = (Ok (map strip_act acts), d, ps)).
Proof.
  induction gs as [|g gs IH]; intros s i d Hr Hi HV HF.
  - exists [], d, s. simpl. rewrite app_nil_r. repeat split; auto. now exists [].
  - inversion HF as [|x y [Hg Hnf] HF']; subst.
    destruct (Hnf d HV) as (t & r & d1 & ps & Hn).
    destruct (call_link _ _ _ _ _ _ Hg HV Hn) as (HV1 & Hps & Hl1 & psu & Hl2). subst ps.
    set (a := mkAct g (Some r) t).
    assert (Ha : append s a = mkStk (undos s) (redos s) (RList i) (list_push (lists s) i a) (savept s)).
    { unfold append. now rewrite Hr. }
    destruct (IH (append s a) i d1) as (acts & d' & s' & E & Ed & HV' & Eu & Er & Es & El & Hd & psx & Hu); auto.
    { now rewrite Ha. }
    { rewrite Ha. simpl. now rewrite length_list_push. }
    rewrite Ha in Eu, Er, Es, El. simpl in Eu, Er, Es, El.
    exists (a :: acts), d', s'.
    split.
    { cbn -[next append]. unfold call, act_do. cbn [doc a_gen stack]. rewrite Hn.
      unfold append_all. cbn [fold_left]. exact E. }
    split. { simpl. unfold effect. rewrite Hn. exact Ed. }
    split; [assumption|].
    split; [assumption|]. split; [assumption|]. split; [assumption|].
    split.
    { rewrite El, nth_list_push by assumption. now rewrite <- app_assoc. }
    split.
    { simpl. unfold strip_act at 1, act_do. simpl. rewrite Hn.
      rewrite Hd. reflexivity. }
    simpl. rewrite Hu. simpl in Hl2.
    unfold act_undo in *; simpl in *. destruct (next r d1) as [[o dd] pp] eqn:En.
    destruct o; inversion Hl2; subst; eexists; reflexivity.
Qed.

Local Ltac sp := repeat match goal with |- _ /\ _ => split end; auto.

Lemma step_inv : forall h st c, Inv h st -> good V c ->
  Inv (sp_step h c) (snd (exec (to_op c) st)) /\
  (c <> CSave -> savept (stack (snd (exec (to_op c) st))) = savept (stack st)).
Proof.
  intros h [d s] c (Hd & HV & Hr & Hp & Hf) Hg. simpl in *. subst d.
  destruct c as [g|desc gs| | |]; simpl in *.
  - (* call *)
    unfold call, act_do; simpl. pose proof (Hg _ HV) as Hrev.
    unfold effect. destruct (next g (cur h)) as [[o d'] ps] eqn:En.
    destruct o as [t r| |]; simpl.
    + destruct (call_link _ _ _ _ _ _ Hg HV En) as (HV' & Hps & Hl). subst ps. simpl.
      rewrite (append_main s _ Hr). simpl. split; [|reflexivity].
      unfold Inv; simpl; sp.
    + destruct Hrev as [-> ->]. simpl. split; [|reflexivity]. unfold Inv; simpl; sp.
    + destruct Hrev as [-> ->]. simpl. split; [|reflexivity]. unfold Inv; simpl; sp.
  - (* group *)
    destruct (group_run gs (set_new_receiver s) (List.length (lists s)) (cur h))
      as (acts & d' & s' & E & Ed & HV' & Eu & Er & Es & El & Hdo & psx & Hu); auto.
    { simpl. rewrite app_length. simpl. lia. }
    rewrite E. simpl.
    simpl in El. rewrite app_nth2, Nat.sub_diag in El by lia. simpl in El.
    split; [|intros _; exact Es].
    rewrite <- Ed. unfold Inv; simpl. rewrite El, Eu.
    split; [reflexivity|]. split; [assumption|]. split; [reflexivity|].
    split; [|exact I]. split; [assumption|]. split; [|assumption].
    split; simpl; [now rewrite Hdo | rewrite Hu; eexists; reflexivity].
  - (* undo *)
    destruct (undos s) as [|e us] eqn:Eu.
    + destruct (past h) as [|d0 ds] eqn:Ep; [|contradiction].
      unfold undo. simpl. rewrite Eu. simpl. split; [|reflexivity].
      unfold Inv; simpl; sp; now rewrite ?Eu, ?Ep.
    + destruct (past h) as [|d0 ds] eqn:Ep; [contradiction|].
      destruct Hp as (HV0 & [Hdo [ps Hun]] & Hp').
      destruct (undo_ok (mkSt (cur h) s) e us _ _ _ Eu Hun) as (ls & ->). simpl.
      split; [|reflexivity].
      unfold Inv; simpl; sp. exists e. split; [reflexivity|]. split; [assumption|]. now exists ps.
  - (* redo *)
    destruct (redos s) as [|e rs] eqn:Eu.
    + destruct (future h) as [|d0 ds] eqn:Ep; [|contradiction].
      unfold redo. simpl. rewrite Eu. simpl. split; [|reflexivity].
      unfold Inv; simpl; sp; now rewrite ?Eu, ?Ep.
    + destruct (future h) as [|d0 ds] eqn:Ep; [contradiction|].
      destruct Hf as (HV0 & (e' & -> & [Hdo [ps Hun]]) & Hp').
      destruct (redo_ok (mkSt (cur h) s) _ rs _ _ _ Eu Hdo) as (ls & ->). simpl.
      split; [|reflexivity].
      unfold Inv; simpl; sp. split; [assumption|]. now exists ps.
  - split; [|intros H; now elim H]. unfold Inv; simpl; sp.
Qed.

Lemma run_inv : forall cs h st, Inv h st -> Forall (good V) cs ->
  Inv (sp_run cs h) (run (map to_op cs) st).
Proof.
  induction cs as [|c cs IH]; intros h st HI HF; [assumption|].
  inversion HF; subst. apply (IH (sp_step h c)); [|assumption].
  apply step_inv; assumption.
Qed.

Lemma init_inv : forall d, V d -> Inv (mkHist [] d []) (mkSt d init_stk).
Proof. intros d H. repeat split; simpl; auto. Qed.

Lemma past_len : forall us ds d, past_ok us ds d -> List.length us = List.length ds.
Proof. induction us; intros [|x ds] d H; simpl in *; try tauto. f_equal. eapply IHus; apply H. Qed.

Lemma future_len : forall us ds d, future_ok us ds d -> List.length us = List.length ds.
Proof. induction us; intros [|x ds] d H; simpl in *; try tauto. f_equal. eapply IHus; apply H. Qed.

(** Refinement, from a fresh stack. *)
Lemma refinement : forall cs d, V d -> Forall (good V) cs ->
  let st := run (map to_op cs) (mkSt d init_stk) in
  let h := sp_run cs (mkHist [] d []) in
  doc st = cur h /\ undocount (stack st) = List.length (past h) /\
  List.length (redos (stack st)) = List.length (future h) /\
  canundo (stack st) = negb (match past h with [] => true | _ => false end) /\
  canredo (stack st) = negb (match future h with [] => true | _ => false end).
Proof.
  intros cs d HV HF st h.
  pose proof (run_inv cs _ _ (init_inv d HV) HF) as (H1 & H2 & H3 & H4 & H5).
  fold st h in H1, H2, H3, H4, H5.
  pose proof (past_len _ _ _ H4) as L1. pose proof (future_len _ _ _ H5) as L2.
  unfold undocount, canundo, canredo. rewrite L1, L2.
  repeat split; auto; destruct (past h), (future h); reflexivity.
Qed.

Lemma iter_S_r : forall A n (f : A -> A) x, iter (S n) f x = f (iter n f x).
Proof. induction n; intros; simpl in *; [reflexivity|]. now rewrite <- IHn. Qed.

Lemma undo_redo_one : forall h st, Inv h st -> past h <> [] ->
  exists ls, redo (snd (undo st)) = (true, mkSt (doc st)
      (mkStk (undos (stack st)) (redos (stack st)) RMain ls (savept (stack st)))).
Proof.
  intros h [d s] (Hd & HV & Hr & Hp & Hf) Hne. simpl in *. subst d.
  destruct (undos s) as [|e us] eqn:Eu; destruct (past h) as [|d0 ds] eqn:Ep; simpl in Hp; try tauto.
  destruct Hp as (HV0 & [Hdo [ps Hun]] & Hp').
  destruct (undo_ok (mkSt (cur h) s) e us _ _ _ Eu Hun) as (ls & ->). simpl.
  edestruct (redo_ok (mkSt d0 (mkStk us (strip e :: redos s) RMain ls (savept s)))) as (ls' & ->);
    [reflexivity| simpl; exact Hdo |]. simpl. eexists; reflexivity.
Qed.

Lemma same_refl : forall a : state D, same_history a a.
Proof. repeat split. Qed.

Lemma redo_same : forall a b : state D, same_history a b -> same_history (snd (redo a)) (snd (redo b)).
Proof.
  intros [da sa] [db sb] (H1 & H2 & H3 & H4 & H5). simpl in *. subst db.
  destruct (redos sa) as [|e rs] eqn:Ea.
  - unfold redo; simpl. rewrite Ea, <- H3. simpl. repeat split; simpl; congruence.
  - destruct (entry_do e da) as [[[e'|] d'] ps] eqn:Ed.
    + destruct (redo_ok (mkSt da sa) e rs _ _ _ Ea Ed) as (l1 & ->).
      symmetry in H3.
      destruct (redo_ok (mkSt da sb) e rs _ _ _ H3 Ed) as (l2 & ->).
      repeat split; simpl; congruence.
    + destruct (redo_exn (mkSt da sa) e rs _ _ Ea Ed) as (l1 & ->).
      symmetry in H3.
      destruct (redo_exn (mkSt da sb) e rs _ _ H3 Ed) as (l2 & ->).
      repeat split.
Qed.

Lemma iter_redo_same : forall n (a b : state D), same_history a b ->
  same_history (iter n (fun s => snd (redo s)) a) (iter n (fun s => snd (redo s)) b).
Proof. induction n; intros; simpl; auto. apply IHn. now apply redo_same. Qed.

Lemma undo_redo_n : forall n h st, Inv h st -> n <= List.length (past h) ->
  same_history (iter n (fun s => snd (redo s)) (iter n (fun s => snd (undo s)) st)) st.
Proof.
  induction n as [|n IH]; intros h st HI Hn.
  - apply same_refl.
  - simpl iter at 2. rewrite iter_S_r.
    assert (HI' : Inv (sp_step h CUndo) (snd (undo st))).
    { exact (proj1 (step_inv h st CUndo HI I)). }
    destruct (past h) as [|d0 ds] eqn:Ep; simpl in Hn; [lia|].
    assert (Hn' : n <= List.length (past (sp_step h CUndo))).
    { simpl. rewrite Ep. simpl. lia. }
    pose proof (redo_same _ _ (IH _ _ HI' Hn')) as (A1 & A2 & A3 & A4 & A5).
    destruct (undo_redo_one h st HI) as (ls & E); [congruence|].
    rewrite E in *. simpl in *. destruct HI as (_ & _ & Hr & _).
    repeat split; congruence.
Qed.

Lemma last_default : forall (A : Type) (l : list A) a d d', last (a :: l) d = last (a :: l) d'.
Proof. induction l as [|b l IH]; intros; [reflexivity|]. exact (IH b d d'). Qed.

Lemma undo_all : forall cs d, V d -> Forall (good V) cs ->
  let st := run (map to_op cs) (mkSt d init_stk) in
  doc (iter (undocount (stack st)) (fun s => snd (undo s)) st) = d.
Proof.
  intros cs d HV HF st.
  assert (Hl : forall (cs : list (cmd D)) (h : hist D), last (past h) (cur h) = last (past (sp_run cs h)) (cur (sp_run cs h))).
  { clear. induction cs as [|c cs IH]; intros h; [reflexivity|].
    change (sp_run (c :: cs) h) with (sp_run cs (sp_step h c)).
    rewrite <- IH. destruct h as [p c0 f]. destruct c; simpl.
    - destruct (effect g c0); simpl; [|reflexivity]. destruct p; [reflexivity|apply last_default].
    - destruct p; [reflexivity|apply last_default].
    - destruct p as [|a [|b p]]; [reflexivity|reflexivity|exact (last_default D p b c0 a)].
    - destruct f; simpl; [reflexivity|]. destruct p; [reflexivity|apply last_default].
    - reflexivity. }
  pose proof (run_inv cs _ _ (init_inv d HV) HF) as HI. fold st in HI.
  specialize (Hl cs (mkHist [] d [])). simpl in Hl.
  set (h := sp_run cs (mkHist [] d [])) in *. clearbody h st.
  assert (L : undocount (stack st) = List.length (past h)).
  { destruct HI as (_ & _ & _ & Hp & _). exact (past_len _ _ _ Hp). }
  rewrite L. clear L.
  remember (List.length (past h)) as n eqn:En. revert h st HI Hl En.
  induction n as [|n IH]; intros h st HI Hl En.
  - destruct (past h); [|discriminate]. simpl in *. destruct HI as (Hd & _). congruence.
  - simpl. apply (IH (sp_step h CUndo)).
    + exact (proj1 (step_inv h st CUndo HI I)).
    + destruct h as [[|a p] c0 f]; simpl in *; [discriminate|].
      rewrite Hl. destruct p; [reflexivity|apply last_default].
    + destruct h as [[|a p] c0 f]; simpl in *; [discriminate|]. now inversion En.
Qed.

(** Exceptions. *)
Lemma call_fail : forall g (st : state D) d' ps, next g (doc st) = (NRaise, d', ps) \/ next g (doc st) = (NEnd, d', ps) ->
  call g st = (false, mkSt d' (append_all (stack st) ps)).
Proof. intros g st d' ps [H|H]; unfold call, act_do; simpl; rewrite H; reflexivity. Qed.

(** Group as one step, on any stack that records. *)
Lemma group_step : forall h st desc gs, Inv h st ->
  Forall (fun g => reversible V g /\ never_fails V g) gs ->
  let st' := snd (exec (OGroup desc (map OCall gs)) st) in
  doc st' = effects gs (doc st) /\
  (exists e, undos (stack st') = e :: undos (stack st) /\ entry_text e = desc) /\
  redos (stack st') = [] /\
  doc (snd (undo st')) = doc st /\
  undos (stack (snd (undo st'))) = undos (stack st) /\
  doc (snd (redo (snd (undo st')))) = doc st'.
Proof.
  intros h [d s] desc gs HI HF.
  destruct HI as (Hd & HV & Hr & Hp & Hf). simpl in *. subst d.
  destruct (group_run gs (set_new_receiver s) (List.length (lists s)) (cur h))
      as (acts & d' & s' & E & Ed & HV' & Eu & Er & Es & El & Hdo & psx & Hu); auto.
  { simpl. rewrite app_length. simpl. lia. }
  rewrite E. simpl.
  simpl in El. rewrite app_nth2, Nat.sub_diag in El by lia. simpl in El.
  set (st' := mkSt d' (group_exit desc (List.length (lists s)) s')).
  assert (U : exists ls, undo st' = (true, mkSt (cur h)
     (mkStk (undos s) [EGrp desc (map strip_act acts)] RMain ls (savept s)))).
  { edestruct (undo_ok st' (EGrp desc acts) (undos s)) as (ls & ->).
    - unfold st', group_exit, reset_receiver; simpl. now rewrite El, Eu.
    - unfold st'. simpl. rewrite Hu. reflexivity.
    - simpl. rewrite Es. simpl. eexists; reflexivity. }
  destruct U as (ls & U).
  split; [assumption|]. split.
  { unfold group_exit, reset_receiver; simpl. rewrite El, Eu. eexists; split; reflexivity. }
  split; [reflexivity|]. fold st'. rewrite U. simpl. split; [reflexivity|]. split; [reflexivity|].
  edestruct (redo_ok (mkSt (cur h) (mkStk (undos s) [EGrp desc (map strip_act acts)] RMain ls (savept s))))
    as (ls' & ->); [reflexivity| |reflexivity].
  simpl. rewrite Hdo. reflexivity.
Qed.

(** Savepoints: the histories in which [haschanged] can be trusted. *)
(** document at undo level n, if there is one *)
Definition timeline (h : hist D) : list D := rev (past h) ++ cur h :: future h.
Definition level (h : hist D) (n : nat) : option D := nth_error (timeline h) n.

Lemma level_cur : forall h, level h (List.length (past h)) = Some (cur h).
Proof.
  intros h. unfold level, timeline. rewrite nth_error_app2; rewrite rev_length; [|lia].
  now rewrite Nat.sub_diag.
Qed.

Lemma nth_error_prefix : forall (A : Type) n (l l' : list A) m, firstn m l = firstn m l' -> n < m ->
  nth_error l n = nth_error l' n.
Proof.
  intros A n l l' m H Hn. revert l l' m H Hn. induction n as [|n IH]; intros l l' m H Hn;
  destruct m; try lia; destruct l, l'; simpl in *; try congruence.
  eapply IH with (m := m); [congruence|lia].
Qed.

Lemma level_step : forall h c n, n <= List.length (past h) \/ (c = CUndo \/ c = CRedo) ->
  forall x, level h n = Some x -> level (sp_step h c) n = Some x.
Proof.
  intros [p c0 f] c n H x Hx. unfold level, timeline in *. simpl in *.
  assert (K : forall d f', n <= List.length p ->
     nth_error (rev (c0 :: p) ++ d :: f') n = nth_error (rev p ++ c0 :: f) n).
  { intros d f' Hn. simpl. rewrite <- app_assoc. simpl.
    destruct (Nat.eq_dec n (List.length p)) as [->|].
    - rewrite !nth_error_app2; rewrite rev_length; try lia. now rewrite Nat.sub_diag.
    - rewrite !nth_error_app1; rewrite ?rev_length; try lia; auto. }
  destruct c; simpl.
  - destruct H as [H|[H|H]]; try discriminate.
    destruct (effect g c0); simpl; [rewrite <- Hx; apply K, H | exact Hx].
  - destruct H as [H|[H|H]]; try discriminate. rewrite <- Hx. apply K, H.
  - destruct p as [|a p]; simpl; [exact Hx|]. rewrite <- Hx. simpl. now rewrite <- app_assoc.
  - destruct f as [|a f]; simpl; [exact Hx|]. rewrite <- Hx. now rewrite <- app_assoc.
  - exact Hx.
Qed.

Lemma level_run : forall cs h n x, no_rewrite n cs h -> level h n = Some x ->
  level (sp_run cs h) n = Some x.
Proof.
  induction cs as [|c cs IH]; intros h n x H Hx; [exact Hx|].
  change (sp_run (c :: cs) h) with (sp_run cs (sp_step h c)).
  inversion H; subst; apply IH; auto; apply level_step; auto.
Qed.

Lemma run_savept : forall cs h st, Inv h st -> Forall (good V) cs -> ~ In CSave cs ->
  savept (stack (run (map to_op cs) st)) = savept (stack st).
Proof.
  induction cs as [|c cs IH]; intros h st HI HF Hs; [reflexivity|].
  inversion HF; subst. change (run (map to_op (c :: cs)) st) with (run (map to_op cs) (snd (exec (to_op c) st))).
  destruct (step_inv h st c HI H1) as [HI' Hsv].
  rewrite (IH (sp_step h c)); auto.
  - apply Hsv. intros ->. apply Hs. now left.
  - intros Hin. apply Hs. now right.
Qed.

Lemma haschanged_ok : forall cs1 cs2 d, V d -> Forall (good V) cs1 -> Forall (good V) cs2 ->
  ~ In CSave cs2 ->
  let h1 := sp_run cs1 (mkHist [] d []) in
  no_rewrite (List.length (past h1)) cs2 h1 ->
  let st1 := run (map to_op cs1) (mkSt d init_stk) in
  let st2 := run (map to_op (CSave :: cs2)) st1 in
  haschanged (stack st2) = false -> doc st2 = doc st1.
Proof.
  intros cs1 cs2 d HV HF1 HF2 Hs h1 Hnr st1 st2 Hc.
  pose proof (run_inv cs1 _ _ (init_inv d HV) HF1) as HI1. fold st1 h1 in HI1.
  destruct (step_inv h1 st1 CSave HI1 I) as [HIs _]. simpl in HIs.
  set (sts := mkSt (doc st1) (savepoint (stack st1))) in *.
  assert (E2 : st2 = run (map to_op cs2) sts) by reflexivity.
  pose proof (run_inv cs2 _ _ HIs HF2) as HI2. rewrite <- E2 in HI2.
  pose proof (run_savept cs2 _ _ HIs HF2 Hs) as Esv. rewrite <- E2 in Esv.
  unfold haschanged in Hc. rewrite Esv in Hc. simpl in Hc.
  apply negb_false_iff, Nat.eqb_eq in Hc.
  destruct HI1 as (Hd1 & _ & _ & Hp1 & _). destruct HI2 as (Hd2 & _ & _ & Hp2 & _).
  unfold undocount in Hc. rewrite (past_len _ _ _ Hp1), (past_len _ _ _ Hp2) in Hc.
  pose proof (level_run _ _ _ _ Hnr (level_cur h1)) as L.
  rewrite Hc, level_cur in L. congruence.
Qed.

End Proofs.
Arguments timeline {D}. Arguments level {D}. Arguments Inv {D}.

Open Scope string_scope.

Lemma undo_redo_identity_l :
  forall (D : Type) (V : D -> Prop) (cs : list (cmd D)) (d : D),
  V d -> Forall (good V) cs ->
  let st := run (map to_op cs) (mkSt d init_stk) in
  forall n, n <= undocount (stack st) ->
  same_history (iter n (fun s => snd (redo s)) (iter n (fun s => snd (undo s)) st)) st.
Proof.
  exact (fun D V cs d HV HF n Hn =>
    let HI := run_inv D V cs _ _ (init_inv D V d HV) HF in
    undo_redo_n D V n _ _ HI
      (eq_ind _ (fun k => n <= k) Hn _
         (past_len D V _ _ _ (proj1 (proj2 (proj2 (proj2 HI))))))).
Qed.

Lemma group_is_one_step_l :
  forall (D : Type) (V : D -> Prop) (cs : list (cmd D)) (d : D) desc gs,
  V d -> Forall (good V) cs ->
  Forall (fun g => reversible V g /\ never_fails V g) gs ->
  let st := run (map to_op cs) (mkSt d init_stk) in
  let st' := snd (exec (OGroup desc (map OCall gs)) st) in
  doc st' = effects gs (doc st) /\
  (exists e, undos (stack st') = e :: undos (stack st) /\ entry_text e = desc) /\
  redos (stack st') = [] /\
  doc (snd (undo st')) = doc st /\
  undos (stack (snd (undo st'))) = undos (stack st) /\
  doc (snd (redo (snd (undo st')))) = doc st'.
Proof.
  exact (fun D V cs d desc gs HV HF HG =>
    group_step D V _ _ desc gs (run_inv D V cs _ _ (init_inv D V d HV) HF) HG).
Qed.

Lemma failed_call_records_nothing_l :
  forall (D : Type) (g : gen D) (st : state D),
  fst (call g st) = false -> snd (next g (doc st)) = [] ->
  stack (snd (call g st)) = stack st.
Proof.
  intros D g st; unfold call, act_do; simpl; intros H1 H2;
    destruct (next g (doc st)) as [[o d'] ps]; destruct o; simpl in *; subst ps;
    try discriminate H1; reflexivity.
Qed.

Lemma raising_undo_clears_l :
  forall (D : Type) (st : state D),
  (fst (undo st) = false ->
     let s := stack (snd (undo st)) in
     undos s = [] /\ redos s = [] /\ recv s = RMain /\ haschanged s = true) /\
  (fst (redo st) = false ->
     let s := stack (snd (redo st)) in
     undos s = [] /\ redos s = [] /\ recv s = RMain /\ haschanged s = true).
Proof.
  intros D st; split; [unfold undo; destruct (undos (stack st)) as [|e us]; [discriminate|];
            destruct (entry_undo e (doc st)) as [[[e'|] d'] ps]
           |unfold redo; destruct (redos (stack st)) as [|e us]; [discriminate|];
            destruct (entry_do e (doc st)) as [[[e'|] d'] ps]];
    simpl; try discriminate; intros _; repeat split.
Qed.

Lemma recording_continues_l :
  forall (D : Type) (V : D -> Prop) (cs : list (cmd D)) (d : D) g t r d' ,
  V d -> Forall (good V) cs ->
  let st := run (map to_op cs) (mkSt d init_stk) in
  next g (doc st) = (NYield t r, d', []) ->
  undocount (stack (snd (call g st))) = S (undocount (stack st)) /\
  undotext (stack (snd (call g st))) = Some ("Undo " ++ t).
Proof.
  intros D V cs d g t r d' HV HF; intros st Hn;
    pose proof (run_inv D V cs _ _ (init_inv D V d HV) HF) as HI; fold st in HI;
    destruct HI as (_ & _ & Hr & _);
    unfold call, act_do; simpl; rewrite Hn; simpl;
    rewrite (append_main D _ _ Hr); unfold undocount, undotext; simpl; split; reflexivity.
Qed.

Lemma new_action_discards_redo_l :
  forall (D : Type) (g : gen D) (st : state D),
  recv (stack st) = RMain -> fst (call g st) = true ->
  canredo (stack (snd (call g st))) = false /\ canundo (stack (snd (call g st))) = true.
Proof.
  intros D g st Hr; unfold call, act_do; simpl;
    destruct (next g (doc st)) as [[o d'] ps]; destruct o; simpl; try discriminate; intros _;
    assert (E : forall (ps : list (action D)) s, recv s = RMain -> recv (append_all s ps) = RMain)
      by (clear; induction ps as [|a ps IH]; intros s H; [exact H|];
          simpl; apply IH; unfold append; rewrite H; reflexivity);
    rewrite (append_main D _ _ (E ps _ Hr)); split; reflexivity.
Qed.

Lemma undo_moves_one_entry_l :
  forall (D : Type) (st : state D) e us, undos (stack st) = e :: us ->
  fst (undo st) = true ->
  undos (stack (snd (undo st))) = us /\
  tl (redos (stack (snd (undo st)))) = redos (stack st) /\
  List.length (redos (stack (snd (undo st)))) = S (List.length (redos (stack st))) /\
  redotext (stack (snd (undo st))) = Some ("Redo " ++ entry_text e).
Proof.
  intros D st e us Hu; destruct (entry_undo e (doc st)) as [[[e'|] d'] ps] eqn:He;
    [ destruct (undo_ok D st e us _ _ _ Hu He) as (ls & E); rewrite E; intros _; simpl;
      repeat split; unfold redotext; simpl; f_equal; f_equal;
      destruct e as [a|s l]; simpl in He;
      [ destruct (act_undo a (doc st)) as [[[a'|] dd] pp] eqn:Ea; inversion He; subst; simpl;
        unfold act_undo in Ea; destruct (a_run a); [|discriminate];
        destruct (next g (doc st)) as [[o x] y]; destruct o; inversion Ea; reflexivity
      | destruct (acts_undo l (doc st)) as [[[a'|] dd] pp]; inversion He; reflexivity]
    | destruct (undo_exn D st e us _ _ Hu He) as (ls & E); rewrite E; discriminate ].
Qed.

Lemma redo_moves_one_entry_l :
  forall (D : Type) (st : state D) e rs, redos (stack st) = e :: rs ->
  fst (redo st) = true ->
  redos (stack (snd (redo st))) = rs /\
  tl (undos (stack (snd (redo st)))) = undos (stack st) /\
  undocount (stack (snd (redo st))) = S (undocount (stack st)).
Proof.
  intros D st e us Hu; destruct (entry_do e (doc st)) as [[[e'|] d'] ps] eqn:He;
    [ destruct (redo_ok D st e us _ _ _ Hu He) as (ls & E); rewrite E; intros _; simpl; repeat split
    | destruct (redo_exn D st e us _ _ Hu He) as (ls & E); rewrite E; discriminate ].
Qed.

Lemma redocount_partial_l :
  forall (D : Type) (V : D -> Prop) (cs : list (cmd D)) (d : D),
  V d -> Forall (good V) cs ->
  let st := run (map to_op cs) (mkSt d init_stk) in
  let h := sp_run cs (mkHist [] d []) in
  (redocount (stack st) = List.length (future h) <-> List.length (past h) = List.length (future h)).
Proof.
  intros D V cs d HV HF; pose proof (refinement D V cs d HV HF) as (_ & E & _);
    unfold redocount; unfold undocount in E; simpl; rewrite E; split; auto.
Qed.
