(** Invariants of all programs. *)
From stdpp Require Import gmap strings list sorting.
From Coq Require Import ZArith QArith String Lia.
From Verif Require Import Gmsh_Model Gmsh_Spec.
Local Open Scope nat_scope.
Local Notation length := List.length.

Lemma later_refl s : later s s.
Proof. split; eauto; try lia. - intros i l E; exists []; by rewrite app_nil_r. - exists []; by rewrite app_nil_r. Qed.
Lemma later_trans a b c : later a b -> later b c -> later a c.
Proof.
  intros H1 H2. split.
  - intros r x E. destruct (l_regs _ _ H1 _ _ E) as (y & Ey & Ei & Hd).
    destruct (l_regs _ _ H2 _ _ Ey) as (z & Ez & Ei' & Hd'). exists z. split; [done|]. split; [congruence|eauto].
  - pose proof (l_sets _ _ H1). pose proof (l_sets _ _ H2). lia.
  - intros o E. by apply (l_dead _ _ H2), (l_dead _ _ H1).
  - intros n r E. by apply (l_names _ _ H2), (l_names _ _ H1).
  - intros i l E. destruct (l_xys _ _ H1 _ _ E) as (l1 & E1). destruct (l_xys _ _ H2 _ _ E1) as (l2 & E2).
    exists (l1 ++ l2). by rewrite app_assoc.
  - destruct (l_groups _ _ H1) as (g1 & E1). destruct (l_groups _ _ H2) as (g2 & E2). exists (g1 ++ g2). by rewrite E2, E1, app_assoc.
  - pose proof (l_max _ _ H1). pose proof (l_max _ _ H2). lia.
  - pose proof (l_tick _ _ H1). pose proof (l_tick _ _ H2). lia.
Qed.
Lemma later_len s s' : later s s' -> length (regs s) <= length (regs s').
Proof.
  intros H. destruct (Nat.le_gt_cases (length (regs s)) (length (regs s'))) as [|G]; [done|exfalso].
  destruct (lookup_lt_is_Some_2 (regs s) (length (regs s')) G) as [x E].
  destruct (l_regs _ _ H _ _ E) as (y & Ey & _). apply lookup_lt_Some in Ey. lia.
Qed.

(** [ok P m Q]: m keeps the state consistent if P holds, and then Q holds of a result. *)
Definition ok {A} (P : st -> Prop) (m : M A) (Q : A -> st -> Prop) : Prop :=
  forall s, wf s -> P s -> wf (snd (m s)) /\ later s (snd (m s)) /\
    match fst (m s) with Ok a => Q a (snd (m s)) | Raise => True end.
Definition stable (P : st -> Prop) : Prop := forall s s', later s s' -> P s -> P s'.

Lemma ok_bind {A B} P Q R F (m : M A) (f : A -> M B) :
  ok P m Q -> stable F -> (forall s, P s -> F s) -> (forall a, ok (fun s => F s /\ Q a s) (f a) R) -> ok P (bind m f) R.
Proof.
  intros Hm SF PF Hf s W HP. destruct (Hm s W HP) as (W1 & L1 & H1). unfold bind.
  destruct (m s) as [[a|] s1]; cbn in *; [|done].
  destruct (Hf a s1 W1) as (W2 & L2 & H2). { split; [|done]. eapply SF; eauto. }
  split; [done|]. split; [|done]. by eapply later_trans.
Qed.
Lemma ok_seq {A B} P R (m : M A) (f : M B) :
  ok P m (fun _ _ => True) -> stable P -> ok P f R -> ok P (bind m (fun _ => f)) R.
Proof. intros H S Hf. eapply ok_bind; [exact H|exact S|done|]. intros a s W [HP _]. by apply Hf. Qed.
Lemma ok_ret {A} P (a : A) : ok P (ret a) (fun b s => b = a /\ P s).
Proof. intros s W HP. cbn. split; [done|]. split; [apply later_refl|done]. Qed.
Lemma ok_raise {A} P Q : ok P (@raise A) Q.
Proof. intros s W HP. cbn. split; [done|]. split; [apply later_refl|done]. Qed.
Lemma ok_mono {A} (P P' : st -> Prop) (Q Q' : A -> st -> Prop) m :
  ok P m Q -> (forall s, P' s -> P s) -> (forall a s, Q a s -> Q' a s) -> ok P' m Q'.
Proof.
  intros H HP HQ s W H'. destruct (H s W (HP _ H')) as (W1 & L1 & H1). split; [done|]. split; [done|].
  destruct (fst (m s)); eauto.
Qed.
Lemma ok_each {A B} F (f : A -> M B) (Q : B -> st -> Prop) l :
  stable F -> (forall b, stable (Q b)) -> (forall a, a ∈ l -> ok F (f a) Q) ->
  ok F (each f l) (fun bs s => length bs = length l /\ Forall (fun b => Q b s) bs).
Proof.
  intros SF SQ. induction l as [|a l IH]; intros H; cbn.
  - eapply ok_mono; [apply ok_ret|done|]. intros b s [-> _]. done.
  - eapply ok_bind; [apply (H a); constructor|exact SF|done|]. intros b.
    eapply (ok_bind _ (fun bs s => length bs = length l /\ Forall (fun b => Q b s) bs) _ (Q b)).
    + eapply ok_mono; [apply IH; intros; apply H; by constructor|by intros ? [? ?]|done].
    + apply SQ.
    + by intros ? [? ?].
    + intros bs. eapply ok_mono; [apply ok_ret|exact (fun s H => H)|].
      intros c s [-> (Hq & E & Hf)]. cbn. split; [lia|]. by constructor.
Qed.

Definition valid (rs : list nat) (s : st) : Prop := Forall (fun r => r < length (regs s)) rs.
Lemma stable_valid rs : stable (valid rs).
Proof. intros s s' L H. eapply Forall_impl; [exact H|]. cbn. intros r. pose proof (later_len _ _ L). lia. Qed.
Lemma stable_and P Q : stable P -> stable Q -> stable (fun s => P s /\ Q s).
Proof. intros HP HQ s s' L [? ?]. split; eauto. Qed.
Lemma stable_true : stable (fun _ => True).
Proof. done. Qed.
Lemma stable_pure (X : Prop) : stable (fun _ => X).
Proof. by intros s s' _. Qed.
Lemma stable_impl (X : Prop) P : stable P -> stable (fun s => X -> P s).
Proof. intros H s s' L HP HX. eapply H; eauto. Qed.

(** ** Primitives *)
Lemma later_regs s R :
  (forall r x, regs s !! r = Some x -> exists y, R !! r = Some y /\ r_id y = r_id x /\ (forall d, r_dim x = Some d -> r_dim y = Some d)) ->
  later s (set_regs R s).
Proof. intros H. destruct (later_refl s). split; cbn; eauto. Qed.
Lemma later_sets s X :
  length (sets s) <= length X -> (forall o, sets s !! o = Some None -> X !! o = Some None) -> later s (set_sets X s).
Proof. intros H H'. destruct (later_refl s). split; cbn; eauto. Qed.

Lemma insert_ids (l : list region) r x y : l !! r = Some x -> r_id y = r_id x -> map r_id (<[r := y]> l) = map r_id l.
Proof.
  intros E H. apply list_eq. intros i. rewrite !list_lookup_fmap.
  destruct (decide (i = r)) as [->|N].
  - rewrite list_lookup_insert by (eapply lookup_lt_Some; eauto). rewrite E. cbn. by rewrite H.
  - by rewrite list_lookup_insert_ne.
Qed.
Lemma wf_insert s r x y : wf s -> regs s !! r = Some x -> r_id y = r_id x -> wf (set_regs (<[r := y]> (regs s)) s).
Proof.
  intros W E H. split; cbn.
  - intros o z Ez. rewrite insert_length. by apply (w_sets s W o).
  - rewrite (insert_ids _ _ x); [apply W|done|done].
  - apply Forall_insert; [apply W|]. rewrite H. pose proof (w_max s W) as F. rewrite Forall_lookup in F. eauto.
  - rewrite insert_length. apply W.
  - rewrite insert_length. apply W.
Qed.
Lemma ok_complete r d P : ok P (complete r d) (fun q s => q = r /\ valid [r] s).
Proof.
  intros s W HP. unfold complete. destruct (regs s !! r) as [x|] eqn:E.
  2:{ cbn. split; [done|]. split; [apply later_refl|done]. }
  assert (r < length (regs s)) as Hr by (eapply lookup_lt_Some; eauto).
  destruct (r_dim x) as [d'|] eqn:Ed.
  - destruct (Z.eqb d' d); cbn; (split; [done|]; split; [apply later_refl|]); [|done].
    split; [done|]. by constructor.
  - cbn. split; [eapply wf_insert; eauto|]. split.
    + apply later_regs. intros q y Eq. destruct (decide (q = r)) as [->|N].
      * rewrite list_lookup_insert by done. eexists. split; [done|]. replace y with x in * by congruence. split; [done|].
        intros d0. rewrite Ed. done.
      * rewrite list_lookup_insert_ne by done. eauto.
    + split; [done|]. constructor; [|done]. cbn. by rewrite insert_length.
Qed.
Lemma ok_set_unique_name r i P : ok P (set_unique_name r i) (fun _ _ => True).
Proof.
  intros s W HP. unfold set_unique_name. destruct (regs s !! r) as [x|] eqn:E.
  2:{ cbn. split; [done|]. split; [apply later_refl|done]. }
  cbn. split; [eapply wf_insert; eauto|]. split; [|done].
  apply later_regs. intros q y Eq. destruct (decide (q = r)) as [->|N].
  - rewrite list_lookup_insert by (eapply lookup_lt_Some; eauto). eexists. split; [done|]. replace y with x in * by congruence. done.
  - rewrite list_lookup_insert_ne by done. eauto.
Qed.
Lemma later_ext s s' :
  regs s' = regs s -> sets s' = sets s -> names s' = names s -> xys s' = xys s -> groups s' = groups s ->
  (max_id s <= max_id s')%Z -> tick s <= tick s' -> later s s'.
Proof. intros E1 E2 E3 E4 E5 E6 E7. destruct (later_refl s). split; rewrite ?E1, ?E2, ?E3, ?E4, ?E5; eauto. Qed.
Lemma wf_ext s s' :
  regs s' = regs s -> sets s' = sets s -> names s' = names s -> (max_id s <= max_id s')%Z -> wf s -> wf s'.
Proof.
  intros E1 E2 E3 E4 [H1 H2 H3 H4 H5]. split; rewrite ?E1, ?E2, ?E3; eauto.
  eapply Forall_impl; [exact H3|]. cbn. lia.
Qed.
Lemma ok_region_get n d P : stable P -> ok P (region_get n d) (fun r s => valid [r] s /\ 4 <= r).
Proof.
  intros SP s W HP. unfold region_get. cbn [fst snd].
  assert (later s (set_regs (regs s ++ [Reg d (max_id s + 1) n]) (set_max (max_id s + 1)%Z s))) as L.
  { destruct (later_refl s). split; cbn; eauto; [|lia]. intros r x E. exists x. split; [|done]. by apply lookup_app_l_Some. }
  split; [|split; [done|]].
  - split; cbn.
    + intros o x E. destruct (w_sets s W o x E) as [E1 F]. split; [done|]. rewrite app_length. cbn.
      eapply Forall_impl; [exact F|]. cbn. lia.
    + rewrite map_app. apply NoDup_app. split; [apply W|]. split; [|apply NoDup_singleton].
      intros i Hi H. apply elem_of_list_singleton in H. apply elem_of_list_fmap in Hi as (x & -> & Hx).
      pose proof (w_max s W) as F. rewrite Forall_forall in F. specialize (F x Hx). cbn in *. lia.
    + apply Forall_app. split; [|by constructor; [cbn; lia|]]. eapply Forall_impl; [apply (w_max s W)|]. cbn. lia.
    + rewrite app_length. eapply Forall_impl; [apply (w_names s W)|]. cbn. lia.
    + rewrite app_length. pose proof (w_def s W). lia.
  - split; [|apply (w_def s W)]. constructor; [|done]. cbn. rewrite app_length. cbn. lia.
Qed.
Lemma ok_get_region_name n P : ok P (get_region_name n) (fun r s => valid [r] s /\ find_name n (names s) = Some r).
Proof.
  intros s W HP. unfold get_region_name. destruct (find_name n (names s)) as [r|] eqn:E.
  - cbn [fst snd]. split; [apply (wf_ext s); cbn; try done; lia|].
    split; [apply later_ext; cbn; try done; lia|]. split; [|done].
    unfold find_name in E. destruct (List.find _ _) as [p|] eqn:Ef; [|done]. injection E as <-.
    apply List.find_some in Ef as [Hin _]. apply elem_of_list_In in Hin.
    pose proof (w_names s W) as F. rewrite Forall_forall in F. constructor; [|done]. by apply F.
  - destruct (ok_region_get n None (fun _ => True) stable_true s W I) as (W1 & L1 & V1).
    unfold bind. destruct (region_get n None s) as [[r|] s1] eqn:Eg; [|done]. cbn [fst snd] in *.
    unfold region_get in Eg. injection Eg as Er Es. destruct V1 as [V1 _].
    assert (names s1 = names s) as En by (by rewrite <- Es).
    split; [|split].
    + destruct W1 as [H1 H2 H3 H4 H5]. split; cbn; eauto. constructor; [|done]. cbn. by inversion V1.
    + destruct L1. split; cbn; eauto. intros m q Em. unfold find_name. cbn.
      destruct (String.eqb n m) eqn:Enm; [|rewrite En; exact Em]. apply String.eqb_eq in Enm. subst m. congruence.
    + split; [done|]. cbn. unfold find_name. cbn. by rewrite String.eqb_refl.
Qed.
Lemma ok_get_set o P : ok P (get_set o) (fun x s => length (o_regs x) = length (o_tags x) /\ valid (o_regs x) s).
Proof.
  intros s W HP. unfold get_set. destruct (sets s !! o) as [[x|]|] eqn:E; cbn; (split; [done|]; split; [apply later_refl|]); try done.
  by apply (w_sets s W o).
Qed.
Lemma wf_sets s X : wf s ->
  (forall o x, X !! o = Some (Some x) -> sets s !! o = Some (Some x) \/ (length (o_regs x) = length (o_tags x) /\ valid (o_regs x) s)) ->
  wf (set_sets X s).
Proof.
  intros W H. split; cbn; try apply W. intros o x E. destruct (H o x E) as [E'|E']; [by apply (w_sets s W o)|done].
Qed.
Lemma ok_kill o P : ok P (invalidate o) (fun _ _ => True).
Proof.
  intros s W HP. unfold invalidate, put_set. cbn. split; [|split; [|done]].
  - apply wf_sets; [done|]. intros i y E. left. apply list_lookup_insert_Some in E as [(_ & [=] & _)|(_ & E)]. done.
  - apply later_sets; [by rewrite insert_length|]. intros i E. destruct (decide (i = o)) as [->|N].
    + apply list_lookup_insert. by eapply lookup_lt_Some.
    + by rewrite list_lookup_insert_ne.
Qed.
Lemma ok_new_set tags rs : ok (fun s => (length rs = 1 \/ True) /\ valid rs s) (new_set tags rs) (fun o s => is_Some (sets s !! o)).
Proof.
  intros s W [_ HV]. unfold new_set.
  assert (forall x, length (o_regs x) = length (o_tags x) -> valid (o_regs x) s ->
    let s' := set_sets (sets s ++ [Some x]) s in wf s' /\ later s s' /\ is_Some (sets s' !! length (sets s))) as N.
  { intros x El Ev. split; [|split].
    - apply wf_sets; [done|]. intros o y E. apply lookup_app_Some in E as [E|[_ E]]; [by left|right].
      apply list_lookup_singleton_Some in E as [_ [= ->]]. done.
    - apply later_sets; [rewrite app_length; lia|]. intros o E. by apply lookup_app_l_Some.
    - cbn. rewrite lookup_app_r by done. rewrite Nat.sub_diag. by eexists. }
  assert (wf s /\ later s s /\ True) as T by (split; [done|]; split; [apply later_refl|done]).
  destruct rs as [|r [|r' rs]].
  - cbn [length]. destruct (0 =? length tags) eqn:E; cbn [fst snd]; [|exact T]. apply Nat.eqb_eq in E. apply N; done.
  - cbn [fst snd]. apply N; cbn; [by rewrite replicate_length|]. apply Forall_replicate. by inversion HV.
  - destruct (_ =? length tags) eqn:E; cbn [fst snd]; [|exact T]. apply Nat.eqb_eq in E. apply N; done.
Qed.
Lemma put_alive s o (y : oset) : wf s -> (exists x, sets s !! o = Some (Some x)) ->
  length (o_regs y) = length (o_tags y) -> valid (o_regs y) s ->
  wf (set_sets (<[o := Some y]> (sets s)) s) /\ later s (set_sets (<[o := Some y]> (sets s)) s).
Proof.
  intros W [x E] El Ev. split.
  - apply wf_sets; [done|]. intros i z Ez. apply list_lookup_insert_Some in Ez as [(_ & [= ->] & _)|(_ & Ez)]; [by right|by left].
  - apply later_sets; [by rewrite insert_length|]. intros i Ei. destruct (decide (i = o)) as [->|N]; [congruence|].
    by rewrite list_lookup_insert_ne.
Qed.
