(** When the kernel is synchronized before it is asked. *)
From stdpp Require Import gmap strings list sorting.
From Coq Require Import ZArith QArith String Lia.
From Verif Require Import Gmsh_Model Gmsh_Spec Gmsh_Proofs Gmsh_Wf Gmsh_Split Gmsh_Frag.
Local Open Scope nat_scope.
Local Notation length := List.length.

(** Calls that do not touch the kernel. *)
Definition quiet {A} (m : M A) : Prop := forall s,
  dirty (snd (m s)) = dirty s /\ flag (snd (m s)) = flag s /\ stale (snd (m s)) = stale s.
Lemma quiet_ret {A} (a : A) : quiet (ret a). Proof. done. Qed.
Lemma quiet_raise {A} : quiet (@raise A). Proof. done. Qed.
Lemma quiet_bind {A B} (m : M A) (f : A -> M B) : quiet m -> (forall a, quiet (f a)) -> quiet (bind m f).
Proof.
  intros Hm Hf s. unfold bind. specialize (Hm s). destruct (m s) as [[a|] s1]; cbn in Hm; [|done].
  destruct (Hf a s1) as (A1 & A2 & A3). destruct Hm as (B1 & B2 & B3). split; [congruence|]. split; congruence.
Qed.
Lemma quiet_each {A B} (f : A -> M B) l : (forall a, quiet (f a)) -> quiet (each f l).
Proof.
  intros H. induction l as [|a l IH]; cbn [each]; [apply quiet_ret|].
  apply quiet_bind; [apply H|]. intros b. apply quiet_bind; [done|]. intros bs. apply quiet_ret.
Qed.
Lemma quiet_get o : quiet (get_set o).
Proof. intros s. unfold get_set. by destruct (sets s !! o) as [[|]|]. Qed.
Lemma quiet_put o x : quiet (put_set o x). Proof. done. Qed.
Lemma quiet_new t rs : quiet (new_set t rs).
Proof. intros s. unfold new_set. destruct rs as [|r [|]]; try (by destruct (_ =? _)); done. Qed.
Lemma quiet_complete r d : quiet (complete r d).
Proof. intros s. unfold complete. destruct (regs s !! r) as [x|]; [|done]. destruct (r_dim x); [|done]. by destruct (Z.eqb _ _). Qed.
Lemma quiet_unique r i : quiet (set_unique_name r i).
Proof. intros s. unfold set_unique_name. by destruct (regs s !! r). Qed.
Lemma quiet_region n d : quiet (region_get n d). Proof. done. Qed.
Lemma quiet_name n : quiet (get_region_name n).
Proof. intros s. unfold get_region_name. by destruct (find_name n (names s)). Qed.
Lemma quiet_default d : quiet (default_region d).
Proof. unfold default_region. destruct (_ && _)%bool; [apply quiet_ret|apply quiet_raise]. Qed.
Lemma quiet_object d t : quiet (object d t).
Proof. apply quiet_bind; [apply quiet_default|]. intros r. apply quiet_new. Qed.
Lemma quiet_group os : quiet (group os).
Proof.
  unfold group. assert (quiet (xs <~ each get_set os ; new_set (List.concat (map o_tags xs)) (List.concat (map o_regs xs)))) as H.
  { apply quiet_bind; [apply quiet_each; apply quiet_get|]. intros xs. apply quiet_new. }
  destruct os as [|o [|]]; [done|apply quiet_ret|done].
Qed.
Lemma quiet_dimtagreg o : quiet (dimtagreg o).
Proof. apply quiet_bind; [apply quiet_get|]. intros x. destruct (_ =? _); [apply quiet_ret|apply quiet_raise]. Qed.
Lemma quiet_set_region o r : quiet (set_region o r).
Proof.
  apply quiet_bind; [apply quiet_get|]. intros x. apply quiet_bind; [apply quiet_each; intros; apply quiet_complete|]. intros rs.
  apply quiet_bind; [apply quiet_put|]. intros ?. apply quiet_ret.
Qed.
Lemma quiet_set_name o n : quiet (set_region_name o n).
Proof. apply quiet_bind; [apply quiet_get|]. intros ?. apply quiet_bind; [apply quiet_name|]. intros r. apply quiet_set_region. Qed.
Lemma quiet_modify o f : quiet (modify_regions o f).
Proof.
  apply quiet_bind; [apply quiet_get|]. intros x. apply quiet_bind.
  - apply quiet_each. intros r s. destruct (regs s !! r); [apply quiet_name|done].
  - intros rs. apply quiet_bind; [apply quiet_put|]. intros ?. apply quiet_ret.
Qed.
Lemma quiet_from o : quiet (set_region_from_dimtag o).
Proof.
  apply quiet_bind; [apply quiet_get|]. intros x. apply quiet_bind; [apply quiet_each; intros; apply quiet_name|]. intros rs. apply quiet_put.
Qed.
Lemma quiet_by_region l : forall acc, quiet (by_region l acc).
Proof.
  induction l as [|[t r] l IH]; intros acc; cbn [by_region]; [apply quiet_ret|]. apply quiet_bind; [apply quiet_complete|].
  intros ? s. destruct (regs s !! r); [apply IH|done].
Qed.
Lemma quiet_split_region o : quiet (split_by_region o).
Proof.
  apply quiet_bind; [apply quiet_dimtagreg|]. intros l. apply quiet_bind; [apply quiet_by_region|]. intros t. apply quiet_each. intros; apply quiet_new.
Qed.
Lemma quiet_by_dim l : quiet (by_dim l).
Proof.
  induction l as [|[t r] l IH]; cbn [by_dim]; [apply quiet_ret|]. apply quiet_bind; [apply quiet_complete|].
  intros ?. destruct (_ && _)%bool; [done|apply quiet_raise].
Qed.
Lemma quiet_split_dim o : quiet (split_by_dimension o).
Proof.
  apply quiet_bind; [apply quiet_dimtagreg|]. intros l. apply quiet_bind; [apply quiet_by_dim|]. intros ?. apply quiet_each. intros; apply quiet_new.
Qed.
Lemma quiet_selected m : forall l, quiet (selected m l).
Proof.
  induction m as [|ts m IH]; intros [|p l]; cbn [selected]; try apply quiet_ret. destruct ts as [|t [|]]; [apply IH| |apply quiet_raise].
  apply quiet_bind; [apply IH|]. intros ?. apply quiet_ret.
Qed.
Lemma quiet_fragments os : forall m, quiet (fragments os m).
Proof.
  induction os as [|o os IH]; intros m; cbn [fragments]; [apply quiet_ret|]. apply quiet_bind; [apply quiet_get|]. intros x.
  apply quiet_bind; [apply quiet_each; intros; apply quiet_new|]. intros ns. apply quiet_bind; [apply quiet_group|]. intros g.
  apply quiet_bind; [apply quiet_put|]. intros ?. apply quiet_bind; [apply IH|]. intros ?. apply quiet_ret.
Qed.
Lemma quiet_collect l : forall rt rn, quiet (collect l rt rn).
Proof.
  induction l as [|[[d t] r] l IH]; intros rt rn; cbn [collect]; [apply quiet_ret|]. apply quiet_bind; [apply quiet_complete|].
  intros ? s. destruct (regs s !! r); [apply IH|done].
Qed.
Lemma quiet_rename rt ids : forall k, quiet (rename rt k ids).
Proof.
  induction ids as [|i ids IH]; intros k; cbn [rename]; [apply quiet_ret|]. destruct (find_region i rt); [|apply quiet_raise].
  apply quiet_bind; [apply quiet_unique|]. intros ?. apply IH.
Qed.
Lemma quiet_rename_all rt rn : quiet (rename_all rt rn).
Proof.
  apply quiet_bind; [|intros ?; apply quiet_ret]. apply quiet_each. intros p. destruct (_ <? _); [apply quiet_rename|apply quiet_ret].
Qed.
Lemma quiet_dict_set ks d : quiet (dict_set ks d).
Proof.
  apply quiet_bind; [|intros ?; apply quiet_new]. apply quiet_each. intros k s. by destruct (d !! k).
Qed.

(** ** Kernel *)
Definition flagged (s : st) : Prop := flag s = true /\ stale s = false.
Definition clean (s : st) : Prop := dirty s = false /\ stale s = false.
Lemma flagged_sync s : flagged s -> synced s.
Proof. intros [A B]. split; auto. Qed.
Lemma clean_sync s : clean s -> synced s.
Proof. intros [A B]. split; [congruence|done]. Qed.
(** From states of one kind into states of another one; synced even if the call raises. *)
Definition tr {A} (I : st -> Prop) (m : M A) (J : st -> Prop) : Prop := forall s, I s ->
  match m s with (Ok _, s') => J s' | (Raise, s') => synced s' end.
Lemma tr_bind {A B} I J L (m : M A) (f : A -> M B) : tr I m J -> (forall a, tr J (f a) L) -> tr I (bind m f) L.
Proof.
  intros Hm Hf s Hs. specialize (Hm s Hs). unfold bind. destruct (m s) as [[a|] s1]; [|done]. by apply Hf.
Qed.
Definition kind (I : st -> Prop) : Prop := (forall s, I s -> synced s) /\
  forall s s', dirty s' = dirty s -> flag s' = flag s -> stale s' = stale s -> I s -> I s'.
Lemma kind_synced : kind synced.
Proof. split; [done|]. intros s s' A B C [H1 H2]. split; rewrite ?A, ?B, ?C; done. Qed.
Lemma kind_flagged : kind flagged.
Proof. split; [apply flagged_sync|]. intros s s' A B C [H1 H2]. split; rewrite ?A, ?B, ?C; done. Qed.
Lemma kind_clean : kind clean.
Proof. split; [apply clean_sync|]. intros s s' A B C [H1 H2]. split; rewrite ?A, ?B, ?C; done. Qed.
Lemma tr_quiet {A} I (m : M A) : kind I -> quiet m -> tr I m I.
Proof.
  intros [HI HE] Hq s Hs. destruct (Hq s) as (A1 & A2 & A3). destruct (m s) as [[a|] s1]; cbn in *; [by apply (HE s)|]. by apply HI, (HE s).
Qed.
Lemma tr_weak {A} (I I' J J' : st -> Prop) (m : M A) : tr I m J -> (forall s, I' s -> I s) -> (forall s, J s -> J' s) -> tr I' m J'.
Proof. intros H H1 H2 s Hs. specialize (H s (H1 _ Hs)). destruct (m s) as [[a|] s1]; auto. Qed.
Lemma tr_each {A B} I (f : A -> M B) l : kind I -> (forall a, tr I (f a) I) -> tr I (each f l) I.
Proof.
  intros KI H. induction l as [|a l IH]; cbn [each]; [apply tr_quiet; [done|apply quiet_ret]|].
  eapply tr_bind; [apply H|]. intros b. eapply tr_bind; [apply IH|]. intros bs. apply tr_quiet; [done|apply quiet_ret].
Qed.
Lemma tr_sync : tr synced synchronize clean.
Proof. intros s [H1 H2]. unfold synchronize, clean. destruct (flag s) eqn:F; cbn; [done|]. split; [|done]. destruct (dirty s); [|done]. exfalso. by specialize (H1 eq_refl). Qed.
Lemma tr_change {A} (f : nat -> option A) : tr flagged (change f) flagged.
Proof. intros s [H1 H2]. unfold change. destruct (f (tick s)); cbn; [done|]. by apply flagged_sync. Qed.
Lemma tr_change_need {A B} J (f : nat -> option A) (g : A -> M B) : (forall a, tr flagged (g a) J) -> tr synced (a <~ change f ; need ;~ g a) J.
Proof.
  intros Hg s [H1 H2]. unfold change, bind. destruct (f (tick s)) as [a|]; cbn.
  - apply Hg. by split.
  - by split.
Qed.
Lemma tr_ask {A} (f : nat -> option A) : tr clean (ask f) clean.
Proof. intros s [H1 H2]. unfold ask. cbn. rewrite H1, H2. cbn. destruct (f (tick s)); [done|]. split; cbn; [congruence|done]. Qed.
Section Ops.
Context (K : kernel).
Ltac q := apply tr_quiet; [first [apply kind_flagged|apply kind_clean|apply kind_synced]|];
  first [apply quiet_ret|apply quiet_raise|apply quiet_get|apply quiet_put|apply quiet_new|apply quiet_object|apply quiet_group|apply quiet_dimtagreg|
         apply quiet_set_region|apply quiet_region|apply quiet_selected|apply quiet_collect|apply quiet_rename_all|apply quiet_dict_set|
         (apply quiet_each; intros; first [apply quiet_get|apply quiet_new|apply quiet_default])].
Ltac b := eapply tr_bind; [|intros ?].
Lemma tr_make d : tr synced (make K d) flagged.
Proof. apply tr_change_need. intros t. q. Qed.
Lemma tr_rectangle a c : tr synced (rectangle K a c) synced.
Proof.
  intros s Hs. unfold rectangle. destruct (xys s !! a) as [l|]; [|done]. cbn zeta.
  set (s1 := set_xys _ s). assert (synced s1) as H1 by exact Hs. destruct (_ && _)%bool; [|done].
  unfold bind at 1. unfold change. destruct (k_add K (tick s1)) as [t|]; [|done].
  unfold bind at 1. unfold need, bind at 1. 
  match goal with |- match object 2 t ?x with _ => _ end => assert (flagged x) as F by (split; [done|apply H1]);
    pose proof (tr_quiet flagged (object 2 t) kind_flagged (quiet_object _ _) x F) as H; destruct (object 2 t x) as [[o|] s2] end; [by apply flagged_sync|done].
Qed.
Lemma tr_move o : tr synced (move K o) flagged.
Proof.
  unfold move. eapply tr_bind; [q|]. intros x. apply (tr_change_need flagged (fun k => if k_move K k (o_tags x) then Some tt else None) (fun _ => ret o)).
  intros ?. q.
Qed.
Lemma tr_copy o : tr synced (copy K o) flagged.
Proof.
  unfold copy. eapply tr_bind; [q|]. intros x. apply (tr_change_need flagged (fun k => k_copy K k (o_tags x)) (fun t => new_set t (o_regs x))).
  intros ?. q.
Qed.
Lemma tr_boundary o c : tr synced (get_boundary K o c) clean.
Proof.
  unfold get_boundary. eapply tr_bind; [q|]. intros x. eapply tr_bind; [apply tr_sync|]. intros ?.
  eapply tr_bind; [apply tr_ask|]. intros t. eapply tr_bind; [|intros rs; q]. apply tr_quiet; [apply kind_clean|]. apply quiet_each. intros dt. apply quiet_default.
Qed.
Lemma tr_boundary_per o f : tr synced (get_boundary_per_region K o f) synced.
Proof.
  unfold get_boundary_per_region. eapply tr_bind; [apply tr_quiet; [apply kind_synced|apply quiet_split_region]|]. intros l.
  apply tr_each; [apply kind_synced|]. intros p. eapply tr_bind; [q|]. intros x s Hs.
  destruct (head (o_regs x) ≫= _) as [g|]; [|done]. destruct (r_dim g) as [d|]; [|done].
  revert s Hs. eapply (tr_bind synced); [q|]. intros r. eapply tr_bind; [eapply tr_weak; [apply tr_boundary|done|apply clean_sync]|].
  intros y. q.
Qed.
Lemma tr_mesh_step o : tr synced (set_mesh_step K o) clean.
Proof. unfold set_mesh_step. eapply tr_bind; [q|]. intros ?. eapply tr_bind; [apply tr_sync|]. intros ?. apply tr_ask. Qed.
Lemma tr_select o ts : tr synced (select_by_intersect K o ts) flagged.
Proof.
  unfold select_by_intersect. eapply tr_bind; [apply tr_copy|]. intros c. eapply tr_bind.
  - eapply tr_bind; [q|]. intros g. eapply tr_weak; [apply tr_copy|apply flagged_sync|done].
  - intros t. eapply tr_bind; [q|]. intros x. eapply tr_bind; [q|]. intros y. eapply tr_bind; [apply tr_change|]. intros m.
    do 2 (eapply tr_bind; [q|]; intros ?). eapply tr_bind; [q|]. intros l. eapply tr_bind; [q|]. intros i. q.
Qed.
Lemma tr_apply k o ts : tr synced (apply_operation K k o ts) flagged.
Proof.
  unfold apply_operation. eapply tr_bind; [q|]. intros x. eapply tr_bind.
  - eapply tr_bind; [q|]. intros g. apply tr_copy.
  - intros t. eapply tr_bind; [q|]. intros y. eapply tr_bind; [apply tr_change|]. intros m. destruct (_ =? _); [|q].
    eapply tr_bind; [q|]. intros ns. eapply tr_bind; [q|]. intros g.
    eapply tr_bind. { intros s [H1 H2]. unfold need. cbn. instantiate (1 := flagged). by split. }
    intros ?. do 2 (eapply tr_bind; [q|]; intros ?). q.
Qed.
Lemma tr_small o l : tr synced (remove_small_mass K o l) synced.
Proof.
  unfold remove_small_mass. eapply tr_bind; [q|]. intros x. eapply tr_bind.
  - apply tr_each; [apply kind_synced|]. intros dt s Hs. destruct (k_mass K (tick s) dt); exact Hs.
  - intros ms. eapply tr_bind; [q|]. intros ?. q.
Qed.
Lemma tr_assign o : tr synced (assign_physical_groups K o) clean.
Proof.
  unfold assign_physical_groups. eapply tr_bind; [apply tr_sync|]. intros ?. eapply tr_bind; [q|]. intros l. eapply tr_bind; [q|]. intros t.
  eapply tr_bind; [q|]. intros ?. eapply tr_bind; [|intros ?; q]. apply tr_each; [apply kind_clean|]. intros p s Hs. unfold emit.
  destruct (regs s !! fst (snd p)) as [x|]; [|by apply clean_sync]. destruct (r_dim x) as [d|]; [|by apply clean_sync].
  revert s Hs. eapply (tr_bind clean); [apply tr_ask|]. intros ? s Hs. exact Hs.
Qed.
Lemma tr_mesh os : tr synced (make_mesh K os false) clean.
Proof.
  unfold make_mesh. eapply tr_bind; [q|]. intros g. eapply tr_bind; [apply tr_assign|]. intros ?. eapply tr_bind; [q|]. intros ?.
  eapply tr_bind; [eapply tr_weak; [apply tr_sync|apply clean_sync|done]|]. intros ?. apply tr_ask.
Qed.
Lemma tr_remove_dup : tr synced (remove_duplicate_entities K) flagged.
Proof.
  unfold remove_duplicate_entities. eapply tr_bind; [apply tr_sync|]. intros ?.
  eapply tr_weak; [apply (tr_change_need flagged (fun k => if k_move K k [] then Some tt else None) (fun _ => ret tt)); intros ?; q|apply clean_sync|done].
Qed.
Lemma tr_write : tr synced (write K) clean.
Proof. unfold write. eapply tr_bind; [apply tr_sync|]. intros ?. apply tr_ask. Qed.

(** fragment needs the sets to be different, and as many answers as objects. *)
Context (len_ok : forall n a m, k_bool K n Fragment a [] = Some m -> length m = length a).
Lemma each_get_ok os : forall s xs s', wf s -> each get_set os s = (Ok xs, s') -> s' = s /\ exists ls, Forall2 (fun o l => contents s o = Some l) os ls.
Proof.
  induction os as [|o os IH]; intros s xs s' W E; cbn [each] in E.
  - injection E as _ <-. split; [done|]. by exists [].
  - unfold bind at 1 in E. unfold get_set at 1 in E. destruct (sets s !! o) as [[x|]|] eqn:Eo; try done.
    unfold bind in E. destruct (each get_set os s) as [[ys|] s1] eqn:E1; [|done]. injection E as _ <-.
    destruct (IH s ys s1 W E1) as (-> & ls & F). split; [done|]. exists (combine (o_tags x) (o_regs x) :: ls). constructor; [|done]. unfold contents. by rewrite Eo.
Qed.
Lemma fragment_synced os s : wf s -> synced s -> os <> [] -> NoDup os -> synced (snd (fragment K os s)).
Proof.
  intros W Hs Ne ND. destruct (each get_set os s) as [[xs|] s1] eqn:E.
  - destruct (each_get_ok os s xs s1 W E) as (-> & ls & F). destruct (concat_tags s os ls W F) as (xs' & E' & Et).
    assert (xs' = xs) as -> by congruence. destruct (k_bool K (tick s) Fragment (map fst (List.concat ls)) []) as [m|] eqn:Ek.
    + destruct (fragment_eq K s os ls m W Ne ND F Ek) as (gs & s' & Ef & C & _). { rewrite (len_ok _ _ _ Ek). by rewrite map_length. }
      rewrite Ef. cbn. apply flagged_sync. destruct C as (C & _). rewrite C. split; cbn; [done|apply Hs].
    + unfold fragment. rewrite (bind_ok _ _ _ _ _ E), Et. erewrite bind_raise by (apply change_raise; exact Ek). exact Hs.
  - unfold fragment. rewrite (bind_raise _ _ _ _ E). cbn. pose proof (tr_quiet synced (each get_set os) kind_synced (quiet_each _ _ quiet_get) s Hs) as H. by rewrite E in H.
Qed.
Lemma quiet_walk X : quiet (walk K X). Proof. done. Qed.
Lemma group_value os s g s1 : group os s = (Ok g, s1) -> os = [g] \/ g = length (sets s).
Proof.
  unfold group. destruct os as [|o [|o' os]].
  - cbn. intros [= <- <-]. by right.
  - cbn. intros [= <- <-]. by left.
  - unfold bind. destruct (each get_set (o :: o' :: os) s) as [[xs|] s2] eqn:E; [|done].
    intros H. right. assert (s2 = s) as ->.
    { clear H. revert xs s2 E. generalize (o :: o' :: os). clear. intros l. induction l as [|a l IH]; intros xs s2 E; cbn [each] in E; [by injection E as _ <-|].
      unfold bind at 1 in E. unfold get_set at 1 in E. destruct (sets s !! a) as [[x|]|]; try done. unfold bind in E. destruct (each get_set l s) as [[ys|] s3] eqn:E1; [|done].
      injection E as _ <-. by eapply IH. }
    unfold new_set in H. destruct (List.concat (map o_regs xs)) as [|r [|]]; repeat (destruct (_ =? _)); try done; by injection H as <- _.
Qed.
Lemma split_cut_synced o ts s : wf s -> synced s -> ts <> [o] -> synced (snd (split_by_cut K o ts s)).
Proof.
  intros W Hs Nt. unfold split_by_cut. unfold get_set at 1. unfold bind at 1. destruct (sets s !! o) as [[x|]|] eqn:Eo; try done.
  unfold bind at 1. pose proof (tr_quiet synced (group ts) kind_synced (quiet_group ts) s Hs) as H1.
  destruct (ok_group ts s W I) as (W1 & _). destruct (group ts s) as [[t|] s1] eqn:E1; [|done]. cbn in W1.
  assert (o <> t) as Not. { intros <-. destruct (group_value _ _ _ _ E1) as [-> | ->]; [done|]. apply lookup_lt_Some in Eo. lia. }
  unfold bind at 1. pose proof (fragment_synced [o; t] s1 W1 H1) as H2.
  assert (synced (snd (fragment K [o; t] s1))) as H3. { apply H2; [done|]. apply NoDup_cons. split; [by rewrite elem_of_list_singleton|apply NoDup_singleton]. }
  destruct (fragment K [o; t] s1) as [[gs|] s2]; [|done]. cbn in H3. destruct gs as [|a [|b [|]]]; try done.
  match goal with |- synced (snd (?m s2)) => assert (tr synced m synced) as HT end.
  { do 2 (eapply tr_bind; [q|]; intros ?). do 3 (eapply tr_bind; [apply tr_quiet; [apply kind_synced|apply quiet_walk]|]; intros ?).
    do 4 (eapply tr_bind; [q|]; intros ?). q. }
  specialize (HT s2 H3). match goal with |- synced (snd (?m s2)) => destruct (m s2) as [[?|] ?] end; exact HT.
Qed.
Lemma copy_value o s c s1 : copy K o s = (Ok c, s1) -> c = length (sets s) /\ length (sets s1) = S (length (sets s)).
Proof.
  unfold copy, bind. destruct (get_set o s) as [[x|] s2] eqn:Eg; [|done]. assert (s2 = s) as -> by (unfold get_set in Eg; destruct (sets s !! o) as [[|]|]; by injection Eg).
  unfold change. destruct (k_copy K (tick s) (o_tags x)) as [t|]; [|done]. unfold need, new_set. cbn.
  destruct (o_regs x) as [|r [|]]; [destruct (_ =? _)| |destruct (_ =? _)]; try done; intros [= <- <-]; cbn; rewrite app_length; cbn; split; try done; lia.
Qed.
Lemma move_value o s c s1 : move K o s = (Ok c, s1) -> c = o /\ sets s1 = sets s.
Proof.
  unfold move, bind. destruct (get_set o s) as [[x|] s2] eqn:Eg; [|done]. assert (s2 = s) as -> by (unfold get_set in Eg; destruct (sets s !! o) as [[|]|]; by injection Eg).
  unfold change. destruct (k_move K (tick s) (o_tags x)); [|done]. cbn. intros [= <- <-]. done.
Qed.
Lemma set_region_value o r s c s1 : set_region o r s = (Ok c, s1) -> c = o /\ length (sets s1) = length (sets s).
Proof.
  unfold set_region, bind. destruct (get_set o s) as [[x|] s2] eqn:Eg; [|done]. assert (s2 = s) as -> by (unfold get_set in Eg; destruct (sets s !! o) as [[|]|]; by injection Eg).
  assert (forall l s, sets (snd (each (fun dt : Z * Z => complete r (fst dt)) l s)) = sets s) as H.
  { clear. induction l as [|a l IH]; intros s2; cbn [each]; [done|]. unfold bind at 1. rewrite complete_eq. destruct (creg r (fst a) (regs s2)) as [R|]; [|done].
    unfold bind. specialize (IH (set_regs R s2)). destruct (each _ l (set_regs R s2)) as [[ys|] s3]; exact IH. }
  specialize (H (o_tags x) s). match goal with |- context [each ?f ?l s] => change (each f l s) with (each (fun dt : Z * Z => complete r (fst dt)) (o_tags x) s) end.
  revert H. generalize (each (fun dt : Z * Z => complete r (fst dt)) (o_tags x) s). intros [[rs|] s3] H; [|done]. cbn in *. intros [= <- <-]. cbn. rewrite insert_length. by rewrite H.
Qed.
Lemma fractures_fresh frs base : forall s bs s',
  each (fun r => c <~ copy K base ; move K c ;~ move K c ;~ move K c ;~ set_region c r) frs s = (Ok bs, s') ->
  NoDup bs /\ Forall (fun b => length (sets s) <= b) bs /\ length bs = length frs.
Proof.
  induction frs as [|r frs IH]; intros s bs s' E; cbn [each] in E; [injection E as <- <-; split; [constructor|]; by split; [constructor|]|].
  unfold bind at 1 in E.
  match type of E with context [match ?m s with _ => _ end] => destruct (m s) as [[c|] s1] eqn:E1 end; [|done].
  assert (c = length (sets s) /\ length (sets s1) = S (length (sets s))) as [-> L].
  { unfold bind at 1 in E1. destruct (copy K base s) as [[c0|] t1] eqn:F1; [|done]. destruct (copy_value _ _ _ _ F1) as [-> L1].
    unfold bind at 1 in E1. destruct (move K _ t1) as [[c1|] t2] eqn:F2; [|done]. destruct (move_value _ _ _ _ F2) as [_ L2].
    unfold bind at 1 in E1. destruct (move K _ t2) as [[c2|] t3] eqn:F3; [|done]. destruct (move_value _ _ _ _ F3) as [_ L3].
    unfold bind at 1 in E1. destruct (move K _ t3) as [[c3|] t4] eqn:F4; [|done]. destruct (move_value _ _ _ _ F4) as [_ L4].
    destruct (set_region_value _ _ _ _ _ E1) as [-> L5]. split; [done|congruence]. }
  unfold bind in E. match type of E with context [each ?f frs s1] => destruct (each f frs s1) as [[cs|] s2] eqn:E2 end; [|done].
  injection E as <- <-. destruct (IH s1 cs s2 E2) as (ND & F & Lc). split; [|split; [|cbn; congruence]].
  - apply NoDup_cons. split; [|done]. intros Hin. rewrite Forall_forall in F. apply F in Hin. lia.
  - constructor; [done|]. eapply Forall_impl; [exact F|]. cbn. lia.
Qed.
Lemma fractures_synced frs base s : wf s -> synced s -> frs <> [] -> synced (snd (make_fractures K frs base s)).
Proof.
  intros W Hs Ne. unfold make_fractures. unfold bind at 1.
  match goal with |- context [each ?f frs s] => set (m := f) end.
  assert (tr synced (each m frs) synced) as HT.
  { apply tr_each; [apply kind_synced|]. intros r. unfold m. eapply tr_bind; [apply tr_copy|]. intros c.
    do 3 (eapply tr_bind; [eapply tr_weak; [apply tr_move|apply flagged_sync|intros ? X; exact X]|]; intros ?). eapply tr_weak; [q|intros ? X; exact X|apply flagged_sync]. }
  specialize (HT s Hs). 
  assert (wf (snd (each m frs s))) as W1.
  { assert (ok T (each m frs) (fun _ _ => True)) as H; [|by apply (H s W I)].
    apply ok_each_T. intros r. unfold m. eapply ok_then; [apply ok_copy|]. intros c.
    do 3 (eapply ok_then; [apply ok_move|]; intros ?). apply ok_set_region. }
  destruct (each m frs s) as [[bs|] s1] eqn:E; [|done]. cbn in W1. destruct (fractures_fresh frs base s bs s1 E) as (ND & _ & L).
  apply fragment_synced; try done. intros ->. by destruct frs.
Qed.
(** Programs. *)
Lemma tr_snd {A} (m : M A) J s : tr synced m J -> (forall s, J s -> synced s) -> synced s -> synced (snd (m s)).
Proof. intros H HJ Hs. specialize (H s Hs). destruct (m s) as [[a|] s1]; cbn; auto. Qed.
Lemma quiet_snd {A} (m : M A) s : quiet m -> synced s -> synced (snd (m s)).
Proof. intros H Hs. eapply tr_snd; [apply tr_quiet; [apply kind_synced|exact H]|done|done]. Qed.
Lemma step_synced o s : wf s -> synced s -> careful o -> synced (step K o s).
Proof.
  intros W Hs Hc. destruct o; cbn [step careful] in *;
    try (apply quiet_snd; [|done]; first [apply quiet_region|apply quiet_name|apply quiet_set_region|apply quiet_set_name|apply quiet_modify|apply quiet_from|
      apply quiet_group|apply quiet_split_region|apply quiet_split_dim|apply quiet_put]).
  - eapply tr_snd; [apply tr_make|apply flagged_sync|done].
  - done.
  - exact Hs.
  - eapply tr_snd; [apply tr_rectangle|done|done].
  - eapply tr_snd; [apply tr_move|apply flagged_sync|done].
  - eapply tr_snd; [apply tr_copy|apply flagged_sync|done].
  - eapply tr_snd; [apply tr_boundary|apply clean_sync|done].
  - eapply tr_snd; [apply tr_boundary_per|done|done].
  - eapply tr_snd; [apply tr_mesh_step|apply clean_sync|done].
  - eapply tr_snd; [apply tr_select|apply flagged_sync|done].
  - apply fragment_synced; tauto.
  - by apply split_cut_synced.
  - eapply tr_snd; [apply tr_apply|apply flagged_sync|done].
  - eapply tr_snd; [apply tr_small|done|done].
  - by apply fractures_synced.
  - subst eliminate. eapply tr_snd; [apply tr_mesh|apply clean_sync|done].
  - done.
  - eapply tr_snd; [apply tr_remove_dup|apply flagged_sync|done].
  - eapply tr_snd; [apply tr_write|apply clean_sync|done].
Qed.
Lemma run_synced os : forall s, wf s -> synced s -> Forall careful os -> synced (run K os s).
Proof.
  induction os as [|o os IH]; intros s W Hs F; [done|]. inversion F; subst. cbn. apply IH; [|by apply step_synced|done]. by apply step_ok.
Qed.
End Ops.

(** keep_only with anything to remove leaves the geometry behind; make_mesh then meshes the old one. *)
Section Stale.
Context (K : kernel).
Lemma keep_only_dirty s o x : synced s -> sets s !! o = Some (Some x) -> (forall n l, k_move K n l = true) ->
  exists s', keep_only K [o] s = (Ok tt, s') /\ dirty s' = true /\ flag s' = false /\ regs s' = regs s /\ sets s' = sets s.
Proof.
  intros [H1 H2] Eo HK. unfold keep_only. erewrite bind_ok by reflexivity. cbn [group]. 
  set (s1 := if flag s then set_flag false (set_dirty false s) else s).
  assert (sets s1 = sets s /\ regs s1 = regs s /\ flag s1 = false) as (E1 & E2 & E3) by (unfold s1; destruct (flag s) eqn:F; done).
  erewrite bind_ok by (erewrite bind_ok by reflexivity; reflexivity).
  erewrite bind_ok by reflexivity.
  erewrite bind_ok by (unfold get_set; cbn; rewrite E1, Eo; reflexivity).
  erewrite bind_ok by reflexivity. unfold change. rewrite HK. eexists. split; [reflexivity|]. cbn. done.
Qed.
End Stale.
