(** Every program keeps the state consistent. *)
From stdpp Require Import gmap strings list sorting.
From Coq Require Import ZArith QArith String Lia.
From Verif Require Import Gmsh_Model Gmsh_Spec Gmsh_Proofs.
Local Open Scope nat_scope.
Local Notation length := List.length.

Notation T := (fun _ : st => True).
Lemma ok_weak {A} P (m : M A) Q : ok T m Q -> ok P m Q.
Proof. intros H. by eapply ok_mono; [exact H| |]. Qed.
Lemma ok_T {A} P (m : M A) Q : ok P m Q -> ok P m (fun _ => T).
Proof. intros H. by eapply ok_mono; [exact H| |]. Qed.
(** Binding when nothing but the result's property is needed afterwards. *)
Lemma ok_then {A B} P Q R (m : M A) (f : A -> M B) : ok P m Q -> (forall a, ok (Q a) (f a) R) -> ok P (bind m f) R.
Proof. intros H Hf. eapply ok_bind; [exact H|exact stable_true|done|]. intros a s W [_ HQ]. by apply Hf. Qed.

Lemma bind_ok {A B} (m : M A) (f : A -> M B) s a s1 : m s = (Ok a, s1) -> bind m f s = f a s1.
Proof. intros E. unfold bind. by rewrite E. Qed.
Lemma bind_raise {A B} (m : M A) (f : A -> M B) s s1 : m s = (Raise, s1) -> bind m f s = (Raise, s1).
Proof. intros E. unfold bind. by rewrite E. Qed.
Lemma get_set_eq o s x : sets s !! o = Some (Some x) -> get_set o s = (Ok x, s).
Proof. intros E. unfold get_set. by rewrite E. Qed.
Lemma get_set_cases o s : (exists x, sets s !! o = Some (Some x) /\ get_set o s = (Ok x, s)) \/ get_set o s = (Raise, s).
Proof. unfold get_set. destruct (sets s !! o) as [[x|]|]; eauto. Qed.
Definition keeps {A} (m : M A) : Prop := forall s, sets (snd (m s)) = sets s.
Lemma keeps_bind {A B} (m : M A) (f : A -> M B) : keeps m -> (forall a, keeps (f a)) -> keeps (bind m f).
Proof. intros H Hf s. unfold bind. specialize (H s). destruct (m s) as [[a|] s1]; cbn in *; [|done]. by rewrite Hf. Qed.
Lemma keeps_each {A B} (f : A -> M B) l : (forall a, keeps (f a)) -> keeps (each f l).
Proof. intros H. induction l as [|a l IH]; cbn; [by intros s|]. apply keeps_bind; [apply H|]. intros b. apply keeps_bind; [done|by intros c s]. Qed.
Lemma keeps_complete r d : keeps (complete r d).
Proof. intros s. unfold complete. destruct (regs s !! r) as [x|]; [|done]. destruct (r_dim x) as [d'|]; [|done]. by destruct (Z.eqb d' d). Qed.
Lemma keeps_get_region_name n : keeps (get_region_name n).
Proof. intros s. unfold get_region_name. by destruct (find_name n (names s)). Qed.

Lemma ok_put {B} o (m : oset -> M (list nat)) (k : M B) R :
  (forall x, keeps (m x)) ->
  (forall x, ok (fun s => length (o_regs x) = length (o_tags x) /\ valid (o_regs x) s) (m x)
               (fun rs s => length rs = length (o_tags x) /\ valid rs s)) ->
  ok T k R ->
  ok T (x <~ get_set o ; rs <~ m x ; put_set o (Some (OSet (o_tags x) rs)) ;~ k) R.
Proof.
  intros Hk Hm HR s W _. destruct (get_set_cases o s) as [(x & E & Eg)|Eg].
  2:{ rewrite (bind_raise _ _ _ _ Eg). cbn. split; [done|]. split; [apply later_refl|done]. }
  rewrite (bind_ok _ _ _ _ _ Eg). destruct (Hm x s W (w_sets s W o x E)) as (W1 & L1 & H1). specialize (Hk x s).
  destruct (m x s) as [[rs|] s1] eqn:Em; cbn [fst snd] in *.
  2:{ rewrite (bind_raise _ _ _ _ Em). done. }
  rewrite (bind_ok _ _ _ _ _ Em). destruct H1 as [El Ev]. unfold put_set. erewrite bind_ok by reflexivity. 
  destruct (put_alive s1 o (OSet (o_tags x) rs) W1) as [W2 L2]; [rewrite Hk; eauto|done|done|].
  destruct (HR _ W2 I) as (W3 & L3 & H3). split; [done|]. split; [|done].
  eapply later_trans; [exact L1|]. by eapply later_trans.
Qed.
Lemma valid_forall rs s : Forall (fun b => valid [b] s) rs -> valid rs s.
Proof. intros H. eapply Forall_impl; [exact H|]. intros r V. by inversion V. Qed.
Lemma ok_set_region o r : ok T (set_region o r) (fun _ => T).
Proof.
  apply (ok_put o (fun x => each (fun dt => complete r (fst dt)) (o_tags x))).
  - intros x. apply keeps_each. intros a. apply keeps_complete.
  - intros x. eapply ok_mono; [eapply (ok_each T _ (fun r s => valid [r] s))| |].
    + apply stable_true.
    + intros b. apply stable_valid.
    + intros a _. eapply ok_mono; [apply (ok_complete _ _ T)|done|]. by intros q s [-> V].
    + done.
    + intros bs s [E F]. split; [done|by apply valid_forall].
  - eapply ok_mono; [apply (ok_ret T)|done|done].
Qed.
Lemma ok_set_region_name o n : ok T (set_region_name o n) (fun _ => T).
Proof.
  unfold set_region_name. eapply ok_then; [apply ok_get_set|]. intros x. apply ok_weak.
  eapply ok_then; [apply ok_get_region_name|]. intros r. apply ok_weak, ok_set_region.
Qed.
Lemma ok_modify o f : ok T (modify_regions o f) (fun _ => T).
Proof.
  apply (ok_put o (fun x => each (fun r s => match regs s !! r with
                         | Some g => get_region_name (f (r_name g)) s
                         | None => (Raise, s)
                         end) (o_regs x))).
  - intros x. apply keeps_each. intros a s. destruct (regs s !! a); [apply keeps_get_region_name|done].
  - intros x.
    intros s W [El Ev]. destruct (ok_each T (fun r s => match regs s !! r with
                         | Some g => get_region_name (f (r_name g)) s
                         | None => (Raise, s)
                         end) (fun r s => valid [r] s) (o_regs x)) with (s := s) as (W1 & L1 & H1); auto.
    + apply stable_true.
    + intros b. apply stable_valid.
    + intros a _ s0 W0 _. destruct (regs s0 !! a) as [g|].
      * destruct (ok_get_region_name (f (r_name g)) T s0 W0 I) as (A & B & C). split; [done|]. split; [done|].
        destruct (fst _); [apply C|done].
      * cbn. split; [done|]. split; [apply later_refl|done].
    + split; [done|]. split; [done|]. destruct (fst _); [|done]. destruct H1 as [E F].
      split; [congruence|by apply valid_forall].
  - eapply ok_mono; [apply (ok_ret T)|done|done].
Qed.
Lemma bind_ret {A} (m : M A) s : bind m ret s = m s.
Proof. unfold bind. by destruct (m s) as [[a|] s1]. Qed.
Lemma ok_from_dimtag o : ok T (set_region_from_dimtag o) (fun _ => T).
Proof.
  pose proof (ok_put o (fun x => each (fun dt => get_region_name (joined (show (fst dt)) (show (snd dt)))) (o_tags x)) (ret tt) (fun _ => T)) as H.
  assert (forall s, set_region_from_dimtag o s = (x <~ get_set o ;
    rs <~ each (fun dt => get_region_name (joined (show (fst dt)) (show (snd dt)))) (o_tags x) ;
    put_set o (Some (OSet (o_tags x) rs)) ;~ ret tt) s) as E.
  { intros s. unfold set_region_from_dimtag, bind. destruct (get_set o s) as [[x|] s1]; [|done].
    by destruct (each _ _ s1) as [[rs|] s2]. }
  intros s W HT. rewrite E. apply H; [| | |done|done].
  - intros x. apply keeps_each. intros a. apply keeps_get_region_name.
  - intros x. eapply ok_mono; [eapply (ok_each T _ (fun r s => valid [r] s))| |].
    + apply stable_true.
    + intros b. apply stable_valid.
    + intros a _. eapply ok_mono; [apply (ok_get_region_name _ T)|done|]. by intros q s0 [V _].
    + done.
    + intros bs s0 [E0 F]. split; [done|by apply valid_forall].
  - eapply ok_mono; [apply (ok_ret T)|done|done].
Qed.
Lemma ok_new tags rs : ok (valid rs) (new_set tags rs) (fun _ => T).
Proof. eapply ok_mono; [apply ok_new_set| |done]. cbn. tauto. Qed.
Lemma ok_default d : ok T (default_region d) (fun r s => valid [r] s).
Proof.
  unfold default_region. destruct (_ && _)%bool eqn:E; [|apply ok_raise].
  intros s W _. cbn. split; [done|]. split; [apply later_refl|]. constructor; [|done].
  apply andb_true_iff in E as [E1 E2]. apply Z.leb_le in E1. apply Z.ltb_lt in E2. pose proof (w_def s W). lia.
Qed.
Lemma ok_object d t : ok T (object d t) (fun _ => T).
Proof. unfold object. eapply ok_then; [apply ok_default|]. intros r. apply ok_new. Qed.
Lemma valid_concat (xs : list oset) s : Forall (fun x => valid (o_regs x) s) xs -> valid (List.concat (map o_regs xs)) s.
Proof. induction 1 as [|x xs H _ IH]; cbn; [constructor|]. by apply Forall_app. Qed.
Lemma ok_group os : ok T (group os) (fun _ => T).
Proof.
  assert (ok T (xs <~ each get_set os ; new_set (List.concat (map o_tags xs)) (List.concat (map o_regs xs))) (fun _ => T)) as H.
  { eapply ok_then.
    - eapply (ok_each T _ (fun x s => valid (o_regs x) s)); [apply stable_true|intros b; apply stable_valid|].
      intros a _. eapply ok_mono; [apply (ok_get_set _ T)|done|]. by intros x s [_ V].
    - intros xs. eapply ok_mono; [apply ok_new| |done]. intros s [_ F]. by apply valid_concat. }
  destruct os as [|o [|o' os]]; [exact H| |exact H]. eapply ok_mono; [apply (ok_ret T)|done|done].
Qed.
Lemma ok_dimtagreg o : ok T (dimtagreg o) (fun l s => valid (map snd l) s).
Proof.
  unfold dimtagreg. eapply ok_then; [apply ok_get_set|]. intros x. destruct (_ =? _); [|apply ok_raise].
  eapply ok_mono; [apply ok_ret|exact (fun s H => H)|]. intros l s [-> [El V]].
  replace (map snd _) with (o_regs x); [done|]. symmetry. apply (snd_zip (o_tags x) (o_regs x)). lia.
Qed.
Lemma add_tag_reg {A} i r (v : A) acc q : q ∈ map (fun p => fst (snd p)) (add_tag i r v acc) -> q = r \/ q ∈ map (fun p => fst (snd p)) acc.
Proof.
  induction acc as [|[j [r' vs]] acc IH]; cbn.
  - intros H. apply elem_of_list_singleton in H. by left.
  - destruct (Z.eqb j i); cbn; [by right|]. intros H. apply elem_of_cons in H as [->|H]; [right; constructor|].
    destruct (IH H); [by left|right; by constructor].
Qed.
Lemma ok_by_region l : forall acc,
  ok (valid (map (fun p => fst (snd p)) acc)) (by_region l acc) (fun t s => valid (map (fun p => fst (snd p)) t) s).
Proof.
  induction l as [|[dt r] l IH]; intros acc; cbn.
  - eapply ok_mono; [apply ok_ret|exact (fun s H => H)|]. by intros t s [-> V].
  - eapply ok_bind; [apply ok_complete|apply (stable_valid (map (fun p => fst (snd p)) acc))|exact (fun s H => H)|].
    intros q s W [V [-> V']]. destruct (regs s !! r) as [x|].
    2:{ cbn. split; [done|]. split; [apply later_refl|done]. }
    apply IH; [done|]. unfold valid in *. rewrite Forall_forall in V, V' |- *. intros p Hp.
    apply add_tag_reg in Hp as [->|Hp]; [apply V'; constructor|by apply V].
Qed.
Lemma ok_split_by_region o : ok T (split_by_region o) (fun _ => T).
Proof.
  unfold split_by_region. eapply ok_then; [apply ok_dimtagreg|]. intros l.
  eapply ok_then.
  - eapply ok_mono; [apply ok_by_region|intros s _; constructor|exact (fun a s H => H)].
  - intros t. apply ok_T with (Q := fun bs s => length bs = length t /\ Forall (fun b => True) bs).
    apply (ok_each _ _ (fun _ => T)); [apply stable_valid|intros b; apply stable_true|].
    intros p Hp. eapply ok_mono; [apply ok_new| |done]. intros s V. unfold valid in *. rewrite Forall_forall in V.
    constructor; [|done]. apply V. apply elem_of_list_fmap. eauto.
Qed.
Lemma ok_by_dim l : ok T (by_dim l) (fun _ => T).
Proof.
  induction l as [|[dt r] l IH]; cbn; [eapply ok_mono; [apply (ok_ret T)|done|done]|].
  eapply ok_then; [apply ok_complete|]. intros q. destruct (_ && _)%bool; [by apply ok_weak|apply ok_raise].
Qed.
Lemma ok_split_by_dimension o : ok T (split_by_dimension o) (fun _ => T).
Proof.
  unfold split_by_dimension. eapply ok_then; [apply ok_dimtagreg|]. intros l.
  apply ok_seq; [apply ok_weak, ok_by_dim|apply stable_valid|].
  apply ok_T with (Q := fun bs s => length bs = length [0; 1; 2; 3]%Z /\ Forall (fun b => True) bs).
  apply (ok_each _ _ (fun _ => T)); [apply stable_valid|intros b; apply stable_true|].
  intros d _. eapply ok_mono; [apply ok_new| |done]. intros s V. unfold valid in *. rewrite Forall_forall in V |- *.
  intros r Hr. apply V. apply elem_of_list_fmap in Hr as (p & -> & Hp). apply elem_of_list_fmap. exists p. split; [done|].
  apply elem_of_list_In in Hp. unfold of_dim in Hp. apply List.filter_In in Hp as [Hp _]. by apply elem_of_list_In.
Qed.

Section W.
Context (K : kernel).
Lemma ok_change {A} (f : nat -> option A) : ok T (change f) (fun _ => T).
Proof.
  intros s W _. unfold change. destruct (f (tick s)); cbn; (split; [by apply (wf_ext s)|]); (split; [|done]); apply later_ext; cbn; try done; lia.
Qed.
Lemma ok_ask {A} (f : nat -> option A) : ok T (ask f) (fun _ => T).
Proof.
  intros s W _. unfold ask. destruct (f (tick s)); cbn; (split; [by apply (wf_ext s)|]); (split; [|done]); apply later_ext; cbn; try done; lia.
Qed.
Lemma ok_need : ok T need (fun _ => T).
Proof. intros s W _. cbn. split; [by apply (wf_ext s)|]. split; [|done]. apply later_ext; cbn; done || lia. Qed.
Lemma ok_sync : ok T synchronize (fun _ => T).
Proof.
  intros s W _. cbn. destruct (flag s); (split; [by apply (wf_ext s)|]); (split; [|done]); apply later_ext; cbn; done || lia.
Qed.
Lemma ok_walk X : ok T (walk K X) (fun _ => T).
Proof. intros s W _. cbn. split; [by apply (wf_ext s)|]. split; [|done]. apply later_ext; cbn; done || lia. Qed.
Lemma ok_make d : ok T (make K d) (fun _ => T).
Proof. unfold make. eapply ok_then; [apply ok_change|]. intros t. eapply ok_then; [apply ok_need|]. intros ?. apply ok_object. Qed.
Lemma ok_polygon : ok T (make_polygon K) (fun _ => T).
Proof. unfold make_polygon. eapply ok_then; [apply ok_change|]. intros t. apply ok_object. Qed.
Lemma ok_new_list l : ok T (new_list l) (fun _ => T).
Proof.
  intros s W _. cbn. split; [by apply (wf_ext s)|]. split; [|done]. destruct (later_refl s). split; cbn; eauto.
  intros i x E. exists []. rewrite app_nil_r. by apply lookup_app_l_Some.
Qed.
Lemma ok_rectangle a c : ok T (rectangle K a c) (fun _ => T).
Proof.
  intros s W _. unfold rectangle. destruct (xys s !! a) as [l|] eqn:E.
  2:{ cbn. split; [done|]. split; [apply later_refl|done]. }
  set (s1 := set_xys _ s). assert (wf s1) as W1 by (by apply (wf_ext s)).
  assert (later s s1) as L1.
  { destruct (later_refl s). split; cbn; eauto. intros i x Ex. destruct (decide (i = a)) as [->|N].
    - rewrite list_lookup_insert by (by eapply lookup_lt_Some). exists [0%Q]. congruence.
    - rewrite list_lookup_insert_ne by done. exists []. by rewrite app_nil_r. }
  destruct (_ && _)%bool; [|by cbn].
  assert (forall m : M nat, ok T m (fun _ => T) -> wf (snd (m s1)) /\ later s (snd (m s1)) /\ match fst (m s1) with Ok _ => True | Raise => True end) as Hm.
  { intros m H. destruct (H s1 W1 I) as (A & B & C). split; [done|]. split; [by eapply later_trans|done]. }
  apply Hm. eapply ok_then; [apply ok_change|]. intros t. eapply ok_then.
  - instantiate (1 := fun _ => T). intros s0 W0 _. cbn. split; [by apply (wf_ext s0)|]. split; [|done]. apply later_ext; cbn; done || lia.
  - intros ?. eapply ok_then; [apply ok_need|]. intros ?. apply ok_object.
Qed.
Lemma ok_get o : ok T (get_set o) (fun x s => valid (o_regs x) s).
Proof. eapply ok_mono; [apply (ok_get_set _ T)|done|]. by intros x s [_ V]. Qed.
Lemma ok_move o : ok T (move K o) (fun _ => T).
Proof.
  unfold move. eapply ok_then; [apply ok_get|]. intros x. apply ok_weak. eapply ok_then; [apply ok_change|].
  intros ?. eapply ok_then; [apply ok_need|]. intros ?. eapply ok_mono; [apply (ok_ret T)|done|done].
Qed.
Lemma ok_copy o : ok T (copy K o) (fun _ => T).
Proof.
  unfold copy. eapply ok_then; [apply ok_get|]. intros x.
  eapply ok_bind; [apply ok_weak, ok_change|apply stable_valid|exact (fun s H => H)|]. intros t.
  eapply ok_mono; [apply (ok_seq (valid (o_regs x))); [apply ok_weak, ok_need|apply stable_valid|apply ok_new]| |done].
  by intros s [V _].
Qed.
Lemma ok_each_T {A B} (f : A -> M B) l : (forall a, ok T (f a) (fun _ => T)) -> ok T (each f l) (fun _ => T).
Proof. intros H. eapply ok_T, (ok_each T f (fun _ => T)); [apply stable_true|intros b; apply stable_true|]. intros a _. apply H. Qed.
Lemma ok_get_boundary o c : ok T (get_boundary K o c) (fun _ => T).
Proof.
  unfold get_boundary. eapply ok_then; [apply ok_get|]. intros x. apply ok_weak. eapply ok_then; [apply ok_sync|]. intros ?.
  eapply ok_then; [apply ok_ask|]. intros t. eapply ok_then.
  - apply (ok_each T _ (fun r s => valid [r] s)); [apply stable_true|intros b; apply stable_valid|]. intros dt _. apply ok_default.
  - intros rs. eapply ok_mono; [apply ok_new| |done]. intros s [_ F]. by apply valid_forall.
Qed.
Lemma ok_get_boundary_per_region o f : ok T (get_boundary_per_region K o f) (fun _ => T).
Proof.
  unfold get_boundary_per_region. eapply ok_then; [apply ok_split_by_region|]. intros l. apply ok_each_T. intros p.
  eapply ok_then; [apply ok_get|]. intros x. apply ok_weak. intros s W _.
  destruct (head (o_regs x) ≫= _) as [g|]; [|cbn; split; [done|]; split; [apply later_refl|done]].
  destruct (r_dim g) as [d|]; [|cbn; split; [done|]; split; [apply later_refl|done]].
  apply (ok_then T _ (fun _ => T) _ _ (ok_T _ _ _ (ok_region_get _ _ T stable_true))); [|done|done].
  intros b. eapply ok_then; [apply ok_get_boundary|]. intros q. apply ok_set_region.
Qed.
Lemma ok_set_mesh_step o : ok T (set_mesh_step K o) (fun _ => T).
Proof. unfold set_mesh_step. eapply ok_then; [apply ok_get|]. intros x. apply ok_weak. eapply ok_then; [apply ok_sync|]. intros ?. apply ok_ask. Qed.
Lemma ok_selected m : forall l, ok (valid (map snd l)) (selected m l) (fun i s => valid (map snd i) s).
Proof.
  induction m as [|ts m IH]; intros [|p l]; cbn; try (eapply ok_mono; [apply ok_ret|exact (fun s H => H)|]; intros i s [-> _]; constructor).
  assert (ok (valid (snd p :: map snd l)) (selected m l) (fun i s => valid (map snd i) s)) as H.
  { eapply ok_mono; [apply IH| |done]. intros s V. by inversion V. }
  destruct ts as [|t [|t' ts]]; [done| |apply ok_raise].
  eapply ok_bind; [exact H|apply (stable_valid [snd p])|intros s V; by inversion V; constructor|].
  intros i. eapply ok_mono; [apply ok_ret|exact (fun s H => H)|]. intros j s [-> [V1 V2]]. cbn. constructor; [by inversion V1|done].
Qed.
Lemma ok_select o ts : ok T (select_by_intersect K o ts) (fun _ => T).
Proof.
  unfold select_by_intersect. eapply ok_then; [apply ok_copy|]. intros sc.
  eapply ok_then; [eapply ok_then; [apply ok_group|intros g; apply ok_copy]|]. intros tool.
  eapply ok_then; [apply (ok_T _ _ _ (ok_get _))|]. intros x. eapply ok_then; [apply (ok_T _ _ _ (ok_get _))|]. intros y.
  eapply ok_then; [apply ok_change|]. intros m. eapply ok_then; [apply ok_kill|]. intros ?. eapply ok_then; [apply ok_kill|]. intros ?.
  eapply ok_then; [apply ok_dimtagreg|]. intros l. eapply ok_then; [apply ok_selected|]. intros i. apply ok_new.
Qed.
Lemma ok_pieces F (x : oset) m : stable F -> (forall s, F s -> valid (o_regs x) s) ->
  ok F (each (fun p => new_set (snd p) [fst p]) (combine (o_regs x) m)) (fun _ => T).
Proof.
  intros SF H. eapply ok_T, (ok_each _ _ (fun _ => T)); [done|intros b; apply stable_true|].
  intros [r ts] Hp. cbn. eapply ok_mono; [apply ok_new| |done]. intros s V. apply H in V. unfold valid in *. rewrite Forall_forall in V.
  constructor; [|done]. apply V. apply elem_of_list_In, List.in_combine_l in Hp. by apply elem_of_list_In.
Qed.
Lemma ok_fragments os : forall m, ok T (fragments os m) (fun _ => T).
Proof.
  induction os as [|o os IH]; intros m; cbn; [eapply ok_mono; [apply (ok_ret T)|done|done]|].
  eapply ok_then; [apply ok_get|]. intros x. eapply ok_then; [apply ok_pieces; [apply stable_valid|done]|]. intros ns.
  eapply ok_then; [apply ok_group|]. intros g. eapply ok_then; [apply ok_kill|]. intros ?.
  eapply ok_then; [apply IH|]. intros gs. eapply ok_mono; [apply (ok_ret T)|done|done].
Qed.
Lemma ok_fragment os : ok T (fragment K os) (fun _ => T).
Proof.
  unfold fragment. eapply ok_then; [apply ok_each_T; intros a; apply (ok_T _ _ _ (ok_get _))|]. intros xs.
  eapply ok_then; [apply ok_change|]. intros m. destruct (_ && _)%bool; [|apply ok_raise].
  eapply ok_then; [apply ok_fragments|]. intros gs. eapply ok_then; [apply ok_need|]. intros ?. eapply ok_mono; [apply (ok_ret T)|done|done].
Qed.
Lemma foldl_dict l : forall (m : gmap dimtag nat) k r,
  foldl (fun m p => <[fst p := snd p]> m) m l !! k = Some r -> r ∈ map snd l \/ m !! k = Some r.
Proof.
  induction l as [|p l IH]; intros m k r; cbn; [by right|]. intros H. apply IH in H as [H|H]; [left; by constructor|].
  destruct (decide (fst p = k)) as [<-|N].
  - rewrite lookup_insert in H. injection H as <-. left. constructor.
  - rewrite lookup_insert_ne in H by done. by right.
Qed.
Lemma ok_dict_set ks l : ok (valid (map snd l)) (dict_set ks (dict l)) (fun _ => T).
Proof.
  unfold dict_set. eapply ok_then.
  - apply (ok_each _ _ (fun r s => valid [r] s)); [apply stable_valid|intros b; apply stable_valid|].
    intros k _ s W V. destruct (dict l !! k) as [r|] eqn:E; cbn; (split; [done|]; split; [apply later_refl|]); [|done].
    apply foldl_dict in E as [E|E]; [|by rewrite lookup_empty in E]. unfold valid in *. rewrite Forall_forall in V.
    constructor; [|done]. by apply V.
  - intros rs. eapply ok_mono; [apply ok_new| |done]. intros s [_ F]. by apply valid_forall.
Qed.
Lemma ok_keepF {A B} F R (m : M A) (f : A -> M B) : stable F -> ok T m (fun _ => T) -> (forall a, ok F (f a) R) -> ok F (bind m f) R.
Proof. intros SF H Hf. eapply ok_bind; [apply ok_weak, H|exact SF|done|]. intros a s W [HF _]. by apply Hf. Qed.
Lemma ok_keepF2 {A B} F R (m : M A) (f : A -> M B) : stable F -> ok F m (fun _ => T) -> (forall a, ok F (f a) R) -> ok F (bind m f) R.
Proof. intros SF H Hf. eapply ok_bind; [exact H|exact SF|done|]. intros a s W [HF _]. by apply Hf. Qed.
Lemma ok_split_by_cut o ts : ok T (split_by_cut K o ts) (fun _ => T).
Proof.
  unfold split_by_cut. eapply ok_then; [apply (ok_T _ _ _ (ok_get _))|]. intros x. eapply ok_then; [apply ok_group|]. intros t.
  eapply ok_then; [apply ok_fragment|]. intros [|a [|b [|]]]; try apply ok_raise.
  eapply ok_then; [apply ok_dimtagreg|]. intros la.
  eapply ok_bind; [apply ok_weak, ok_dimtagreg|apply (stable_valid (map snd la))|done|]. intros lb.
  set (F := fun s => _ /\ _). assert (stable F) as SF by (apply stable_and; apply stable_valid).
  assert (forall ks, ok F (dict_set ks (dict la)) (fun _ => T)) as HA.
  { intros ks. eapply ok_mono; [apply ok_dict_set| |done]. by intros s [V _]. }
  assert (forall ks, ok F (dict_set ks (dict lb)) (fun _ => T)) as HB.
  { intros ks. eapply ok_mono; [apply ok_dict_set| |done]. by intros s [_ V]. }
  do 3 (apply ok_keepF; [done|apply ok_walk|]; intros ?).
  do 4 (apply ok_keepF2; [done|apply HA || apply HB|]; intros ?).
  eapply ok_mono; [apply (ok_ret T)|done|done].
Qed.
Lemma ok_apply k o ts : ok T (apply_operation K k o ts) (fun _ => T).
Proof.
  unfold apply_operation. eapply ok_then; [apply ok_get|]. intros x.
  apply ok_keepF; [apply stable_valid|eapply ok_then; [apply ok_group|intros g; apply ok_copy]|]. intros t.
  apply ok_keepF; [apply stable_valid|apply (ok_T _ _ _ (ok_get _))|]. intros y.
  apply ok_keepF; [apply stable_valid|apply ok_change|]. intros m.
  destruct (_ =? _); [|apply ok_raise].
  eapply ok_then; [apply ok_pieces; [apply stable_valid|done]|]. intros ns. eapply ok_then; [apply ok_group|]. intros g.
  eapply ok_then; [apply ok_need|]. intros ?. eapply ok_then; [apply ok_kill|]. intros ?. eapply ok_then; [apply ok_kill|]. intros ?.
  eapply ok_mono; [apply (ok_ret T)|done|done].
Qed.
Lemma keep_length {A B} (l : list A) (l' : list B) (ms : list Q) (f : Q -> bool) : length l = length l' ->
  length (map fst (List.filter (fun p => f (snd p)) (combine l ms))) = length (map fst (List.filter (fun p => f (snd p)) (combine l' ms))).
Proof.
  revert l' ms. induction l as [|a l IH]; intros [|a' l'] [|q ms] E; try done. cbn in *. injection E as E.
  destruct (f q); cbn; [f_equal|]; by apply IH.
Qed.
Lemma ok_small o q : ok T (remove_small_mass K o q) (fun _ => T).
Proof.
  intros s W _. unfold remove_small_mass. destruct (get_set_cases o s) as [(x & E & Eg)|Eg].
  2:{ rewrite (bind_raise _ _ _ _ Eg). cbn. split; [done|]. split; [apply later_refl|done]. }
  rewrite (bind_ok _ _ _ _ _ Eg). destruct (w_sets s W o x E) as [El Ev].
  set (f := fun dt s => match k_mass K (tick s) dt with Some m => _ | None => _ end).
  assert (ok T (each f (o_tags x)) (fun _ => T)) as H.
  { apply ok_each_T. intros dt s0 W0 _. unfold f. destruct (k_mass _ _ _); cbn; (split; [by apply (wf_ext s0)|]); (split; [|done]); apply later_ext; cbn; done || lia. }
  assert (keeps (each f (o_tags x))) as Hk.
  { apply keeps_each. intros dt s0. unfold f. by destruct (k_mass _ _ _). }
  destruct (H s W I) as (W1 & L1 & _). specialize (Hk s).
  destruct (each f (o_tags x) s) as [[ms|] s1] eqn:Em; cbn [fst snd] in *.
  2:{ rewrite (bind_raise _ _ _ _ Em). done. }
  rewrite (bind_ok _ _ _ _ _ Em). unfold put_set. erewrite bind_ok by reflexivity. cbn [fst snd ret].
  match goal with |- wf (set_sets (<[o := Some ?y]> _) _) /\ _ => destruct (put_alive s1 o y W1) as [W2 L2] end.
  - rewrite Hk. eauto.
  - cbn. by apply (keep_length _ _ ms (fun q0 => negb (Qle_bool q0 q))).
  - cbn. unfold valid. rewrite Forall_forall. intros r Hr. apply elem_of_list_fmap in Hr as ([r' m'] & -> & Hp).
    apply elem_of_list_In, List.filter_In in Hp as [Hp _]. apply List.in_combine_l, elem_of_list_In in Hp.
    pose proof (stable_valid _ _ _ L1 Ev) as V. unfold valid in V. rewrite Forall_forall in V. by apply V.
  - split; [done|]. split; [|done]. by eapply later_trans.
Qed.
Lemma ok_fractures frs b : ok T (make_fractures K frs b) (fun _ => T).
Proof.
  unfold make_fractures. eapply ok_then; [|intros os; apply ok_fragment]. apply ok_each_T. intros r.
  eapply ok_then; [apply ok_copy|]. intros c. do 3 (eapply ok_then; [apply ok_move|]; intros ?). apply ok_set_region.
Qed.
Lemma ok_collect l : forall rt rn, ok T (collect l rt rn) (fun _ => T).
Proof.
  induction l as [|[[d t] r] l IH]; intros rt rn; cbn; [eapply ok_mono; [apply (ok_ret T)|done|done]|].
  eapply ok_then; [apply (ok_T _ _ _ (ok_complete _ _ T))|]. intros q s W _. destruct (regs s !! r); [by apply IH|].
  cbn. split; [done|]. split; [apply later_refl|done].
Qed.
Lemma ok_rename rt : forall ids k, ok T (rename rt k ids) (fun _ => T).
Proof.
  induction ids as [|i ids IH]; intros k; cbn; [eapply ok_mono; [apply (ok_ret T)|done|done]|].
  destruct (find_region i rt); [|apply ok_raise]. eapply ok_then; [apply ok_set_unique_name|]. intros ?. apply IH.
Qed.
Lemma ok_rename_all rt rn : ok T (rename_all rt rn) (fun _ => T).
Proof.
  unfold rename_all. eapply ok_then; [apply ok_each_T|intros ?; eapply ok_mono; [apply (ok_ret T)|done|done]].
  intros p. destruct (_ <? _); [apply ok_rename|eapply ok_mono; [apply (ok_ret T)|done|done]].
Qed.
Lemma ok_emit p : ok T (emit K p) (fun _ => T).
Proof.
  intros s W _. unfold emit. destruct (regs s !! _) as [x|]; [|cbn; split; [done|]; split; [apply later_refl|done]].
  destruct (r_dim x) as [d|]; [|cbn; split; [done|]; split; [apply later_refl|done]].
  apply (ok_then T (fun _ => T) (fun _ => T)); [apply ok_ask| |done|done]. intros _ s0 W0 _. cbn. split; [by apply (wf_ext s0)|]. split; [|done].
  destruct (later_refl s0). split; cbn; eauto.
Qed.
Lemma ok_assign o : ok T (assign_physical_groups K o) (fun _ => T).
Proof.
  unfold assign_physical_groups. eapply ok_then; [apply ok_sync|]. intros ?. eapply ok_then; [apply (ok_T _ _ _ (ok_dimtagreg _))|]. intros l.
  eapply ok_then; [apply ok_collect|]. intros t. eapply ok_then; [apply ok_rename_all|]. intros ?.
  eapply ok_then; [apply ok_each_T; intros p; apply ok_emit|]. intros ?. eapply ok_mono; [apply (ok_ret T)|done|done].
Qed.
Lemma ok_keep os : ok T (keep_only K os) (fun _ => T).
Proof.
  unfold keep_only. eapply ok_then; [apply ok_sync|]. intros ?. eapply ok_then.
  - instantiate (1 := fun _ => T). destruct os; [eapply ok_mono; [apply (ok_ret T)|done|done]|].
    eapply ok_then; [apply ok_group|]. intros g. eapply ok_mono; [apply (ok_ret T)|done|done].
  - intros g. eapply ok_then; [apply ok_ask|]. intros es. eapply ok_then.
    + instantiate (1 := fun _ => T). destruct g; [apply (ok_T _ _ _ (ok_get _))|eapply ok_mono; [apply (ok_ret T)|done|done]].
    + intros x. eapply ok_then; [apply ok_walk|]. intros l s W _.
      destruct (ok_change (fun k => if k_move K k l then Some tt else None) s W I) as (A & B & _).
      destruct (change _ s) as [r s1]. cbn in *. done.
Qed.
Lemma ok_mesh os e : ok T (make_mesh K os e) (fun _ => T).
Proof.
  unfold make_mesh. eapply ok_then; [apply ok_group|]. intros g. eapply ok_then; [apply ok_assign|]. intros ?. eapply ok_then.
  - instantiate (1 := fun _ => T). destruct e; [apply ok_keep|eapply ok_mono; [apply (ok_ret T)|done|done]].
  - intros ?. eapply ok_then; [apply ok_sync|]. intros ?. apply ok_ask.
Qed.
Lemma ok_dup : ok T (remove_duplicate_entities K) (fun _ => T).
Proof. unfold remove_duplicate_entities. eapply ok_then; [apply ok_sync|]. intros ?. eapply ok_then; [apply ok_change|]. intros ?. apply ok_need. Qed.
Lemma ok_write : ok T (write K) (fun _ => T).
Proof. unfold write. eapply ok_then; [apply ok_sync|]. intros ?. apply ok_ask. Qed.

Lemma ok_step {A} (m : M A) Q s : ok T m Q -> wf s -> wf (snd (m s)) /\ later s (snd (m s)).
Proof. intros H W. destruct (H s W I) as (A1 & B1 & _). done. Qed.
Lemma step_ok o s : wf s -> wf (step K o s) /\ later s (step K o s).
Proof.
  intros W. destruct o; cbn [step]; eapply ok_step; try done.
  - by apply ok_region_get.
  - apply ok_get_region_name.
  - apply ok_make.
  - apply ok_polygon.
  - apply ok_new_list.
  - apply ok_rectangle.
  - apply ok_move.
  - apply ok_copy.
  - apply ok_set_region.
  - apply ok_set_region_name.
  - apply ok_modify.
  - apply ok_from_dimtag.
  - apply ok_group.
  - apply ok_split_by_region.
  - apply ok_split_by_dimension.
  - apply ok_get_boundary.
  - apply ok_get_boundary_per_region.
  - apply ok_set_mesh_step.
  - apply ok_select.
  - apply ok_fragment.
  - apply ok_split_by_cut.
  - apply ok_apply.
  - apply ok_small.
  - apply ok_kill.
  - apply ok_fractures.
  - apply ok_mesh.
  - apply ok_keep.
  - apply ok_dup.
  - apply ok_write.
Qed.
Lemma wf_init : wf init.
Proof.
  split; cbn.
  - intros o x E. by rewrite lookup_nil in E.
  - refine (bool_decide_eq_true_1 (NoDup _) _). by vm_compute.
  - repeat constructor; cbn; lia.
  - constructor.
  - lia.
Qed.
Lemma run_ok os : forall s, wf s -> wf (run K os s) /\ later s (run K os s).
Proof.
  induction os as [|o os IH]; intros s W; cbn; [split; [done|apply later_refl]|].
  destruct (step_ok o s W) as [W1 L1]. destruct (IH _ W1) as [W2 L2]. split; [done|]. by eapply later_trans.
Qed.
End W.
