(** fragment, cut, intersect, select_by_intersect, split_by_cut. *)
From stdpp Require Import gmap strings list sorting.
From Coq Require Import ZArith QArith String Lia.
From Verif Require Import Gmsh_Model Gmsh_Spec Gmsh_Proofs Gmsh_Wf Gmsh_Split.
Local Open Scope nat_scope.
Local Notation length := List.length.

Lemma combine_replicate {A B} (ts : list A) (r : B) : combine ts (replicate (length ts) r) = map (fun t => (t, r)) ts.
Proof. induction ts as [|t ts IH]; cbn; [done|]. by rewrite IH. Qed.
Lemma replicate_map {A B} (ts : list A) (r : B) : replicate (length ts) r = map snd (map (fun t => (t, r)) ts).
Proof. induction ts as [|t ts IH]; cbn; [done|]. by rewrite IH. Qed.
Lemma map_fst_pair {A B} (ts : list A) (r : B) : map fst (map (fun t => (t, r)) ts) = ts.
Proof. induction ts as [|t ts IH]; cbn; [done|]. by rewrite IH. Qed.
Lemma inherit_concat l : forall m, inherit l m = List.concat (map (fun p => map (fun t => (t, fst p)) (snd p)) (combine (map snd l) m)).
Proof. induction l as [|[t r] l IH]; intros [|ts m]; cbn; try done. by rewrite IH. Qed.
Lemma inherit_take l : forall m, inherit l (take (length l) m) = inherit l m.
Proof. induction l as [|[t r] l IH]; intros [|ts m]; cbn; try done. by rewrite IH. Qed.

(** Pieces of one object set, put together. *)
Lemma pieces_eq s l m : wf s -> valid (map snd l) s ->
  exists g X, (ns <~ each (fun p => new_set (snd p) [fst p]) (combine (map snd l) m) ; group ns) s = (Ok g, set_sets (sets s ++ X) s) /\
    contents (set_sets (sets s ++ X) s) g = Some (inherit l m) /\ length (sets s) <= g /\ wf (set_sets (sets s ++ X) s).
Proof.
  intros W V. set (ps := combine (map snd l) m).
  pose proof (each_new (fun p : nat * list dimtag => snd p) fst ps s) as E.
  set (F := fun p : nat * list dimtag => map (fun t => (t, fst p)) (snd p)).
  assert (map (fun p : nat * list dimtag => Some (OSet (snd p) (replicate (length (snd p)) (fst p)))) ps =
          map (fun p => Some (OSet (map fst (F p)) (map snd (F p)))) ps) as EM.
  { apply map_ext. intros [r ts]. unfold F. cbn [fst snd]. by rewrite map_fst_pair, replicate_map. }
  cbv beta in E. rewrite EM in E. set (X := map (fun p => Some (OSet (map fst (F p)) (map snd (F p)))) ps) in *.
  assert (wf (set_sets (sets s ++ X) s)) as W1.
  { apply wf_sets; [done|]. intros o x Ex. apply lookup_app_Some in Ex as [Ex|[_ Ex]]; [by left|right].
    unfold X in Ex. rewrite list_lookup_fmap in Ex. destruct (ps !! _) as [p|] eqn:Ep; [|done]. cbn in Ex. injection Ex as <-. cbn.
    rewrite !map_length. split; [done|]. unfold valid in *. rewrite Forall_forall in V |- *. intros r Hr. apply V.
    unfold F in Hr. rewrite map_map in Hr. cbn in Hr. apply elem_of_list_fmap in Hr as (t & -> & _).
    apply elem_of_list_lookup_2, elem_of_list_In in Ep. destruct p as [r ts]. unfold ps in Ep. apply List.in_combine_l in Ep. by apply elem_of_list_In. }
  pose proof (contents_appended s F ps s eq_refl) as HC. fold X in HC.
  rewrite (bind_ok _ _ _ _ _ E). rewrite inherit_concat. fold ps. fold F.
  destruct (decide (length ps = 1)) as [L1|L1].
  - exists (length (sets s)), X. destruct ps as [|p [|p' ps]]; try done. cbn [length seq group ret map List.concat].
    cbn [length seq] in HC. inversion HC as [|? ? ? ? HC1 _]; subst. rewrite app_nil_r. split; [done|]. split; [done|]. split; [done|done].
  - assert (Forall2 (fun o l => contents (set_sets (sets s ++ X) s) o = Some l) (seq (length (sets s)) (length ps)) (map F ps)) as HC'.
    { by apply Forall2_fmap_r. }
    rewrite (group_eq _ _ _ W1 ltac:(by rewrite seq_length) HC'). cbn [sets set_sets]. rewrite set_sets_sets.
    eexists _, (X ++ [_]). rewrite app_assoc. split; [reflexivity|]. split; [|split].
    + unfold contents. cbn. rewrite lookup_app_r by done. rewrite Nat.sub_diag. cbn. by rewrite combine_map.
    + rewrite app_length. lia.
    + change (set_sets ((sets s ++ X) ++ ?y) s) with (set_sets (sets (set_sets (sets s ++ X) s) ++ y) (set_sets (sets s ++ X) s)).
      apply wf_sets; [done|]. intros o x Ex. apply lookup_app_Some in Ex as [Ex|[_ Ex]]; [by left|right].
      apply list_lookup_singleton_Some in Ex as [_ [= <-]]. cbn [o_tags o_regs]. rewrite !map_length. split; [done|].
      unfold valid in *. rewrite Forall_forall in V |- *. intros r Hr. apply V.
      apply elem_of_list_fmap in Hr as ([t q] & -> & Hq). apply elem_of_list_In, List.in_concat in Hq as (k & Hk & Hq).
      apply List.in_map_iff in Hk as ([r' ts] & <- & Hp). unfold F in Hq. apply List.in_map_iff in Hq as (t' & [= <- <-] & _).
      unfold ps in Hp. apply List.in_combine_l in Hp. by apply elem_of_list_In.
Qed.

(** What a state s' has of s after sets [os] were consumed. *)
Definition consumed (os : list nat) (s s' : st) : Prop :=
  s' = set_sets (sets s') s /\ length (sets s) <= length (sets s') /\
  (forall o, o ∈ os -> sets s' !! o = Some None) /\
  (forall o, o ∉ os -> o < length (sets s) -> sets s' !! o = sets s !! o).
Lemma consumed_contents os s s' o l : consumed os s s' -> o ∉ os -> contents s o = Some l -> contents s' o = Some l.
Proof. intros (_ & _ & _ & H) No E. unfold contents. rewrite H; [exact E|done|by eapply contents_lt]. Qed.
Lemma wf_kill s o : wf s -> wf (set_sets (<[o := None]> (sets s)) s).
Proof. intros W. by destruct (ok_kill o T s W I) as (W1 & _). Qed.
(** The slices of a map. *)
Lemma fragments_eq os : forall ls m s, wf s -> NoDup os -> Forall2 (fun o l => contents s o = Some l) os ls ->
  exists gs s', fragments os m s = (Ok gs, s') /\ consumed os s s' /\ wf s' /\ length gs = length os /\ NoDup gs /\
    Forall (fun g => length (sets s) <= g) gs /\
    forall i l, ls !! i = Some l -> exists g, gs !! i = Some g /\
      contents s' g = Some (inherit l (take (length l) (drop (length (List.concat (take i ls))) m))).
Proof.
  induction os as [|o os IH]; intros ls m s W ND H.
  - inversion H; subst. exists [], s. cbn. split; [done|]. split.
    { split; [by rewrite set_sets_id|]. split; [done|]. split; [intros o Ho; by apply elem_of_nil in Ho|done]. }
    split; [done|]. split; [done|]. split; [constructor|]. split; [constructor|done].
  - inversion H as [|? l ? ls' H1 H2]; subst. apply NoDup_cons in ND as [No ND]. cbn [fragments].
    destruct (contents_some s o l W H1) as (x & Ex & Et & Er & V). rewrite (bind_ok _ _ _ _ _ (get_set_eq _ _ _ Ex)).
    rewrite Et, Er, map_length.
    destruct (pieces_eq s l (take (length l) m) W V) as (g & X & E & HC & Hg & W1).
    set (s1 := set_sets (sets s ++ X) s) in *.
    unfold bind at 1 in E. destruct (each _ _ s) as [[ns|] s0] eqn:Ee; [|done].
    rewrite (bind_ok _ _ _ _ _ Ee). rewrite (bind_ok _ _ _ _ _ E). unfold invalidate, put_set. erewrite bind_ok by reflexivity.
    set (s2 := set_sets (<[o := None]> (sets s1)) s1).
    assert (wf s2) as W2 by (by apply wf_kill).
    assert (length (sets s2) = length (sets s) + length X) as L2 by (unfold s2, s1; cbn; rewrite insert_length, app_length; done).
    assert (o < length (sets s)) as Ho by (by eapply contents_lt).
    assert (forall q, q <> o -> q < length (sets s) -> sets s2 !! q = sets s !! q) as Hs2.
    { intros q Nq Hq. unfold s2, s1. cbn. rewrite list_lookup_insert_ne by done. by rewrite lookup_app_l. }
    assert (Forall2 (fun o l => contents s2 o = Some l) os ls') as H2'.
    { apply Forall2_lookup. intros i. rewrite Forall2_lookup in H2. specialize (H2 i).
      destruct (os !! i) as [q|] eqn:Eq; inversion H2 as [? y Hy Ea Eb|]; subst; constructor.
      unfold contents. rewrite Hs2; [exact Hy| |by eapply contents_lt].
      intros ->. by apply No, elem_of_list_lookup_2 with i. }
    destruct (IH ls' (drop (length l) m) s2 W2 ND H2') as (gs & s' & E' & C' & W' & Lg & NDg & Fg & HG).
    rewrite (bind_ok _ _ _ _ _ E'). exists (g :: gs), s'. destruct C' as (C1 & C2 & C3 & C4).
    assert (g < length (sets s2)) as Hg2.
    { pose proof (contents_lt _ _ _ HC) as Hlt. unfold s1 in Hlt. cbn in Hlt. rewrite app_length in Hlt. lia. }
    split; [done|]. split; [|split; [done|split; [cbn; congruence|split; [|split]]]].
    + split; [by rewrite C1 at 1|]. split; [lia|]. split.
      * intros q Hq. apply elem_of_cons in Hq as [->|Hq]; [|by apply C3]. rewrite C4; [|done|lia].
        unfold s2, s1. cbn. apply list_lookup_insert. rewrite app_length. lia.
      * intros q Nq Hq. apply not_elem_of_cons in Nq as [Nq1 Nq2]. rewrite C4; [|done|lia]. by apply Hs2.
    + constructor; [|done]. intros Hin. rewrite Forall_forall in Fg. apply Fg in Hin. lia.
    + constructor; [done|]. eapply Forall_impl; [exact Fg|]. intros y Hy; cbv beta in *; lia.
    + intros [|i] l0 E0; cbn in E0.
      * injection E0 as ->. exists g. split; [done|]. cbn [take List.concat length drop].
        unfold contents. rewrite C4; [|intros Hin; rewrite Forall_forall in Fg|done].
        -- unfold s2. cbn. rewrite list_lookup_insert_ne by lia. exact HC.
        -- rewrite Forall2_lookup in H2. apply elem_of_list_lookup in Hin as [j Ej]. specialize (H2 j). rewrite Ej in H2.
           inversion H2 as [? y Hy|]; subst. apply contents_lt in Hy. lia.
      * destruct (HG i l0 E0) as (g' & Eg' & Hg'). exists g'. split; [done|]. rewrite Hg'. cbn [take List.concat].
        rewrite app_length, drop_drop. done.
Qed.
Lemma dead_bind {A B} P Q (m : M A) (f : A -> M B) s o : wf s -> ok P m Q -> P s -> sets s !! o = Some None ->
  (forall a s1, wf s1 -> sets s1 !! o = Some None -> Q a s1 -> fst (f a s1) = Raise) -> fst (bind m f s) = Raise.
Proof.
  intros W H HP E Hf. destruct (H s W HP) as (W1 & L1 & H1). unfold bind. destruct (m s) as [[a|] s1]; cbn in *; [|done].
  apply Hf; [done|by apply (l_dead _ _ L1)|done].
Qed.
Lemma fragments_dead os : forall m s o, wf s -> o ∈ os -> sets s !! o = Some None -> fst (fragments os m s) = Raise.
Proof.
  induction os as [|p os IH]; intros m s o W Ho E; [by apply elem_of_nil in Ho|]. cbn [fragments].
  apply elem_of_cons in Ho as [->|Ho].
  { destruct (get_set_cases p s) as [(x & Ex & Eg)|Eg]; [congruence|by rewrite (bind_raise _ _ _ _ Eg)]. }
  eapply (dead_bind T); [done|apply ok_get|done|exact E|]. intros x s1 W1 E1 V1.
  eapply (dead_bind (valid (o_regs x))); [done|apply ok_pieces; [apply stable_valid|done]|done|exact E1|]. intros ns s2 W2 E2 _.
  eapply (dead_bind T); [done|apply ok_group|done|exact E2|]. intros g s3 W3 E3 _.
  eapply (dead_bind T); [done|apply ok_kill|done|exact E3|]. intros u s4 W4 E4 _.
  pose proof (IH (drop (length (o_tags x)) m) s4 o W4 Ho E4) as H. unfold bind. by destruct (fragments os _ s4) as [[gs|] s5].
Qed.
Lemma fragments_dup os : forall m s, wf s -> ~ NoDup os -> fst (fragments os m s) = Raise.
Proof.
  induction os as [|p os IH]; intros m s W N; [exfalso; apply N; constructor|]. cbn [fragments].
  destruct (get_set_cases p s) as [(x & Ex & Eg)|Eg]; [|by rewrite (bind_raise _ _ _ _ Eg)].
  rewrite (bind_ok _ _ _ _ _ Eg). destruct (w_sets s W p x Ex) as [El V].
  destruct (ok_pieces (valid (o_regs x)) x (take (length (o_tags x)) m) (stable_valid _) (fun _ H => H) s W V) as (W1 & L1 & _).
  destruct (each _ _ s) as [[ns|] s1] eqn:E1; [|by rewrite (bind_raise _ _ _ _ E1)]. rewrite (bind_ok _ _ _ _ _ E1). cbn in W1, L1.
  destruct (ok_group ns s1 W1 I) as (W2 & L2 & _).
  destruct (group ns s1) as [[g|] s2] eqn:E2; [|by rewrite (bind_raise _ _ _ _ E2)]. rewrite (bind_ok _ _ _ _ _ E2). cbn in W2, L2.
  unfold invalidate, put_set. erewrite bind_ok by reflexivity. pose proof (wf_kill s2 p W2) as W3.
  assert (fst (fragments os (drop (length (o_tags x)) m) (set_sets (<[p := None]> (sets s2)) s2)) = Raise) as H.
  { destruct (decide (NoDup os)) as [ND|ND]; [|by apply IH]. apply (fragments_dead os _ _ p); [done| |].
    - destruct (decide (p ∈ os)); [done|]. exfalso. apply N. by constructor.
    - cbn. apply list_lookup_insert. apply lookup_lt_Some in Ex. pose proof (l_sets _ _ L1). pose proof (l_sets _ _ L2). lia. }
  unfold bind. by destruct (fragments os _ _) as [[gs|] s5].
Qed.

Section F.
Context (K : kernel).
Lemma concat_tags s os ls : wf s -> Forall2 (fun o l => contents s o = Some l) os ls ->
  exists xs, each get_set os s = (Ok xs, s) /\ List.concat (map o_tags xs) = map fst (List.concat ls).
Proof.
  intros W H. destruct (contents_all s os ls W H) as (xs & F & E1 & E2). exists xs. split; [by apply each_get|].
  by rewrite E1, concat_map_map.
Qed.
Lemma contents_eq s s' o : sets s' = sets s -> contents s' o = contents s o.
Proof. unfold contents. by intros ->. Qed.
Lemma change_eq {A} (f : nat -> option A) s a : f (tick s) = Some a -> change f s = (Ok a, set_dirty true (set_tick (S (tick s)) s)).
Proof. unfold change. by intros ->. Qed.
Lemma change_raise {A} (f : nat -> option A) s : f (tick s) = None -> change f s = (Raise, set_tick (S (tick s)) s).
Proof. unfold change. by intros ->. Qed.
Lemma fragment_eq s os ls m : wf s -> os <> [] -> NoDup os -> Forall2 (fun o l => contents s o = Some l) os ls ->
  k_bool K (tick s) Fragment (map fst (List.concat ls)) [] = Some m -> length m = length (List.concat ls) ->
  exists gs s', fragment K os s = (Ok gs, s') /\
    consumed os (set_flag true (set_dirty true (set_tick (S (tick s)) s))) s' /\ wf s' /\ length gs = length os /\ NoDup gs /\
    Forall (fun g => length (sets s) <= g) gs /\
    forall i l, ls !! i = Some l -> exists g, gs !! i = Some g /\
      contents s' g = Some (inherit l (take (length l) (drop (length (List.concat (take i ls))) m))).
Proof.
  intros W Ne ND H Em El. destruct (concat_tags s os ls W H) as (xs & Ex & Et). unfold fragment.
  rewrite (bind_ok _ _ _ _ _ Ex), Et. erewrite bind_ok by (apply change_eq; exact Em). rewrite map_length, El, Nat.eqb_refl.
  destruct os as [|o os]; [done|]. cbn [length Nat.ltb Nat.leb andb].
  set (s1 := set_dirty true (set_tick (S (tick s)) s)).
  destruct (fragments_eq (o :: os) ls m s1) as (gs & s' & E' & C' & W' & Lg & NDg & Fg & HG); [by apply (wf_ext s)|done|done|].
  rewrite (bind_ok _ _ _ _ _ E'). unfold need. erewrite bind_ok by reflexivity. exists gs, (set_flag true s').
  destruct C' as (C1 & C2 & C3 & C4). split; [done|]. split.
  { split; [by rewrite C1 at 1|]. split; [done|]. split; [done|]. exact C4. }
  split; [by apply (wf_ext s')|]. done.
Qed.

Lemma fragment_raise s os : wf s -> ~ NoDup os -> fst (fragment K os s) = Raise.
Proof.
  intros W N. unfold fragment, bind. destruct (ok_each_T get_set os (fun a => ok_T _ _ _ (ok_get a)) s W I) as (W1 & _ & _).
  destruct (each get_set os s) as [[xs|] s1]; [|done]. cbn in W1.
  match goal with |- context [change ?f s1] => destruct (ok_change f s1 W1 I) as (W2 & _ & _); destruct (change f s1) as [[m|] s2] end; [|done].
  cbn in W2. destruct (_ && _)%bool; [|done]. pose proof (fragments_dup os m s2 W2 N) as H.
  unfold bind. by destruct (fragments os m s2) as [[gs|] s5].
Qed.
Lemma copy_eq s o l t : wf s -> contents s o = Some l -> k_copy K (tick s) (map fst l) = Some t -> length t = length l ->
  let s1 := set_flag true (set_dirty true (set_tick (S (tick s)) s)) in
  copy K o s = (Ok (length (sets s)), set_sets (sets s ++ [Some (OSet t (map snd l))]) s1).
Proof.
  intros W E Et El s1. destruct (contents_some s o l W E) as (x & Ex & Ett & Er & V). unfold copy.
  rewrite (bind_ok _ _ _ _ _ (get_set_eq _ _ _ Ex)), Ett, Er. erewrite bind_ok by (apply change_eq; exact Et).
  unfold need. erewrite bind_ok by reflexivity. rewrite new_set_eq by (rewrite map_length; done). done.
Qed.
(** The state after sets were added and the kernel was called. *)
Definition grown (s s' : st) : Prop :=
  wf s' /\ regs s' = regs s /\ names s' = names s /\ groups s' = groups s /\ xys s' = xys s /\ exists X, sets s' = sets s ++ X.
Lemma grown_contents s s' o l : grown s s' -> contents s o = Some l -> contents s' o = Some l.
Proof. intros (_ & _ & _ & _ & _ & X & E) H. unfold contents in *. rewrite E. destruct (sets s !! o) as [y|] eqn:Ey; [|done]. by rewrite (lookup_app_l_Some _ _ _ _ Ey). Qed.
Lemma grown_refl s : wf s -> grown s s.
Proof. intros W. split; [done|]. do 4 (split; [done|]). exists []. by rewrite app_nil_r. Qed.
Lemma grown_trans a b c : grown a b -> grown b c -> grown a c.
Proof.
  intros (W1 & R1 & N1 & G1 & X1 & Y1 & E1) (W2 & R2 & N2 & G2 & X2 & Y2 & E2). split; [done|].
  repeat (split; [congruence|]). exists (Y1 ++ Y2). by rewrite E2, E1, app_assoc.
Qed.
Lemma wf_app s l t : wf s -> length t = length l -> valid l s -> wf (set_sets (sets s ++ [Some (OSet t l)]) s).
Proof.
  intros W El V. apply wf_sets; [done|]. intros o x E. apply lookup_app_Some in E as [E|[_ E]]; [by left|right].
  apply list_lookup_singleton_Some in E as [_ [= <-]]. done.
Qed.
Lemma copy_grown s o l t : wf s -> contents s o = Some l -> k_copy K (tick s) (map fst l) = Some t -> length t = length l ->
  exists c s', copy K o s = (Ok c, s') /\ grown s s' /\ c = length (sets s) /\ contents s' c = Some (combine t (map snd l)) /\
    flag s' = true /\ tick s' = S (tick s).
Proof.
  intros W E Et El. rewrite (copy_eq s o l t W E Et El). destruct (contents_some s o l W E) as (x & Ex & Ett & Er & V).
  eexists _, _. split; [reflexivity|]. split; [|split; [done|split; [|done]]].
  - split.
    + set (s1 := set_flag true _). change (sets s) with (sets s1). apply wf_app; [by apply (wf_ext s)|by rewrite map_length|done].
    + repeat (split; [done|]). by eexists.
  - unfold contents. cbn. rewrite lookup_app_r by done. by rewrite Nat.sub_diag.
Qed.
Lemma group_grown s os ls : wf s -> Forall2 (fun o l => contents s o = Some l) os ls ->
  exists g s', group os s = (Ok g, s') /\ grown s s' /\ contents s' g = Some (List.concat ls) /\ tick s' = tick s /\ flag s' = flag s /\
    dirty s' = dirty s /\
    (length os <> 1 -> g = length (sets s)) /\ (forall o, os = [o] -> g = o /\ s' = s).
Proof.
  intros W H. destruct (decide (length os = 1)) as [L1|L1].
  - destruct os as [|o [|]]; try done. inversion H as [|? l ? ls' H1 H2]; subst. inversion H2; subst. exists o, s. cbn. rewrite app_nil_r.
    split; [done|]. split; [by apply grown_refl|]. do 5 (split; [done|]). intros o' [= <-]. done.
  - rewrite (group_eq s os ls W L1 H). eexists _, _. split; [reflexivity|]. split; [|split; [|do 3 (split; [done|]); split; [done|]]].
    + split; [|repeat (split; [done|]); by eexists]. apply wf_app; [done|by rewrite !map_length|].
      unfold valid. rewrite Forall_forall. intros r Hr. apply elem_of_list_fmap in Hr as ([t q] & -> & Hq).
      apply elem_of_list_In, List.in_concat in Hq as (k & Hk & Hq). apply elem_of_list_In, elem_of_list_lookup in Hk as [i Ei].
      rewrite Forall2_lookup in H. specialize (H i). rewrite Ei in H. inversion H as [o ? Ho Ea Eb|]; subst.
      destruct (contents_some s o k W Ho) as (_ & _ & _ & _ & V). unfold valid in V. rewrite Forall_forall in V. apply V.
      apply elem_of_list_fmap. exists (t, q). split; [done|by apply elem_of_list_In].
    + rewrite contents_new. cbn. by rewrite combine_map.
    + intros o ->. done.
Qed.
Lemma sets_kill s o : sets (set_sets (<[o := None]> (sets s)) s) = <[o := None]> (sets s).
Proof. done. Qed.
(** cut, intersect and fragment of one object set *)
Lemma apply_eq s k o l ts ls t m : wf s -> contents s o = Some l -> Forall2 (fun o l => contents s o = Some l) ts ls ->
  k_copy K (tick s) (map fst (List.concat ls)) = Some t -> length t = length (List.concat ls) ->
  k_bool K (S (tick s)) k (map fst l) t = Some m ->
  exists g s', apply_operation K k o ts s = (Ok g, s') /\ wf s' /\ contents s' g = Some (inherit l m) /\ length (sets s) <= g /\
    regs s' = regs s /\ names s' = names s /\ groups s' = groups s /\ flag s' = true /\ sets s' !! o = Some None /\
    (forall q lq, q <> o -> contents s q = Some lq -> contents s' q = Some lq).
Proof.
  intros W E H Et Elt Em. destruct (contents_some s o l W E) as (x & Ex & Ett & Er & V). unfold apply_operation.
  rewrite (bind_ok _ _ _ _ _ (get_set_eq _ _ _ Ex)).
  destruct (group_grown s ts ls W H) as (g0 & s1 & E1 & G1 & C1 & T1 & F1 & D1 & _).
  destruct (copy_grown s1 g0 (List.concat ls) t) as (c & s2 & E2 & G2 & Ec & C2 & F2 & T2); [apply G1|done|by rewrite T1|done|].
  erewrite bind_ok by (erewrite bind_ok by exact E1; exact E2).
  assert (map fst (combine t (map snd (List.concat ls))) = t) as Ef.
  { apply (fst_zip t (map snd (List.concat ls))). rewrite map_length. lia. }
  destruct (contents_some s2 c _ (proj1 G2) C2) as (y & Ey & Eyt & Eyr & _).
  rewrite (bind_ok _ _ _ _ _ (get_set_eq _ _ _ Ey)), Eyt, Ef, Ett, Er.
  erewrite bind_ok by (apply change_eq; rewrite T2, T1; exact Em). rewrite !map_length, Nat.eqb_refl.
  set (s3 := set_dirty true _). assert (wf s3) as W3 by (apply (wf_ext s2); try done; apply G2).
  pose proof (grown_trans _ _ _ G1 G2) as G12.
  assert (valid (map snd l) s3) as V3.
  { unfold valid, s3. cbn. destruct G12 as (_ & -> & _). done. }
  destruct (pieces_eq s3 l (take (length l) m) W3 V3) as (g & X & Ep & HC & Hg & W4). rewrite inherit_take in HC.
  unfold bind at 1 in Ep. destruct (each _ _ s3) as [[ns|] s4] eqn:Ee; [|done].
  rewrite (bind_ok _ _ _ _ _ Ee). rewrite (bind_ok _ _ _ _ _ Ep). unfold need, invalidate, put_set. repeat (erewrite bind_ok by reflexivity).
  eexists g, _. split; [reflexivity|]. cbn [sets set_sets set_flag].
  assert (length (sets s) <= length (sets s1) /\ length (sets s1) < length (sets s2)) as [Hl1 Hl2].
  { destruct G1 as (_ & _ & _ & _ & _ & Y1 & EY1). destruct G2 as (_ & _ & _ & _ & _ & Y2 & EY2). apply contents_lt in C2.
    rewrite EY1, app_length. rewrite EY1, app_length in Ec. lia. }
  assert (o < length (sets s)) as Ho by (by eapply contents_lt).
  assert (sets s3 = sets s2) as E3 by done. rewrite E3 in *.
  assert (g < length (sets s2 ++ X)) as Hgl by (apply contents_lt in HC; cbn in HC; done).
  split; [|split; [|split; [lia|]]].
  - set (s5 := set_flag true (set_sets (sets s2 ++ X) s3)).
    change (wf (set_sets (<[c := None]> (sets (set_sets (<[o := None]> (sets s5)) s5))) (set_sets (<[o := None]> (sets s5)) s5))).
    apply wf_kill, wf_kill. by apply (wf_ext (set_sets (sets s2 ++ X) s3)).
  - unfold contents in HC |- *. cbn in HC |- *. rewrite !list_lookup_insert_ne by lia. exact HC.
  - destruct G12 as (_ & R12 & N12 & Gr12 & _ & Y & EY). cbn. split; [done|]. split; [done|]. split; [done|]. split; [done|]. split.
    + rewrite list_lookup_insert_ne by lia. apply list_lookup_insert. rewrite app_length. lia.
    + intros q lq Nq Hq. unfold contents in Hq |- *. cbn. pose proof (contents_lt s q lq Hq) as Hlt.
      rewrite list_lookup_insert_ne by lia. rewrite list_lookup_insert_ne by done. rewrite EY, <- app_assoc, lookup_app_l by done. exact Hq.
Qed.
End F.
