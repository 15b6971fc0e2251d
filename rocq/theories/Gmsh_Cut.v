(** select_by_intersect and split_by_cut. *)
From stdpp Require Import gmap strings list sorting.
From Coq Require Import ZArith QArith String Lia.
From Verif Require Import Gmsh_Model Gmsh_Spec Gmsh_Proofs Gmsh_Wf Gmsh_Split Gmsh_Frag.
Local Open Scope nat_scope.
Local Notation length := List.length.

Lemma selected_eq m : forall l s, Forall (fun ts => length ts <= 1) (take (length l) m) -> selected m l s = (Ok (picked l m), s).
Proof.
  induction m as [|ts m IH]; intros [|p l] s F; cbn in F |- *; try done. inversion F as [|? ? F1 F2]; subst.
  destruct ts as [|t [|t' ts]]; cbn in F1 |- *; [by apply IH| |lia]. by rewrite (bind_ok _ _ _ _ _ (IH l s F2)).
Qed.
Lemma selected_raise m : forall l s, ~ Forall (fun ts => length ts <= 1) (take (length l) m) -> selected m l s = (Raise, s).
Proof.
  induction m as [|ts m IH]; intros [|p l] s F; cbn in F |- *; try (exfalso; apply F; exact (Forall_nil_2 _)).
  destruct ts as [|t [|t' ts]]; [apply IH; intros F'; apply F; by constructor; [cbn; lia|]| |done].
  rewrite (bind_raise _ _ _ _ (IH l s ltac:(intros F'; apply F; by constructor; [cbn; lia|]))). done.
Qed.
Lemma picked_elem p l : forall m, p ∈ picked l m -> p ∈ l.
Proof.
  induction l as [|q l IH]; intros [|ts m] H; cbn in H; try (by apply elem_of_nil in H).
  apply elem_of_app in H as [H|H]; [|constructor; by eapply IH]. destruct (_ =? _); [|by apply elem_of_nil in H].
  apply elem_of_list_singleton in H as ->. constructor.
Qed.
Section C.
Context (K : kernel).
Lemma select_eq s o l ts ls c1 c2 m : wf s -> contents s o = Some l -> Forall2 (fun o l => contents s o = Some l) ts ls ->
  k_copy K (tick s) (map fst l) = Some c1 -> length c1 = length l ->
  k_copy K (S (tick s)) (map fst (List.concat ls)) = Some c2 -> length c2 = length (List.concat ls) ->
  k_bool K (S (S (tick s))) Intersect c1 c2 = Some m ->
  let good := Forall (fun ts => length ts <= 1) (take (length l) m) in
  exists s', wf s' /\ regs s' = regs s /\ names s' = names s /\ groups s' = groups s /\ flag s' = true /\
    (forall q lq, contents s q = Some lq -> contents s' q = Some lq) /\
    (good -> exists g, select_by_intersect K o ts s = (Ok g, s') /\ contents s' g = Some (picked l m)) /\
    (~ good -> select_by_intersect K o ts s = (Raise, s')).
Proof.
  intros W E H E1 L1 E2 L2 Em good.
  destruct (copy_grown K s o l c1 W E E1 L1) as (sc & s1 & X1 & G1 & Hc1 & C1 & F1 & T1).
  assert (Forall2 (fun o l => contents s1 o = Some l) ts ls) as H1.
  { eapply Forall2_impl; [exact H|]. intros a b Hab. by eapply grown_contents. }
  destruct (group_grown s1 ts ls (proj1 G1) H1) as (g0 & s2 & X2 & G2 & C2 & T2 & F2 & D2 & _).
  destruct (copy_grown K s2 g0 (List.concat ls) c2) as (tool & s3 & X3 & G3 & Hc3 & C3 & F3 & T3); [apply G2|done|by rewrite T2, T1|done|].
  pose proof (grown_contents _ _ _ _ G3 (grown_contents _ _ _ _ G2 C1)) as C1'.
  pose proof (grown_trans _ _ _ G1 (grown_trans _ _ _ G2 G3)) as G13.
  destruct (contents_some s3 sc _ (proj1 G3) C1') as (x & Ex & Ext & _ & _).
  destruct (contents_some s3 tool _ (proj1 G3) C3) as (y & Ey & Eyt & _ & _).
  assert (map fst (combine c1 (map snd l)) = c1) as Ef1 by (apply (fst_zip c1 (map snd l)); rewrite map_length; lia).
  assert (map fst (combine c2 (map snd (List.concat ls))) = c2) as Ef2 by (apply (fst_zip c2 (map snd (List.concat ls))); rewrite map_length; lia).
  set (s4 := set_dirty true (set_tick (S (tick s3)) s3)).
  set (s5 := set_sets (<[tool := None]> (sets s4)) s4). set (s6 := set_sets (<[sc := None]> (sets s5)) s5).
  assert (wf s6) as W6 by (apply wf_kill, wf_kill, (wf_ext s3); try done; apply G3).
  assert (length (sets s) <= tool /\ length (sets s) <= sc) as [Lt Ls].
  { split; [|lia]. destruct G1 as (_ & _ & _ & _ & _ & Y1 & EY1). destruct G2 as (_ & _ & _ & _ & _ & Y2 & EY2).
    rewrite Hc3, EY2, EY1, !app_length. lia. }
  assert (forall q lq, contents s q = Some lq -> contents s6 q = Some lq) as HK.
  { intros q lq Hq. pose proof (contents_lt _ _ _ Hq). pose proof (grown_contents _ _ _ _ G13 Hq) as Hq'.
    unfold contents in Hq' |- *. unfold s6, s5, s4. cbn. rewrite !list_lookup_insert_ne by lia. exact Hq'. }
  destruct G13 as (_ & R13 & N13 & Gr13 & _).
  assert (select_by_intersect K o ts s = (i <~ selected m l ; new_set (map fst i) (map snd i)) s6) as EQ.
  { unfold select_by_intersect. rewrite (bind_ok _ _ _ _ _ X1). erewrite bind_ok by (erewrite bind_ok by exact X2; exact X3).
    rewrite (bind_ok _ _ _ _ _ (get_set_eq _ _ _ Ex)), (bind_ok _ _ _ _ _ (get_set_eq _ _ _ Ey)), Ext, Eyt, Ef1, Ef2.
    erewrite bind_ok by (apply change_eq; rewrite T3, T2, T1; exact Em). unfold invalidate, put_set.
    do 2 (erewrite bind_ok by reflexivity). fold s4 s5 s6. rewrite (bind_ok _ _ _ _ _ (dimtagreg_eq s6 o l W6 (HK _ _ E))). done. }
  destruct (decide good) as [Hg|Hg].
  - rewrite (bind_ok _ _ _ _ _ (selected_eq m l s6 Hg)), new_set_eq in EQ by (by rewrite !map_length).
    eexists. split; [|split; [|split; [|split; [|split; [|split; [|split]]]]]]; [| | | | | |intros _; eexists; split; [exact EQ|]|done].
    + apply wf_app; [done|by rewrite !map_length|]. destruct (contents_some s6 o l W6 (HK _ _ E)) as (_ & _ & _ & _ & V).
      unfold valid in *. rewrite Forall_forall in V |- *. intros r Hr. apply V. apply elem_of_list_fmap in Hr as (p & -> & Hp).
      apply elem_of_list_fmap. exists p. split; [done|by eapply picked_elem].
    + exact R13.
    + exact N13.
    + exact Gr13.
    + exact F3.
    + intros q lq Hq. by apply contents_app, HK.
    + rewrite contents_new. cbn. by rewrite combine_map.
  - rewrite (bind_raise _ _ _ _ (selected_raise m l s6 Hg)) in EQ. exists s6. do 5 (split; [done|]). split; [done|]. split; done.
Qed.

Lemma dict_last l : forall (m : gmap dimtag nat) t,
  foldl (fun m p => <[fst p := snd p]> m) m l !! t = match last_of t l with Some r => Some r | None => m !! t end.
Proof.
  induction l as [|p l IH] using rev_ind; intros m t; [done|]. rewrite foldl_app. cbn [foldl]. unfold last_of.
  rewrite List.filter_app, map_app. cbn [List.filter]. destruct (decide (fst p = t)) as [<-|N].
  - rewrite lookup_insert, bool_decide_eq_true_2 by done. cbn [map]. by rewrite last_snoc.
  - rewrite lookup_insert_ne, bool_decide_eq_false_2 by done. cbn [map]. rewrite app_nil_r. apply IH.
Qed.
Lemma dict_eq l t : dict l !! t = last_of t l.
Proof. unfold dict. rewrite dict_last, lookup_empty. by destruct (last_of t l). Qed.
Lemma last_of_none t l : last_of t l = None <-> t ∉ map fst l.
Proof.
  unfold last_of. rewrite last_None. split.
  - intros E Ht. apply elem_of_list_fmap in Ht as (p & -> & Hp). apply map_eq_nil in E.
    assert (List.In p (List.filter (fun q => bool_decide (fst q = fst p)) l)) as Hin.
    { apply List.filter_In. split; [by apply elem_of_list_In|by apply bool_decide_eq_true_2]. }
    by rewrite E in Hin.
  - intros N. destruct (List.filter _ l) as [|p k] eqn:E; [done|]. exfalso. apply N.
    assert (List.In p (List.filter (fun q => bool_decide (fst q = t)) l)) as Hin by (rewrite E; by left).
    apply List.filter_In in Hin as [Hin Hp]. apply bool_decide_eq_true_1 in Hp. subst t. apply elem_of_list_fmap. exists p. split; [done|by apply elem_of_list_In].
Qed.
Lemma dom_dict l : forall t, t ∈ dom (dict l) <-> t ∈ map fst l.
Proof.
  intros t. rewrite elem_of_dom, dict_eq. destruct (last_of t l) as [r|] eqn:E.
  - split; [|by eauto]. intros _. destruct (decide (t ∈ map fst l)) as [|N]; [done|]. apply last_of_none in N. congruence.
  - apply last_of_none in E. split; [by intros [? ?]|done].
Qed.
Lemma dict_set_eq s l ks : wf s -> valid (map snd l) s -> Forall (fun k => k ∈ map fst l) ks ->
  exists x L, dict_set ks (dict l) s = (Ok x, set_sets (sets s ++ [Some (OSet (map fst L) (map snd L))]) s) /\ x = length (sets s) /\
    map fst L = ks /\ (forall t r, (t, r) ∈ L <-> t ∈ ks /\ last_of t l = Some r) /\ wf (set_sets (sets s ++ [Some (OSet (map fst L) (map snd L))]) s).
Proof.
  intros W V F. set (L := map (fun k => (k, default 0 (last_of k l))) ks).
  assert (map fst L = ks) as EL.
  { unfold L. rewrite map_map. cbn. apply map_id. }
  assert (each (fun k s => match dict l !! k with Some r => (Ok r, s) | None => (Raise, s) end) ks s = (Ok (map snd L), s)) as EE.
  { clear EL. unfold L. clear L. induction F as [|k ks Hk F IH]; cbn [each map]; [done|].
    destruct (last_of k l) as [r|] eqn:Er; [|by apply last_of_none in Er].
    erewrite bind_ok by (rewrite dict_eq, Er; reflexivity). rewrite (bind_ok _ _ _ _ _ IH). done. }
  assert (forall t r, (t, r) ∈ L <-> t ∈ ks /\ last_of t l = Some r) as HL.
  { intros t r. unfold L. rewrite elem_of_list_fmap. split.
    - intros (k & [= -> ->] & Hk). split; [done|]. rewrite Forall_forall in F. destruct (last_of k l) as [q|] eqn:Eq; [done|].
      apply last_of_none in Eq. by apply F in Hk.
    - intros [Hk Er]. exists t. by rewrite Er. }
  exists (length (sets s)), L. unfold dict_set. rewrite (bind_ok _ _ _ _ _ EE).
  rewrite new_set_eq by (transitivity (length (map fst L)); [by rewrite !map_length|by rewrite EL]). rewrite EL. split; [done|]. split; [done|]. split; [done|]. split; [done|].
  apply wf_app; [done|transitivity (length (map fst L)); [by rewrite EL|by rewrite !map_length]|]. unfold valid in *. rewrite Forall_forall in V |- *. intros r Hr. apply V.
  apply elem_of_list_fmap in Hr as ([t q] & -> & Hq). apply HL in Hq as [_ Hq]. unfold last_of in Hq.
  apply last_Some in Hq as [k Hk]. assert (q ∈ map snd (List.filter (fun p => bool_decide (fst p = t)) l)) as Hin.
  { rewrite Hk. apply elem_of_app. right. constructor. }
  cbn. apply elem_of_list_fmap in Hin as (p & -> & Hp). apply elem_of_list_fmap. exists p. split; [done|].
  apply elem_of_list_In, List.filter_In in Hp as [Hp _]. by apply elem_of_list_In.
Qed.
Lemma contents_last s L s0 : sets s0 = sets s -> contents (set_sets (sets s ++ [Some (OSet (map fst L) (map snd L))]) s0) (length (sets s)) = Some L.
Proof. intros E. unfold contents. cbn. rewrite lookup_app_r by done. rewrite Nat.sub_diag. cbn. by rewrite combine_map. Qed.
Lemma split_by_cut_eq s o lo ts ls m (pick_ok : forall n X, k_pick K n X ≡ₚ elements X) :
  wf s -> contents s o = Some lo -> Forall2 (fun o l => contents s o = Some l) ts ls -> ts <> [o] ->
  k_bool K (tick s) Fragment (map fst (lo ++ List.concat ls)) [] = Some m -> length m = length (lo ++ List.concat ls) ->
  let la := inherit lo (take (length lo) m) in let lb := inherit (List.concat ls) (drop (length lo) m) in
  exists x1 x2 x3 x4 s' L1 L2 L3 L4, split_by_cut K o ts s = (Ok [x1; x2; x3; x4], s') /\ wf s' /\
    contents s' x1 = Some L1 /\ contents s' x2 = Some L2 /\ contents s' x3 = Some L3 /\ contents s' x4 = Some L4 /\
    NoDup (map fst L1) /\ NoDup (map fst L2) /\ NoDup (map fst L3) /\ map fst L4 = map fst L3 /\
    (forall t r, (t, r) ∈ L1 <-> last_of t la = Some r /\ t ∉ map fst lb) /\
    (forall t r, (t, r) ∈ L2 <-> last_of t lb = Some r /\ t ∉ map fst la) /\
    (forall t r, (t, r) ∈ L3 <-> last_of t la = Some r /\ t ∈ map fst lb) /\
    (forall t r, (t, r) ∈ L4 <-> last_of t lb = Some r /\ t ∈ map fst la) /\
    regs s' = regs s /\ sets s' !! o = Some None /\
    (forall q lq, q <> o -> ts <> [q] -> contents s q = Some lq -> contents s' q = Some lq) /\
    (forall q, ts = [q] -> sets s' !! q = Some None).
Proof.
  intros W Eo H Nts Em El la lb. destruct (contents_some s o lo W Eo) as (x & Ex & _).
  destruct (group_grown s ts ls W H) as (t & s1 & E1 & G1 & C1 & T1 & F1 & D1 & Hg1 & Hg2).
  assert (o <> t) as Not.
  { destruct (decide (length ts = 1)) as [L|L].
    - destruct ts as [|q [|]]; try done. destruct (Hg2 q eq_refl) as [-> _]. congruence.
    - rewrite (Hg1 L). apply contents_lt in Eo. lia. }
  pose proof (grown_contents _ _ _ _ G1 Eo) as Eo1.
  destruct (fragment_eq K s1 [o; t] [lo; List.concat ls] m) as (gs & s2 & E2 & C2 & W2 & Lg & NDg & Fg & HG).
  { apply G1. } { done. }
  { constructor; [by intros Hin%elem_of_list_singleton|apply NoDup_singleton]. }
  { constructor; [done|constructor; [done|constructor]]. }
  { rewrite T1. cbn [List.concat]. by rewrite app_nil_r. }
  { cbn [List.concat]. by rewrite app_nil_r. }
  destruct gs as [|a [|b [|]]]; try done.
  destruct (HG 0 lo eq_refl) as (a' & [= <-] & Ca). destruct (HG 1 (List.concat ls) eq_refl) as (b' & [= <-] & Cb).
  cbn [take List.concat length drop] in Ca, Cb. rewrite app_nil_r in Cb. fold la in Ca. 
  rewrite inherit_take in Cb. fold lb in Cb.
  destruct (contents_some s2 a la W2 Ca) as (_ & _ & _ & _ & Va). destruct (contents_some s2 b lb W2 Cb) as (_ & _ & _ & _ & Vb).
  unfold split_by_cut. rewrite (bind_ok _ _ _ _ _ (get_set_eq _ _ _ Ex)), (bind_ok _ _ _ _ _ E1), (bind_ok _ _ _ _ _ E2).
  rewrite (bind_ok _ _ _ _ _ (dimtagreg_eq s2 a la W2 Ca)), (bind_ok _ _ _ _ _ (dimtagreg_eq s2 b lb W2 Cb)). cbv zeta.
  unfold walk. do 3 (erewrite bind_ok by reflexivity). cbn [tick set_tick].
  set (ka := k_pick K _ (dom (dict la) ∖ dom (dict lb))). set (kb := k_pick K _ (dom (dict lb) ∖ dom (dict la))).
  set (ki := k_pick K _ (dom (dict la) ∩ dom (dict lb))).
  assert (forall k, k ∈ ka <-> k ∈ map fst la /\ k ∉ map fst lb) as Hka.
  { intros k. unfold ka. rewrite pick_ok, elem_of_elements, elem_of_difference, !dom_dict. done. }
  assert (forall k, k ∈ kb <-> k ∈ map fst lb /\ k ∉ map fst la) as Hkb.
  { intros k. unfold kb. rewrite pick_ok, elem_of_elements, elem_of_difference, !dom_dict. done. }
  assert (forall k, k ∈ ki <-> k ∈ map fst la /\ k ∈ map fst lb) as Hki.
  { intros k. unfold ki. rewrite pick_ok, elem_of_elements, elem_of_intersection, !dom_dict. done. }
  assert (NoDup ka /\ NoDup kb /\ NoDup ki) as (NDa & NDb & NDi).
  { unfold ka, kb, ki. rewrite !pick_ok. split; [|split]; apply NoDup_elements. }
  set (s3 := set_tick _ _). assert (wf s3) as W3 by (by apply (wf_ext s2)). assert (sets s3 = sets s2) as E3 by done.
  assert (regs s3 = regs s2) as R3 by done. assert (valid (map snd la) s3 /\ valid (map snd lb) s3) as [Va3 Vb3] by (unfold valid; by rewrite R3).
  clearbody s3 ka kb ki.
  destruct (dict_set_eq s3 la ka W3 Va3) as (x1 & L1 & Q1 & Ex1 & K1 & M1 & W4); [apply Forall_forall; intros k Hk; by apply Hka|].
  rewrite (bind_ok _ _ _ _ _ Q1). set (s4 := set_sets (sets s3 ++ _) s3) in *.
  destruct (dict_set_eq s4 lb kb W4 Vb3) as (x2 & L2 & Q2 & Ex2 & K2 & M2 & W5); [apply Forall_forall; intros k Hk; by apply Hkb|].
  rewrite (bind_ok _ _ _ _ _ Q2). set (s5 := set_sets (sets s4 ++ _) s4) in *.
  destruct (dict_set_eq s5 la ki W5 Va3) as (x3 & L3 & Q3 & Ex3 & K3 & M3 & W6); [apply Forall_forall; intros k Hk; by apply Hki|].
  rewrite (bind_ok _ _ _ _ _ Q3). set (s6 := set_sets (sets s5 ++ _) s5) in *.
  destruct (dict_set_eq s6 lb ki W6 Vb3) as (x4 & L4 & Q4 & Ex4 & K4 & M4 & W7); [apply Forall_forall; intros k Hk; by apply Hki|].
  rewrite (bind_ok _ _ _ _ _ Q4). set (s7 := set_sets (sets s6 ++ _) s6) in *.
  exists x1, x2, x3, x4, s7, L1, L2, L3, L4. split; [done|]. split; [done|].
  split. { subst x1. unfold s7. apply contents_app. unfold s6. apply contents_app. unfold s5. apply contents_app. by apply contents_last. }
  split. { subst x2. unfold s7. apply contents_app. unfold s6. apply contents_app. by apply contents_last. }
  split. { subst x3. unfold s7. apply contents_app. by apply contents_last. }
  split. { subst x4. by apply contents_last. }
  split; [congruence|]. split; [congruence|]. split; [congruence|]. split; [congruence|].
  assert (forall t0 l r, last_of t0 l = Some r -> t0 ∈ map fst l) as HLs.
  { intros t0 l r E. destruct (decide (t0 ∈ map fst l)) as [|N]; [done|]. apply last_of_none in N. congruence. }
  split. { intros t0 r. rewrite M1, Hka. split; [tauto|]. intros [A B]. split; [|done]. split; [by eapply HLs|done]. }
  split. { intros t0 r. rewrite M2, Hkb. split; [tauto|]. intros [A B]. split; [|done]. split; [by eapply HLs|done]. }
  split. { intros t0 r. rewrite M3, Hki. split; [tauto|]. intros [A B]. split; [|done]. split; [by eapply HLs|done]. }
  split. { intros t0 r. rewrite M4, Hki. split; [tauto|]. intros [A B]. split; [|done]. split; [done|by eapply HLs]. }
  destruct C2 as (D2a & D2b & D2c & D2d).
  assert (forall q y, sets s2 !! q = Some y -> sets s7 !! q = Some y) as HU.
  { intros q y Eq. rewrite <- E3 in Eq. unfold s7, s6, s5, s4. cbn. by do 4 apply lookup_app_l_Some. }
  split. { change (regs s7) with (regs s3). rewrite R3, D2a. cbn. apply G1. }
  split. { apply HU, D2c. constructor. }
  split.
  - intros q lq Nq Nt Hq. pose proof (grown_contents _ _ _ _ G1 Hq) as Hq1.
    assert (q <> t) as Nqt.
    { intros ->. destruct (decide (length ts = 1)) as [L|L].
      - destruct ts as [|q' [|]]; try done. destruct (Hg2 q' eq_refl) as [-> _]. done.
      - rewrite (Hg1 L) in Hq. apply contents_lt in Hq. lia. }
    unfold contents in Hq1 |- *. destruct (sets s1 !! q) as [y|] eqn:Ey; [|done].
    erewrite HU; [exact Hq1|]. rewrite D2d; [exact Ey| |cbn; by eapply lookup_lt_Some].
    intros [->|[->|Hin]%elem_of_cons]%elem_of_cons; [done|done|by apply elem_of_nil in Hin].
  - intros q ->. destruct (Hg2 q eq_refl) as [-> _]. apply HU, D2c. apply elem_of_list_further. constructor.
Qed.
End C.
