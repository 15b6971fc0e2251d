(** group, split_by_region, split_by_dimension. *)
From stdpp Require Import gmap strings list sorting.
From Coq Require Import ZArith QArith String Lia.
From Verif Require Import Gmsh_Model Gmsh_Spec Gmsh_Proofs Gmsh_Wf.
Local Open Scope nat_scope.
Local Notation length := List.length.

(** ** Contents *)
Lemma contents_some s o l : wf s -> contents s o = Some l ->
  exists x, sets s !! o = Some (Some x) /\ o_tags x = map fst l /\ o_regs x = map snd l /\ valid (map snd l) s.
Proof.
  intros W E. unfold contents in E. destruct (sets s !! o) as [[x|]|] eqn:Es; try done. injection E as <-.
  exists x. destruct (w_sets s W o x Es) as [El Ev]. split; [done|].
  assert (map fst (combine (o_tags x) (o_regs x)) = o_tags x) as E1 by (apply (fst_zip (o_tags x) (o_regs x)); lia).
  assert (map snd (combine (o_tags x) (o_regs x)) = o_regs x) as E2 by (apply (snd_zip (o_tags x) (o_regs x)); lia).
  rewrite E1, E2. done.
Qed.
Lemma combine_map {A B} (l : list (A * B)) : combine (map fst l) (map snd l) = l.
Proof. induction l as [|[a b] l IH]; cbn; [done|]. by rewrite IH. Qed.
Lemma contents_none s o : contents s o = None -> get_set o s = (Raise, s).
Proof. unfold contents, get_set. by destruct (sets s !! o) as [[x|]|]. Qed.
Lemma contents_app s X o l : contents s o = Some l -> contents (set_sets (sets s ++ X) s) o = Some l.
Proof. unfold contents. cbn. destruct (sets s !! o) as [y|] eqn:E; [|done]. by rewrite (lookup_app_l_Some _ _ _ _ E). Qed.
Lemma contents_regs s R o : contents (set_regs R s) o = contents s o.
Proof. done. Qed.
Lemma contents_lt s o l : contents s o = Some l -> o < length (sets s).
Proof. unfold contents. destruct (sets s !! o) as [y|] eqn:E; [|done]. intros _. by eapply lookup_lt_Some. Qed.
Lemma set_sets_sets X Y s : set_sets X (set_sets Y s) = set_sets X s.
Proof. done. Qed.
Lemma set_sets_id s : set_sets (sets s) s = s.
Proof. by destruct s. Qed.
Lemma set_regs_id s : set_regs (regs s) s = s.
Proof. by destruct s. Qed.

Lemma new_set_eq tags rs s : length rs = length tags ->
  new_set tags rs s = (Ok (length (sets s)), set_sets (sets s ++ [Some (OSet tags rs)]) s).
Proof.
  intros E. unfold new_set. destruct rs as [|r [|r' rs]].
  - rewrite E, Nat.eqb_refl. done.
  - destruct tags as [|t [|t' tags]]; [done|done|done].
  - by rewrite E, Nat.eqb_refl.
Qed.
Lemma each_new {P} (g : P -> list dimtag) (h : P -> nat) l : forall s,
  each (fun p => new_set (g p) [h p]) l s =
  (Ok (seq (length (sets s)) (length l)),
   set_sets (sets s ++ map (fun p => Some (OSet (g p) (replicate (length (g p)) (h p)))) l) s).
Proof.
  induction l as [|p l IH]; intros s; cbn [each length seq map].
  - by rewrite app_nil_r, set_sets_id.
  - erewrite bind_ok by (cbn; reflexivity). erewrite bind_ok by apply IH. unfold ret.
    cbn [sets set_sets]. rewrite app_length. cbn [length]. rewrite Nat.add_1_r, <- app_assoc. done.
Qed.
Lemma each_new_full {P} (g : P -> list dimtag) (h : P -> list nat) l : (forall p, length (h p) = length (g p)) -> forall s,
  each (fun p => new_set (g p) (h p)) l s =
  (Ok (seq (length (sets s)) (length l)), set_sets (sets s ++ map (fun p => Some (OSet (g p) (h p))) l) s).
Proof.
  intros Hl. induction l as [|p l IH]; intros s; cbn [each length seq map].
  - by rewrite app_nil_r, set_sets_id.
  - erewrite bind_ok by (apply new_set_eq, Hl). erewrite bind_ok by apply IH. unfold ret.
    cbn [sets set_sets]. rewrite app_length. cbn [length]. rewrite Nat.add_1_r, <- app_assoc. done.
Qed.
Lemma each_get os xs s : Forall2 (fun o x => sets s !! o = Some (Some x)) os xs -> each get_set os s = (Ok xs, s).
Proof.
  induction 1 as [|o x os xs H _ IH]; cbn [each]; [done|].
  erewrite bind_ok by (apply get_set_eq, H). erewrite bind_ok by apply IH. done.
Qed.
Lemma each_get_raise os s o : o ∈ os -> contents s o = None -> each get_set os s = (Raise, s).
Proof.
  intros Ho E. induction os as [|p os IH]; [by apply elem_of_nil in Ho|]. cbn [each].
  destruct (get_set_cases p s) as [(x & Ex & Eg)|Eg]; [|by rewrite (bind_raise _ _ _ _ Eg)].
  rewrite (bind_ok _ _ _ _ _ Eg). apply elem_of_cons in Ho as [->|Ho]; [|by rewrite (bind_raise _ _ _ _ (IH Ho))].
  unfold contents in E. by rewrite Ex in E.
Qed.
Lemma contents_all s os ls : wf s -> Forall2 (fun o l => contents s o = Some l) os ls ->
  exists xs, Forall2 (fun o x => sets s !! o = Some (Some x)) os xs /\ map o_tags xs = map (map fst) ls /\ map o_regs xs = map (map snd) ls.
Proof.
  intros W. induction 1 as [|o l os ls H _ (xs & F & E1 & E2)]; [by exists []|].
  destruct (contents_some s o l W H) as (x & Ex & Et & Er & _). exists (x :: xs). split; [by constructor|].
  cbn. rewrite Et, Er, E1, E2. done.
Qed.
Lemma concat_map_map {A B} (f : A -> B) (ls : list (list A)) : List.concat (map (map f) ls) = map f (List.concat ls).
Proof. induction ls as [|l ls IH]; cbn; [done|]. by rewrite map_app, IH. Qed.
Lemma group_eq s os ls : wf s -> length os <> 1 -> Forall2 (fun o l => contents s o = Some l) os ls ->
  group os s = (Ok (length (sets s)), set_sets (sets s ++ [Some (OSet (map fst (List.concat ls)) (map snd (List.concat ls)))]) s).
Proof.
  intros W N H. destruct (contents_all s os ls W H) as (xs & F & E1 & E2).
  assert ((xs <~ each get_set os ; new_set (List.concat (map o_tags xs)) (List.concat (map o_regs xs))) s =
    (Ok (length (sets s)), set_sets (sets s ++ [Some (OSet (map fst (List.concat ls)) (map snd (List.concat ls)))]) s)) as G.
  { rewrite (bind_ok _ _ _ _ _ (each_get os xs s F)), E1, E2, !concat_map_map. apply new_set_eq. by rewrite !map_length. }
  destruct os as [|o [|o' os]]; [exact G|done|exact G].
Qed.
Lemma contents_new s x : contents (set_sets (sets s ++ [Some x]) s) (length (sets s)) = Some (combine (o_tags x) (o_regs x)).
Proof. unfold contents. cbn. rewrite lookup_app_r by done. by rewrite Nat.sub_diag. Qed.

(** ** Completing regions along a list *)
Definition creg (r : nat) (d : Z) (R : list region) : option (list region) :=
  match R !! r with
  | None => None
  | Some x => match r_dim x with
              | None => Some (<[r := Reg (Some d) (r_id x) (r_name x)]> R)
              | Some d' => if Z.eqb d' d then Some R else None
              end
  end.
Fixpoint cdims (l : list (dimtag * nat)) (R : list region) : option (list region) :=
  match l with
  | [] => Some R
  | (t, r) :: l => creg r (fst t) R ≫= cdims l
  end.
Lemma complete_eq r d s : complete r d s = match creg r d (regs s) with Some R => (Ok r, set_regs R s) | None => (Raise, s) end.
Proof.
  unfold complete, creg. destruct (regs s !! r) as [x|]; [|done]. destruct (r_dim x); [|done]. destruct (Z.eqb _ _); [|done]. by rewrite set_regs_id.
Qed.
Lemma creg_spec r d R R' : creg r d R = Some R' ->
  map r_id R' = map r_id R /\ map r_name R' = map r_name R /\ (R' !! r ≫= r_dim) = Some d /\
  (forall q, q <> r -> R' !! q = R !! q) /\ (forall d', (R !! r ≫= r_dim) = Some d' -> d' = d).
Proof.
  unfold creg. destruct (R !! r) as [x|] eqn:E; [|done]. destruct (r_dim x) as [d'|] eqn:Ed.
  - destruct (Z.eqb d' d) eqn:Ez; [|done]. apply Z.eqb_eq in Ez. intros [= <-]. subst d'. rewrite E. cbn. rewrite Ed.
    repeat split; try done. intros ? [= <-]. done.
  - intros [= <-]. split; [by eapply insert_ids|]. split.
    + apply list_eq. intros i. rewrite !list_lookup_fmap. destruct (decide (i = r)) as [->|N].
      * rewrite list_lookup_insert by (by eapply lookup_lt_Some). by rewrite E.
      * by rewrite list_lookup_insert_ne.
    + split; [rewrite list_lookup_insert by (by eapply lookup_lt_Some); done|].
      split; [intros q N; by rewrite list_lookup_insert_ne|]. intros d' H. cbn in H. congruence.
Qed.
Lemma cdims_spec l : forall R R', cdims l R = Some R' ->
  map r_id R' = map r_id R /\ map r_name R' = map r_name R /\
  (forall t r, (t, r) ∈ l -> (R' !! r ≫= r_dim) = Some (fst t)) /\
  (forall r, (forall t, (t, r) ∉ l) -> R' !! r = R !! r) /\
  (forall r d, (R !! r ≫= r_dim) = Some d -> (R' !! r ≫= r_dim) = Some d).
Proof.
  induction l as [|[t r] l IH]; intros R R' E; cbn in E.
  - injection E as <-. repeat split; try done. intros t r H. by apply elem_of_nil in H.
  - destruct (creg r (fst t) R) as [R1|] eqn:E1; [|done]. cbn in E.
    destruct (creg_spec _ _ _ _ E1) as (I1 & N1 & D1 & Q1 & U1). destruct (IH _ _ E) as (I2 & N2 & D2 & Q2 & U2).
    split; [congruence|]. split; [congruence|]. split; [|split].
    + intros t' r' H. apply elem_of_cons in H as [[= -> ->]|H]; [by apply U2|by apply D2].
    + intros q Hq. rewrite Q2.
      * apply Q1. intros ->. apply (Hq t). constructor.
      * intros t' H. apply (Hq t'). by constructor.
    + intros q d Hd. apply U2. destruct (decide (q = r)) as [->|N].
      * rewrite D1. f_equal. symmetry. by apply U1.
      * by rewrite Q1.
Qed.
Lemma cdims_iff l : forall s, dims_agree s l <-> is_Some (cdims l (regs s)).
Proof.
  intros s. split.
  - revert s. induction l as [|[t r] l IH]; intros s [H1 H2]; cbn; [eauto|].
    destruct (H1 t r) as [[x Ex] Hd]; [constructor|]. unfold rdim in Hd.
    assert (exists R1, creg r (fst t) (regs s) = Some R1) as [R1 E1].
    { unfold creg. rewrite Ex in Hd |- *. cbn in Hd. destruct (r_dim x) as [d'|]; [|eauto]. destruct Hd as [|[= ->]]; [done|]. rewrite Z.eqb_refl. eauto. }
    rewrite E1. cbn. destruct (creg_spec _ _ _ _ E1) as (I1 & N1 & D1 & Q1 & U1).
    apply (IH (set_regs R1 s)). split.
    + intros t' r' Hin. cbn. unfold rdim. cbn. destruct (decide (r' = r)) as [->|N].
      * rewrite D1. assert (fst t = fst t') as -> by (eapply H2; [constructor|by constructor]).
        split; [|by right]. destruct (R1 !! r); [eauto|done].
      * rewrite Q1 by done. destruct (H1 t' r') as [A B]; [by constructor|]. done.
    + intros t1 t2 q Hq1 Hq2. eapply H2; constructor; eauto.
  - intros [R' E]. destruct (cdims_spec _ _ _ E) as (I1 & _ & D1 & _ & U1). split.
    + intros t r Hin. pose proof (D1 t r Hin) as Hd. split.
      * assert (length R' = length (regs s)) as El by (rewrite <- (map_length r_id R'), I1; apply map_length).
        apply lookup_lt_is_Some. rewrite <- El. apply lookup_lt_is_Some. destruct (R' !! r); [eauto|done].
      * unfold rdim. destruct (regs s !! r ≫= r_dim) as [d|] eqn:Er; [|by left]. right. apply U1 in Er. congruence.
    + intros t t' r Hin Hin'. apply D1 in Hin. apply D1 in Hin'. congruence.
Qed.
Definition idof (R : list region) (r : nat) : Z := default 0%Z (r_id <$> R !! r).
Lemma idof_ext R R' r : map r_id R' = map r_id R -> idof R' r = idof R r.
Proof. intros E. unfold idof. rewrite <- !list_lookup_fmap. change (r_id <$> R') with (map r_id R'). by rewrite E. Qed.
Lemma by_region_eq l : forall acc s R R', cdims l (regs s) = Some R' -> map r_id R = map r_id (regs s) ->
  by_region l acc s = (Ok (foldl (fun acc p => add_tag (idof R (snd p)) (snd p) (fst p) acc) acc l), set_regs R' s).
Proof.
  induction l as [|[t r] l IH]; intros acc s R R' E EI; cbn in E |- *.
  - injection E as <-. by rewrite set_regs_id.
  - destruct (creg r (fst t) (regs s)) as [R1|] eqn:E1; [|done]. cbn in E.
    destruct (creg_spec _ _ _ _ E1) as (I1 & _ & D1 & _ & _).
    erewrite bind_ok by (rewrite complete_eq, E1; reflexivity). cbn [regs set_regs].
    destruct (R1 !! r) as [x|] eqn:Ex; [|done].
    assert (idof R r = r_id x) as <-.
    { rewrite <- (idof_ext R R1) by congruence. unfold idof. by rewrite Ex. }
    rewrite (IH _ (set_regs R1 s) R R') by (cbn; congruence). done.
Qed.
Lemma by_region_raise l : forall acc s, cdims l (regs s) = None -> fst (by_region l acc s) = Raise.
Proof.
  induction l as [|[t r] l IH]; intros acc s E; cbn in E |- *; [done|].
  destruct (creg r (fst t) (regs s)) as [R1|] eqn:E1.
  - erewrite bind_ok by (rewrite complete_eq, E1; reflexivity). cbn [regs set_regs].
    destruct (R1 !! r) as [x|]; [|done]. by apply IH.
  - erewrite bind_raise by (rewrite complete_eq, E1; reflexivity). done.
Qed.

(** ** The table of regions *)
Lemma firsts_snoc rs r : firsts (rs ++ [r]) = if decide (r ∈ rs) then firsts rs else firsts rs ++ [r].
Proof.
  unfold firsts. rewrite reverse_app. change (reverse [r]) with [r]. cbn [app remove_dups].
  destruct (decide_rel elem_of r (reverse rs)) as [H|H].
  - rewrite decide_True; [done|]. by apply elem_of_reverse.
  - rewrite decide_False by (by rewrite <- elem_of_reverse). by rewrite reverse_cons.
Qed.
Lemma firsts_elem rs r : r ∈ firsts rs <-> r ∈ rs.
Proof. unfold firsts. by rewrite elem_of_reverse, elem_of_remove_dups, elem_of_reverse. Qed.
Lemma firsts_nodup rs : NoDup (firsts rs).
Proof. unfold firsts. rewrite reverse_Permutation. apply NoDup_remove_dups. Qed.
Section Table.
Context {A : Type} (f : dimtag -> A) (key : nat -> Z).
Definition row (l : list (dimtag * nat)) (r : nat) : Z * (nat * list A) := (key r, (r, map (fun p => f (fst p)) (with_region r l))).
Lemma add_tag_new i r (v : A) acc : (forall p, p ∈ acc -> fst p <> i) -> add_tag i r v acc = acc ++ [(i, (r, [v]))].
Proof.
  induction acc as [|[j [r' vs]] acc IH]; intros H; cbn; [done|].
  destruct (Z.eqb j i) eqn:E.
  - apply Z.eqb_eq in E. exfalso. eapply (H (j, (r', vs))); [constructor|done].
  - by rewrite IH by (intros p Hp; apply H; by constructor).
Qed.
Lemma table_eq l : (forall r r', r ∈ map snd l -> r' ∈ map snd l -> key r = key r' -> r = r') ->
  foldl (fun acc p => add_tag (key (snd p)) (snd p) (f (fst p)) acc) [] l = map (row l) (firsts (map snd l)).
Proof.
  induction l as [|[t r] l IH] using rev_ind; intros Hinj; [done|].
  rewrite foldl_app, map_app. cbn [map foldl fst snd]. rewrite firsts_snoc.
  rewrite IH by (intros a b Ha Hb; apply Hinj; rewrite map_app; apply elem_of_app; by left).
  assert (forall q, q <> r -> row (l ++ [(t, r)]) q = row l q) as Hne.
  { intros q Hq. unfold row, with_region. rewrite List.filter_app. cbn [List.filter snd]. destruct (r =? q) eqn:E; [apply Nat.eqb_eq in E; congruence|]. by rewrite app_nil_r. }
  assert (row (l ++ [(t, r)]) r = (key r, (r, map (fun p => f (fst p)) (with_region r l) ++ [f t]))) as He.
  { unfold row, with_region. rewrite List.filter_app. cbn [List.filter snd]. rewrite Nat.eqb_refl, map_app. done. }
  assert (forall q, q ∈ firsts (map snd l) -> key q = key r -> q = r) as Hk.
  { intros q Hq Ek. apply Hinj; [| |done]; rewrite map_app; apply elem_of_app; [left; by apply firsts_elem|right; constructor]. }
  destruct (decide (r ∈ map snd l)) as [Hin|Hout].
  - apply firsts_elem in Hin. pose proof (firsts_nodup (map snd l)) as ND.
    revert Hin ND Hk. generalize (firsts (map snd l)) as qs. intros qs.
    induction qs as [|q qs IHq]; intros Hin ND Hk; [by apply elem_of_nil in Hin|].
    apply NoDup_cons in ND as [Nq ND]. cbn [map]. unfold row at 1. cbn [add_tag].
    destruct (decide (q = r)) as [->|N].
    + rewrite Z.eqb_refl, He. f_equal. apply map_ext_in. intros q' Hq'. symmetry. apply Hne. intros ->. by apply Nq, elem_of_list_In.
    + destruct (Z.eqb (key q) (key r)) eqn:E; [apply Z.eqb_eq in E; exfalso; apply N, Hk; [constructor|done]|].
      rewrite (Hne q N). f_equal. apply elem_of_cons in Hin as [->|Hin]; [done|]. apply IHq; [done|done|].
      intros q' Hq'. apply Hk. by constructor.
  - rewrite add_tag_new.
    + rewrite map_app. cbn [map]. rewrite He. f_equal.
      * apply map_ext_in. intros q Hq. symmetry. apply Hne. intros ->. by apply Hout, firsts_elem, elem_of_list_In.
      * assert (with_region r l = []) as ->; [|done]. unfold with_region.
        destruct (List.filter _ l) as [|[t' r'] k] eqn:Ef; [done|]. exfalso. apply Hout.
        assert (List.In (t', r') (List.filter (fun p => snd p =? r) l)) as Hf by (rewrite Ef; by left).
        apply List.filter_In in Hf as [Hf E]. cbn in E. apply Nat.eqb_eq in E. subst r'.
        apply elem_of_list_fmap. exists (t', r). split; [done|by apply elem_of_list_In].
    + intros p Hp Ep. apply elem_of_list_fmap in Hp as (q & -> & Hq). cbn in Ep. apply Hout.
      rewrite <- (Hk q Hq Ep). by apply firsts_elem.
Qed.
End Table.
Lemma idof_inj s r r' : wf s -> r < length (regs s) -> r' < length (regs s) -> idof (regs s) r = idof (regs s) r' -> r = r'.
Proof.
  intros W Hr Hr'. unfold idof. destruct (lookup_lt_is_Some_2 _ _ Hr) as [x Ex]. destruct (lookup_lt_is_Some_2 _ _ Hr') as [y Ey].
  rewrite Ex, Ey. cbn. intros E. pose proof (w_ids s W) as ND.
  eapply (NoDup_lookup (map r_id (regs s))); [exact ND| |]; rewrite list_lookup_fmap; [by rewrite Ex|rewrite Ey; cbn; congruence].
Qed.
Lemma with_region_regs r l : replicate (length (map fst (with_region r l))) r = map snd (with_region r l).
Proof.
  unfold with_region. induction l as [|[t q] l IH]; cbn; [done|]. destruct (q =? r) eqn:E; [|done]. apply Nat.eqb_eq in E. subst q.
  cbn. by rewrite IH.
Qed.
Lemma dimtagreg_eq s o l : wf s -> contents s o = Some l -> dimtagreg o s = (Ok l, s).
Proof.
  intros W E. destruct (contents_some s o l W E) as (x & Ex & Et & Er & _). unfold dimtagreg.
  rewrite (bind_ok _ _ _ _ _ (get_set_eq _ _ _ Ex)), Et, Er, !map_length, Nat.eqb_refl, combine_map. done.
Qed.
Lemma table_of s l : wf s -> valid (map snd l) s -> forall {A} (f : dimtag -> A),
  foldl (fun acc p => add_tag (idof (regs s) (snd p)) (snd p) (f (fst p)) acc) [] l = map (row f (idof (regs s)) l) (firsts (map snd l)).
Proof.
  intros W V A f. apply table_eq. intros r r' Hr Hr'. unfold valid in V. rewrite Forall_forall in V.
  apply (idof_inj s); [done|by apply V|by apply V].
Qed.
Lemma split_by_region_eq s o l R' : wf s -> contents s o = Some l -> cdims l (regs s) = Some R' ->
  let rs := firsts (map snd l) in
  split_by_region o s = (Ok (seq (length (sets s)) (length rs)),
    set_sets (sets s ++ map (fun r => Some (OSet (map fst (with_region r l)) (map snd (with_region r l)))) rs) (set_regs R' s)).
Proof.
  intros W E EC rs. destruct (contents_some s o l W E) as (x & Ex & Et & Er & V). unfold split_by_region.
  rewrite (bind_ok _ _ _ _ _ (dimtagreg_eq s o l W E)).
  rewrite (bind_ok _ _ _ _ _ (by_region_eq l [] s (regs s) R' EC eq_refl)).
  pose proof (table_of s l W V (fun t => t)) as Et'. cbn in Et'. rewrite Et'. fold rs.
  rewrite (each_new (fun p => snd (snd p)) (fun p => fst (snd p))), map_length, map_map. cbn [row snd fst sets set_regs].
  do 3 f_equal. apply map_ext. intros r. rewrite with_region_regs. done.
Qed.
Lemma split_by_region_raise s o l : wf s -> contents s o = Some l -> cdims l (regs s) = None -> fst (split_by_region o s) = Raise.
Proof.
  intros W E EC. unfold split_by_region. rewrite (bind_ok _ _ _ _ _ (dimtagreg_eq s o l W E)).
  pose proof (by_region_raise l [] s EC) as H. unfold bind. destruct (by_region l [] s) as [[t|] s1]; cbn in *; done.
Qed.
Lemma by_dim_eq l : forall s R', cdims l (regs s) = Some R' -> Forall (fun p => 0 <= fst (fst p) < 4)%Z l -> by_dim l s = (Ok tt, set_regs R' s).
Proof.
  induction l as [|[t r] l IH]; intros s R' E F; cbn in E |- *.
  - injection E as <-. by rewrite set_regs_id.
  - destruct (creg r (fst t) (regs s)) as [R1|] eqn:E1; [|done]. cbn in E. inversion F as [|? ? F1 F2]; subst.
    erewrite bind_ok by (rewrite complete_eq, E1; reflexivity). cbn in F1.
    replace (_ && _)%bool with true by (symmetry; apply andb_true_iff; split; [apply Z.leb_le|apply Z.ltb_lt]; lia).
    by rewrite (IH (set_regs R1 s) R').
Qed.
Lemma by_dim_raise l : forall s, cdims l (regs s) = None \/ ~ Forall (fun p => 0 <= fst (fst p) < 4)%Z l -> fst (by_dim l s) = Raise.
Proof.
  induction l as [|[t r] l IH]; intros s H; cbn in H |- *.
  - destruct H as [|H]; [done|]. exfalso. by apply H.
  - destruct (creg r (fst t) (regs s)) as [R1|] eqn:E1.
    + erewrite bind_ok by (rewrite complete_eq, E1; reflexivity).
      destruct (_ && _)%bool eqn:Eb; [|done]. apply andb_true_iff in Eb as [Eb1 Eb2]. apply Z.leb_le in Eb1. apply Z.ltb_lt in Eb2.
      apply IH. destruct H as [H|H]; [by left|right]. intros F. apply H. by constructor.
    + by erewrite bind_raise by (rewrite complete_eq, E1; reflexivity).
Qed.
Lemma split_by_dimension_eq s o l R' : wf s -> contents s o = Some l -> cdims l (regs s) = Some R' ->
  Forall (fun p => 0 <= fst (fst p) < 4)%Z l ->
  split_by_dimension o s = (Ok (seq (length (sets s)) 4),
    set_sets (sets s ++ map (fun d => Some (OSet (map fst (with_dim d l)) (map snd (with_dim d l)))) [0; 1; 2; 3]%Z) (set_regs R' s)).
Proof.
  intros W E EC F. unfold split_by_dimension. rewrite (bind_ok _ _ _ _ _ (dimtagreg_eq s o l W E)).
  rewrite (bind_ok _ _ _ _ _ (by_dim_eq l s R' EC F)).
  rewrite (each_new_full (fun d => map fst (of_dim d l)) (fun d => map snd (of_dim d l))); [done|].
  intros d. by rewrite !map_length.
Qed.
Lemma split_by_dimension_raise s o l : wf s -> contents s o = Some l ->
  cdims l (regs s) = None \/ ~ Forall (fun p => 0 <= fst (fst p) < 4)%Z l -> fst (split_by_dimension o s) = Raise.
Proof.
  intros W E H. unfold split_by_dimension. rewrite (bind_ok _ _ _ _ _ (dimtagreg_eq s o l W E)).
  pose proof (by_dim_raise l s H) as G. unfold bind. destruct (by_dim l s) as [[t|] s1]; cbn in *; done.
Qed.
(** Contents of sets made from a list of lists. *)
Lemma contents_appended {P} s (F : P -> list (dimtag * nat)) (l : list P) s0 : sets s0 = sets s ->
  Forall2 (fun p a => contents (set_sets (sets s ++ map (fun a => Some (OSet (map fst (F a)) (map snd (F a)))) l) s0) p = Some (F a))
    (seq (length (sets s)) (length l)) l.
Proof.
  intros E0. apply Forall2_lookup. intros i. destruct (l !! i) as [a|] eqn:E.
  - rewrite lookup_seq_lt by (by eapply lookup_lt_Some). constructor. unfold contents. cbn.
    rewrite lookup_app_r by lia. replace (_ + i - _) with i by lia.
    rewrite list_lookup_fmap, E. cbn. by rewrite combine_map.
  - apply lookup_ge_None in E. rewrite lookup_seq_ge by done. constructor.
Qed.
(** ** Partitions *)
Lemma filter_partition {A B} `{EqDecision B} (f : A -> B) (bs : list B) (l : list A) : NoDup bs -> Forall (fun a => f a ∈ bs) l ->
  List.concat (map (fun b => List.filter (fun a => bool_decide (f a = b)) l) bs) ≡ₚ l.
Proof.
  intros ND. induction l as [|a l IH]; intros F.
  - cbn. clear. induction bs; cbn; done.
  - inversion F as [|? ? Fa Fl]; subst. transitivity (a :: List.concat (map (fun b => List.filter (fun a => bool_decide (f a = b)) l) bs)); [|by rewrite (IH Fl)].
    clear IH F Fl.
    induction bs as [|b bs IHb]; [by apply elem_of_nil in Fa|].
    apply NoDup_cons in ND as [Nb ND]. cbn. destruct (decide (f a = b)) as [E|N].
    + rewrite bool_decide_eq_true_2 by done. cbn. constructor. f_equiv.
      assert (map (fun b0 => List.filter (fun a0 => bool_decide (f a0 = b0)) (a :: l)) bs = map (fun b0 => List.filter (fun a0 => bool_decide (f a0 = b0)) l) bs) as Em.
      { apply map_ext_in. intros b' Hb'. cbn. rewrite bool_decide_eq_false_2; [done|]. intros <-. apply Nb. rewrite <- E. by apply elem_of_list_In. }
      cbn in Em. by rewrite Em.
    + rewrite bool_decide_eq_false_2 by done. apply elem_of_cons in Fa as [Fa|Fa]; [done|].
      rewrite IHb by done. by rewrite Permutation_middle.
Qed.
Lemma with_region_partition l : List.concat (map (fun r => with_region r l) (firsts (map snd l))) ≡ₚ l.
Proof.
  pose proof (filter_partition (B := nat) snd (firsts (map snd l)) l (firsts_nodup _)) as H. etransitivity; [|apply H].
  - apply Permutation_refl'. f_equal. apply map_ext. intros r. unfold with_region. apply List.filter_ext. intros p.
    destruct (snd p =? r) eqn:E; symmetry; [apply bool_decide_eq_true_2; by apply Nat.eqb_eq|apply bool_decide_eq_false_2; by apply Nat.eqb_neq].
  - apply Forall_forall. intros p Hp. apply firsts_elem, elem_of_list_fmap. eauto.
Qed.
Lemma with_dim_partition_gen ds l : NoDup ds -> Forall (fun p => fst (fst p) ∈ ds) l -> List.concat (map (fun d => with_dim d l) ds) ≡ₚ l.
Proof.
  intros ND F. pose proof (filter_partition (B := Z) (fun p : dimtag * nat => fst (fst p)) ds l ND F) as H. etransitivity; [|apply H].
  apply Permutation_refl'. f_equal. apply map_ext. intros d. unfold with_dim. apply List.filter_ext. intros p.
  case_bool_decide as E; [apply Z.eqb_eq|apply Z.eqb_neq]; exact E.
Qed.
Lemma with_dim_partition l : Forall (fun p => 0 <= fst (fst p) < 4)%Z l ->
  List.concat (map (fun d => with_dim d l) [0; 1; 2; 3]%Z) ≡ₚ l.
Proof.
  intros F. apply with_dim_partition_gen.
  - refine (bool_decide_eq_true_1 (NoDup _) _). by vm_compute.
  - eapply Forall_impl; [exact F|]. intros p Hp. cbn in Hp. assert (fst (fst p) = 0 \/ fst (fst p) = 1 \/ fst (fst p) = 2 \/ fst (fst p) = 3)%Z as H4 by lia.
    destruct H4 as [-> | [-> | [-> | ->]]]; repeat (constructor || apply elem_of_list_further).
Qed.
