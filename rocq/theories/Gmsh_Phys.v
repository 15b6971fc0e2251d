(** Physical groups. *)
From stdpp Require Import gmap strings list sorting.
From Coq Require Import ZArith QArith Ascii String Lia.
From Verif Require Import Gmsh_Model Gmsh_Spec Gmsh_Proofs Gmsh_Wf Gmsh_Split Gmsh_Frag.
From Verif Require MshIO_Model MshIO_Proofs MshIO_Data.
Local Open Scope nat_scope.
Local Notation length := List.length.

(** ** Names *)
Lemma show_nat_inj a b : show (Z.of_nat a) = show (Z.of_nat b) -> a = b.
Proof. intros H. apply MshIO_Data.show_inj in H. lia. Qed.
Fixpoint has (c : Ascii.ascii) (u : string) : bool :=
  match u with EmptyString => false | String d u => Ascii.eqb d c || has c u end.
Lemma has_chars c u : has c u = true -> List.In c (list_ascii_of_string u).
Proof.
  induction u as [|d u IH]; cbn; [done|]. intros H. apply orb_true_iff in H as [H|H]; [left; by apply Ascii.eqb_eq|right; by apply IH].
Qed.
Lemma show_no_bar z : has "_"%char (show z) = false.
Proof.
  destruct (has "_"%char (show z)) eqn:E; [|done]. apply has_chars in E. apply MshIO_Proofs.show_chars in E. done.
Qed.
Lemma append_bar a : forall b u v, has "_"%char u = false -> has "_"%char v = false ->
  (a ++ "_" ++ u)%string = (b ++ "_" ++ v)%string -> a = b /\ u = v.
Proof.
  assert (forall (a u v : string), has "_"%char v = false -> (String "_"%char v) <> String "_"%char (a ++ "_" ++ u)%string) as N.
  { intros a0 u v Hv [= E]. rewrite E in Hv. clear E. induction a0 as [|c a0 IH]; cbn in Hv; [done|]. apply orb_false_iff in Hv as [_ Hv]. by apply IH. }
  induction a as [|c a IH]; intros [|d b] u v Hu Hv E; cbn in E.
  - by injection E as ->.
  - exfalso. injection E as <- E. eapply (N b v u Hu). by rewrite E.
  - exfalso. injection E as -> E. eapply (N a u v Hv). by rewrite <- E.
  - injection E as -> E. destruct (IH b u v Hu Hv E) as [-> ->]. done.
Qed.
Lemma joined_inj a b i j : joined a (show (Z.of_nat i)) = joined b (show (Z.of_nat j)) -> a = b /\ i = j.
Proof. intros E. apply append_bar in E as [-> E]; [|apply show_no_bar|apply show_no_bar]. apply show_nat_inj in E. done. Qed.

(** ** Collecting *)
Definition nameof (R : list region) (r : nat) : string := default EmptyString (r_name <$> R !! r).
Definition add_name (R : list region) (rn : gmap string (gset Z)) (r : nat) : gmap string (gset Z) :=
  <[nameof R r := {[idof R r]} ∪ default ∅ (rn !! nameof R r)]> rn.
Lemma nameof_ext R R' r : map r_name R' = map r_name R -> nameof R' r = nameof R r.
Proof. intros E. unfold nameof. rewrite <- !list_lookup_fmap. change (r_name <$> R') with (map r_name R'). by rewrite E. Qed.
Lemma collect_eq l : forall rt rn s R R', cdims l (regs s) = Some R' -> map r_id R = map r_id (regs s) -> map r_name R = map r_name (regs s) ->
  collect l rt rn s = (Ok (foldl (fun acc p => add_tag (idof R (snd p)) (snd p) (snd (fst p)) acc) rt l,
                           foldl (add_name R) rn (map snd l)), set_regs R' s).
Proof.
  induction l as [|[[d t] r] l IH]; intros rt rn s R R' E EI EN; cbn in E |- *.
  - injection E as <-. by rewrite set_regs_id.
  - destruct (creg r d (regs s)) as [R1|] eqn:E1; [|done]. cbn in E.
    destruct (creg_spec _ _ _ _ E1) as (I1 & N1 & D1 & _ & _).
    erewrite bind_ok by (rewrite complete_eq, E1; reflexivity). cbn [regs set_regs].
    destruct (R1 !! r) as [x|] eqn:Ex; [|done].
    assert (idof R r = r_id x) as Ei. { rewrite <- (idof_ext R R1) by congruence. unfold idof. by rewrite Ex. }
    assert (nameof R r = r_name x) as En. { rewrite <- (nameof_ext R R1) by congruence. unfold nameof. by rewrite Ex. }
    rewrite <- Ei, <- En. rewrite (IH _ _ (set_regs R1 s) R R') by (cbn; congruence). done.
Qed.
Lemma collect_raise l : forall rt rn s, cdims l (regs s) = None -> fst (collect l rt rn s) = Raise.
Proof.
  induction l as [|[[d t] r] l IH]; intros rt rn s E; cbn in E |- *; [done|].
  destruct (creg r d (regs s)) as [R1|] eqn:E1.
  - erewrite bind_ok by (rewrite complete_eq, E1; reflexivity). cbn [regs set_regs].
    destruct (R1 !! r) as [x|]; [|done]. by apply IH.
  - erewrite bind_raise by (rewrite complete_eq, E1; reflexivity). done.
Qed.
(** The sets of ids by names. *)
Lemma names_eq R rs : forall n i, i ∈ default ∅ (foldl (add_name R) ∅ rs !! n) <-> exists r, r ∈ rs /\ nameof R r = n /\ idof R r = i.
Proof.
  induction rs as [|r rs IH] using rev_ind; intros n i.
  - cbn. rewrite lookup_empty. cbn. split; [by intros H%elem_of_empty|]. intros (r & H & _). by apply elem_of_nil in H.
  - rewrite foldl_app. cbn [foldl]. unfold add_name at 1. destruct (decide (nameof R r = n)) as [<-|N].
    + rewrite lookup_insert. cbn. rewrite elem_of_union, elem_of_singleton, IH. split.
      * intros [->|(q & Hq & En & Ei)]; [exists r|exists q]; (split; [apply elem_of_app|done]); [right; constructor|by left].
      * intros (q & Hq & En & Ei). apply elem_of_app in Hq as [Hq|Hq]; [right; eauto|]. apply elem_of_list_singleton in Hq as ->. by left.
    + rewrite lookup_insert_ne by done. rewrite IH. split.
      * intros (q & Hq & En & Ei). exists q. split; [apply elem_of_app; by left|done].
      * intros (q & Hq & En & Ei). apply elem_of_app in Hq as [Hq|Hq]; [eauto|]. apply elem_of_list_singleton in Hq as ->. done.
Qed.

(** ** Renaming *)
Definition named (x : region) (k : nat) : region := Reg (r_dim x) (r_id x) (joined (r_name x) (show (Z.of_nat k))).
Lemma find_region_row (key : nat -> Z) (tags : nat -> list Z) rs r : (forall a b, a ∈ rs -> b ∈ rs -> key a = key b -> a = b) -> r ∈ rs ->
  find_region (key r) (map (fun r => (key r, (r, tags r))) rs) = Some r.
Proof.
  intros Hinj Hr. unfold find_region. induction rs as [|q rs IH]; [by apply elem_of_nil in Hr|]. cbn.
  destruct (Z.eqb (key q) (key r)) eqn:E.
  - apply Z.eqb_eq in E. cbn. f_equal. apply Hinj; [constructor|done|done].
  - apply elem_of_cons in Hr as [->|Hr]; [by rewrite Z.eqb_refl in E|]. apply IH; [|done]. intros a b Ha Hb. apply Hinj; by constructor.
Qed.
Lemma rename_eq (rt : list (Z * (nat * list Z))) (key : nat -> Z) qs : forall k s, NoDup qs ->
  (forall q, q ∈ qs -> find_region (key q) rt = Some q /\ is_Some (regs s !! q)) ->
  exists R, rename rt k (map key qs) s = (Ok tt, set_regs R s) /\
    (forall j q x, qs !! j = Some q -> regs s !! q = Some x -> R !! q = Some (named x (k + j))) /\
    (forall q, q ∉ qs -> R !! q = regs s !! q) /\ length R = length (regs s).
Proof.
  induction qs as [|q qs IH]; intros k s ND H; cbn [map rename].
  - exists (regs s). rewrite set_regs_id. split; [done|]. done.
  - apply NoDup_cons in ND as [Nq ND]. destruct (H q) as [Ef [x Ex]]; [constructor|]. rewrite Ef.
    unfold set_unique_name at 1. erewrite bind_ok by (rewrite Ex; reflexivity).
    set (s1 := set_regs _ s).
    destruct (IH (S k) s1 ND) as (R & E & H1 & H2 & H3).
    { intros p Hp. destruct (H p) as [A [y Ey]]; [by constructor|]. split; [done|]. unfold s1. cbn. apply lookup_lt_is_Some. rewrite insert_length. by eapply lookup_lt_Some. }
    exists R. rewrite E. split; [done|]. split; [|split].
    + intros [|j] p y Ep Ey; cbn in Ep.
      * injection Ep as <-. rewrite H2 by done. unfold s1. cbn. rewrite list_lookup_insert by (by eapply lookup_lt_Some).
        rewrite Nat.add_0_r. replace y with x by congruence. done.
      * rewrite <- plus_n_Sm. apply (H1 j p y Ep). unfold s1. cbn. rewrite list_lookup_insert_ne; [done|].
        intros ->. by apply Nq, elem_of_list_lookup_2 with j.
    + intros p Np. apply not_elem_of_cons in Np as [Np1 Np2]. rewrite H2 by done. unfold s1. cbn. by rewrite list_lookup_insert_ne.
    + rewrite H3. unfold s1. cbn. by rewrite insert_length.
Qed.
(** Position in a sorted list. *)
Lemma sorted_position (L : list Z) : StronglySorted Z.le L -> NoDup L -> forall j x, L !! j = Some x ->
  length (List.filter (fun y => (y <? x)%Z) L) = j.
Proof.
  intros S. induction S as [|a L S IH F]; intros ND j x E; [done|]. apply NoDup_cons in ND as [Na ND]. cbn. destruct j as [|j]; cbn in E.
  - injection E as ->. rewrite Z.ltb_irrefl. clear -F. induction F as [|b L Hb F IHF]; [done|]. cbn.
    replace (b <? x)%Z with false by (symmetry; apply Z.ltb_ge; done). done.
  - assert (a <= x)%Z by (rewrite Forall_lookup in F; eauto). assert (a <> x) by (intros ->; by apply Na, elem_of_list_lookup_2 with j).
    replace (a <? x)%Z with true by (symmetry; apply Z.ltb_lt; lia). cbn. f_equal. by apply IH.
Qed.
Lemma filter_perm_length {A} (f : A -> bool) (l l' : list A) : l ≡ₚ l' -> length (List.filter f l) = length (List.filter f l').
Proof. induction 1; cbn; repeat match goal with |- context [f ?a] => destruct (f a) end; cbn; congruence. Qed.
Lemma inverse_list (key : nat -> Z) (P : nat -> Prop) (L : list Z) : NoDup L -> (forall i, i ∈ L <-> exists q, P q /\ key q = i) ->
  (forall a b, P a -> P b -> key a = key b -> a = b) ->
  exists qs, L = map key qs /\ NoDup qs /\ forall q, q ∈ qs <-> P q.
Proof.
  intros ND H Hinj. assert (exists qs, L = map key qs /\ Forall P qs) as (qs & -> & F).
  { assert (forall i, i ∈ L -> exists q, P q /\ key q = i) as H' by (intros i Hi; by apply H). clear H ND.
    induction L as [|i L IH]; [by exists []|]. destruct (H' i) as (q & Pq & Eq); [constructor|].
    destruct IH as (qs & -> & F). { intros i' Hi. apply H'. by constructor. }
    exists (q :: qs). cbn. rewrite Eq. split; [done|by constructor]. }
  exists qs. split; [done|]. rewrite Forall_forall in F. split; [by eapply NoDup_fmap_1 with (f := key)|].
  intros q. split; [apply F|]. intros Pq. assert (key q ∈ map key qs) as Hk by (apply H; eauto).
  apply elem_of_list_fmap in Hk as (p & Ep & Hp). rewrite (Hinj q p); auto.
Qed.
Lemma filter_map {A B} (f : B -> bool) (g : A -> B) l : List.filter f (map g l) = map g (List.filter (fun a => f (g a)) l).
Proof. induction l as [|a l IH]; cbn; [done|]. destruct (f (g a)); cbn; by rewrite IH. Qed.
Lemma rid_idof s r : default 0%Z (rid s r) = idof (regs s) r.
Proof. done. Qed.
Lemma rname_nameof s q r : is_Some (regs s !! q) -> is_Some (regs s !! r) -> (rname s q = rname s r <-> nameof (regs s) q = nameof (regs s) r).
Proof. intros [x Ex] [y Ey]. unfold rname, nameof. rewrite Ex, Ey. cbn. split; congruence. Qed.

Section Rename.
Context (s0 : st) (W : wf s0) (rs : list nat) (ND : NoDup rs) (V : valid rs s0) (tags : nat -> list Z).
Let key := idof (regs s0).
Let rt := map (fun r => (key r, (r, tags r))) rs.
Lemma key_inj a b : a ∈ rs -> b ∈ rs -> key a = key b -> a = b.
Proof. unfold valid in V. rewrite Forall_forall in V. intros Ha Hb. apply (idof_inj s0); [done|by apply V|by apply V]. Qed.
Lemma alive q : q ∈ rs -> is_Some (regs s0 !! q).
Proof. unfold valid in V. rewrite Forall_forall in V. intros Hq. apply lookup_lt_is_Some. by apply V. Qed.
Lemma sharers_elem r q : r ∈ rs -> q ∈ sharers s0 rs r <-> q ∈ rs /\ nameof (regs s0) q = nameof (regs s0) r.
Proof.
  intros Hr. unfold sharers. rewrite elem_of_list_In, List.filter_In, <- elem_of_list_In. split; intros [Hq E]; (split; [done|]).
  - apply bool_decide_eq_true_1 in E. apply rname_nameof; [by apply alive|by apply alive|done].
  - apply bool_decide_eq_true_2. apply rname_nameof; [by apply alive|by apply alive|done].
Qed.
Lemma sharers_nodup r : NoDup (sharers s0 rs r).
Proof. unfold sharers. apply NoDup_ListNoDup, List.NoDup_filter, NoDup_ListNoDup, ND. Qed.
Definition renamed (ns : list string) (q : nat) (x : region) : region :=
  if decide (q ∈ rs /\ nameof (regs s0) q ∈ ns /\ 1 < length (sharers s0 rs q)) then named x (rank s0 rs q) else x.
Lemma rename_list ps : forall s, NoDup (map fst ps) -> length (regs s) = length (regs s0) ->
  (forall n X, (n, X) ∈ ps -> forall i, i ∈ X <-> exists q, (q ∈ rs /\ nameof (regs s0) q = n) /\ key q = i) ->
  exists R u, each (fun p : string * gset Z => if 1 <? size (snd p) then rename rt 0 (merge_sort Z.le (elements (snd p))) else ret tt) ps s = (Ok u, set_regs R s) /\
    length R = length (regs s) /\ forall q x, regs s !! q = Some x -> R !! q = Some (renamed (map fst ps) q x).
Proof.
  induction ps as [|[n X] ps IH]; intros s NDp Els HX; cbn [each map].
  - exists (regs s), []. rewrite set_regs_id. split; [done|]. split; [done|]. intros q x Ex. unfold renamed. rewrite decide_False; [done|].
    intros (_ & H & _). by apply elem_of_nil in H.
  - apply NoDup_cons in NDp as [Nn NDp]. cbn [fst] in Nn.
    assert (exists R1 u, (if 1 <? size X then rename rt 0 (merge_sort Z.le (elements X)) else ret tt) s = (Ok u, set_regs R1 s) /\
      length R1 = length (regs s) /\ forall q x, regs s !! q = Some x -> R1 !! q = Some (renamed [n] q x)) as (R1 & u1 & E1 & L1 & H1).
    { pose proof (merge_sort_Permutation Z.le (elements X)) as HP. set (L := merge_sort Z.le (elements X)) in *.
      assert (NoDup L) as NDL by (rewrite HP; apply NoDup_elements).
      destruct (inverse_list key (fun q => q ∈ rs /\ nameof (regs s0) q = n) L NDL) as (qs & EL & NDq & Hq).
      { intros i. rewrite HP, elem_of_elements. apply HX. constructor. }
      { intros a b [Ha _] [Hb _]. by apply key_inj. }
      assert (forall r, r ∈ qs -> sharers s0 rs r ≡ₚ qs) as HS.
      { intros r Hr. apply Hq in Hr as [Hr <-]. apply NoDup_Permutation; [apply sharers_nodup|done|]. intros q. by rewrite sharers_elem, Hq. }
      assert (size X = length qs) as ES.
      { change (size X) with (length (elements X)). pose proof (Permutation_length HP) as E. rewrite EL, map_length in E. done. }
      assert (forall j q, qs !! j = Some q -> rank s0 rs q = j) as HR.
      { intros j q Eq. unfold rank. rewrite (filter_perm_length _ _ _ (HS q (elem_of_list_lookup_2 _ _ _ Eq))).
        rewrite rid_idof. fold key.
        rewrite <- (sorted_position L) with (x := key q) (j := j).
        - rewrite EL, filter_map, map_length. done.
        - apply StronglySorted_merge_sort; apply _.
        - done.
        - rewrite EL, list_lookup_fmap, Eq. done. }
      destruct (1 <? size X) eqn:Eb.
      - apply Nat.ltb_lt in Eb. destruct (rename_eq rt key qs 0 s NDq) as (R & E & Ha & Hb & Hc).
        { intros q Hqs. apply Hq in Hqs as [Hqr _]. split; [by apply (find_region_row key tags rs q key_inj)|].
          apply lookup_lt_is_Some. rewrite Els. apply lookup_lt_is_Some. by apply alive. }
        exists R, tt. rewrite EL. split; [done|]. split; [done|]. intros q x Ex. unfold renamed. destruct (decide (q ∈ qs)) as [Hin|Hout].
        + rewrite decide_True. 
          * apply elem_of_list_lookup in Hin as [j Ej]. rewrite (Ha j q x Ej Ex). cbn. by rewrite (HR j q Ej).
          * pose proof (HS q Hin) as HSq. apply Hq in Hin as [Hr En]. split; [done|]. split; [rewrite En; constructor|]. rewrite HSq. lia.
        + rewrite Hb by done. rewrite decide_False; [done|]. intros (Hr & Hn & _). apply elem_of_list_singleton in Hn. apply Hout, Hq. done.
      - apply Nat.ltb_ge in Eb. exists (regs s), tt. rewrite set_regs_id. split; [done|]. split; [done|]. intros q x Ex. unfold renamed.
        rewrite decide_False; [done|]. intros (Hr & Hn & Hl). apply elem_of_list_singleton in Hn.
        assert (q ∈ qs) as Hin by (by apply Hq). rewrite (HS q Hin) in Hl. lia. }
    destruct (IH (set_regs R1 s) NDp) as (R & u & E & L2 & H2).
    { cbn. congruence. }
    { intros n' X' Hin. apply HX. by constructor. }
    exists R, (u1 :: u). cbn [snd]. rewrite (bind_ok _ _ _ _ _ E1), (bind_ok _ _ _ _ _ E). split; [done|]. split; [cbn in L2; congruence|].
    intros q x Ex. cbn in H2. rewrite (H2 q _ (H1 q x Ex)). f_equal. unfold renamed. cbn [fst].
    destruct (decide (q ∈ rs /\ nameof (regs s0) q ∈ [n] /\ 1 < length (sharers s0 rs q))) as [(A & B & C)|N1].
    + apply elem_of_list_singleton in B. rewrite decide_False.
      * rewrite decide_True; [done|]. split; [done|]. split; [rewrite B; constructor|done].
      * rewrite B. intros (_ & Hn & _). done.
    + destruct (decide (q ∈ rs /\ nameof (regs s0) q ∈ map fst ps /\ 1 < length (sharers s0 rs q))) as [(A & B & C)|N2].
      * rewrite decide_True; [done|]. split; [done|]. split; [by constructor|done].
      * rewrite decide_False; [done|]. intros (A & B & C). apply elem_of_cons in B as [B|B]; [apply N1|apply N2]; (split; [done|]; split; [|done]); [rewrite B; constructor|done].
Qed.
End Rename.

(** ** Physical groups *)
Section Emit.
Context (K : kernel).
Lemma emit_list (key : nat -> Z) (tags : nat -> list Z) (d : nat -> Z) (nm : nat -> string) rs : (forall k, k_ask K k = true) -> forall s,
  (forall r, r ∈ rs -> exists x, regs s !! r = Some x /\ r_dim x = Some (d r) /\ r_name x = nm r) ->
  exists u s', each (emit K) (map (fun r => (key r, (r, tags r))) rs) s = (Ok u, s') /\
    groups s' = groups s ++ map (fun r => (d r, tags r, nm r)) rs /\ regs s' = regs s /\ sets s' = sets s /\ dirty s' = dirty s /\ flag s' = flag s.
Proof.
  intros HK. induction rs as [|r rs IH]; intros s H; cbn [map each].
  - exists [], s. rewrite app_nil_r. done.
  - destruct (H r) as (x & Ex & Ed & En); [constructor|].
    set (s1 := set_stale (stale s || dirty s) (set_tick (S (tick s)) s)).
    set (s2 := set_groups (groups s1 ++ [(d r, tags r, r_name x)]) s1).
    assert (emit K (key r, (r, tags r)) s = (Ok tt, s2)) as E.
    { unfold emit. cbn [fst snd]. rewrite Ex, Ed. unfold ask, bind. rewrite HK. done. }
    rewrite (bind_ok _ _ _ _ _ E). destruct (IH s2) as (u & s' & E' & A & B & C & D & F). { intros q Hq. apply H. by constructor. }
    exists (tt :: u), s'. rewrite (bind_ok _ _ _ _ _ E'). split; [done|]. split.
    + rewrite A. unfold s2. cbn. rewrite <- app_assoc. by rewrite En.
    + done.
Qed.

(** Names after renaming. *)
Lemma renamed_name s0 rs q x y : wf s0 -> valid rs s0 -> NoDup rs -> q ∈ rs -> regs s0 !! q = Some y -> r_name x = r_name y ->
  forall ns, nameof (regs s0) q ∈ ns -> r_name (renamed s0 rs ns q x) = group_name s0 rs q.
Proof.
  intros W V ND Hq Ey En ns Hn. unfold renamed, group_name. assert (rname s0 q = Some (r_name y)) as -> by (unfold rname; by rewrite Ey). cbn [default from_option].
  assert (q ∈ sharers s0 rs q) as Hs by (by apply sharers_elem).
  assert (0 < length (sharers s0 rs q)) as L by (destruct (sharers s0 rs q); [by apply elem_of_nil in Hs|cbn; lia]).
  destruct (length (sharers s0 rs q) =? 1) eqn:E.
  - apply Nat.eqb_eq in E. rewrite decide_False; [done|]. lia.
  - apply Nat.eqb_neq in E. rewrite decide_True; [|split; [done|split; [done|lia]]]. cbn. rewrite En. done.
Qed.
Lemma renamed_other s0 rs ns q x : q ∉ rs -> renamed s0 rs ns q x = x.
Proof. intros H. unfold renamed. rewrite decide_False; [done|]. by intros [? _]. Qed.
Lemma renamed_dim s0 rs ns q x : r_dim (renamed s0 rs ns q x) = r_dim x /\ r_id (renamed s0 rs ns q x) = r_id x.
Proof. unfold renamed. by destruct (decide _). Qed.

Lemma sync_wf s : wf s -> wf (snd (synchronize s)).
Proof. intros W. unfold synchronize. cbn. destruct (flag s); [|done]. eapply wf_ext; [..|exact W]; done. Qed.
Lemma sync_fields s : regs (snd (synchronize s)) = regs s /\ sets (snd (synchronize s)) = sets s /\ groups (snd (synchronize s)) = groups s.
Proof. unfold synchronize. cbn. by destruct (flag s). Qed.

Lemma assign_eq s o l : wf s -> contents s o = Some l -> (forall k, k_ask K k = true) -> dims_agree s l ->
  let rs := firsts (map snd l) in
  exists s', assign_physical_groups K o s = (Ok tt, s') /\
    groups s' = groups s ++ map (group_of s l) rs /\ sets s' = sets s /\
    (forall r, r ∈ rs -> rname s' r = Some (group_name s rs r)) /\
    (forall r, r ∉ rs -> regs s' !! r = regs s !! r) /\
    (forall r, rid s' r = rid s r).
Proof.
  intros W E HK HD rs. set (s1 := snd (synchronize s)).
  pose proof (sync_fields s) as (F1 & F2 & F3). fold s1 in F1, F2, F3. pose proof (sync_wf s W) as W1. fold s1 in W1.
  assert (contents s1 o = Some l) as E1 by (unfold contents in *; by rewrite F2).
  destruct (contents_some s1 o l W1 E1) as (x & Ex & Et & Er & V).
  apply cdims_iff in HD as [R' EC]. rewrite <- F1 in EC.
  destruct (cdims_spec _ _ _ EC) as (I1 & N1 & D1 & Q1 & U1).
  assert (valid rs s1) as Vr. { unfold valid in *. rewrite Forall_forall in *. intros r Hr. apply V. by apply firsts_elem. }
  assert (NoDup rs) as ND by apply firsts_nodup.
  set (tags := fun r => map (fun p : dimtag * nat => snd (fst p)) (with_region r l)).
  set (rn := foldl (add_name (regs s1)) ∅ (map snd l)).
  assert (collect l [] ∅ s1 = (Ok (map (fun r => (idof (regs s1) r, (r, tags r))) rs, rn), set_regs R' s1)) as EL.
  { rewrite (collect_eq l [] ∅ s1 (regs s1) R' EC eq_refl eq_refl). do 3 f_equal. 
    pose proof (table_of s1 l W1 V (fun t => snd t)) as T. cbn in T. exact T. }
  assert (length R' = length (regs s1)) as LR by (rewrite <- (map_length r_id R'), I1, map_length; done).
  destruct (rename_list s1 W1 rs ND Vr tags (map_to_list rn) (set_regs R' s1)) as (R2 & u & EM & LM & HM).
  { apply NoDup_fst_map_to_list. }
  { exact LR. }
  { intros n X Hin i. apply elem_of_map_to_list in Hin. replace X with (default ∅ (rn !! n)) by (by rewrite Hin). unfold rn. rewrite names_eq. split.
    - intros (r & Hr & Hn & Hi). exists r. split; [split; [by apply firsts_elem|done]|done].
    - intros (r & (Hr & Hn) & Hi). exists r. split; [by apply firsts_elem|done]. }
  set (ns := map fst (map_to_list rn)) in *.
  assert (forall q, q ∈ rs -> nameof (regs s1) q ∈ ns) as Hns.
  { intros q Hq. assert (idof (regs s1) q ∈ default ∅ (rn !! nameof (regs s1) q)) as Hi by (apply names_eq; exists q; split; [by apply firsts_elem|done]).
    destruct (rn !! nameof (regs s1) q) as [X|] eqn:EX; [|by apply elem_of_empty in Hi].
    unfold ns. apply elem_of_list_fmap. exists (nameof (regs s1) q, X). split; [done|]. by apply elem_of_map_to_list. }
  assert (forall q y, R' !! q = Some y -> exists z, regs s1 !! q = Some z /\ r_name y = r_name z /\ r_id y = r_id z) as HR.
  { intros q y Ey. destruct (regs s1 !! q) as [z|] eqn:Ez.
    - exists z. split; [done|].
      assert ((r_id <$> R') !! q = (r_id <$> regs s1) !! q) as I2 by (by apply (f_equal (fun L => L !! q)) in I1).
      assert ((r_name <$> R') !! q = (r_name <$> regs s1) !! q) as N2 by (by apply (f_equal (fun L => L !! q)) in N1).
      rewrite !list_lookup_fmap, Ey, Ez in I2. rewrite !list_lookup_fmap, Ey, Ez in N2. cbn in *. split; congruence.
    - exfalso. apply lookup_ge_None in Ez. apply lookup_lt_Some in Ey. lia. }
  assert (forall q, group_name s1 rs q = group_name s rs q) as GN.
  { intros q. unfold group_name, sharers, rank, sharers, rname, rid. by rewrite F1. }
  set (d := fun r => match with_region r l with (t, _) :: _ => fst t | [] => 0%Z end).
  destruct (emit_list (idof (regs s1)) tags d (fun r => group_name s rs r) rs HK (set_regs R2 (set_regs R' s1))) as (u2 & s' & EE & G1 & G2 & G3 & _).
  { intros r Hr. pose proof (proj1 (firsts_elem _ _) Hr) as Hr'. apply elem_of_list_fmap in Hr' as ([t r'] & Er' & Hin). cbn in Er'. subst r'.
    assert (is_Some (R' !! r)) as [y Ey]. { apply lookup_lt_is_Some. rewrite LR. unfold valid in Vr. rewrite Forall_forall in Vr. by apply Vr. }
    destruct (HR r y Ey) as (z & Ez & En & Ei).
    exists (renamed s1 rs ns r y). cbn [regs set_regs]. split; [by apply HM|]. split.
    - rewrite (proj1 (renamed_dim _ _ _ _ _)). unfold d.
      assert ((t, r) ∈ with_region r l) as Hw. { unfold with_region. apply elem_of_list_In, List.filter_In. split; [by apply elem_of_list_In|]. cbn. apply Nat.eqb_refl. }
      destruct (with_region r l) as [|[t0 r0] w] eqn:Ew; [by apply elem_of_nil in Hw|].
      assert ((t0, r0) ∈ with_region r l) as H0 by (rewrite Ew; constructor). unfold with_region in H0. apply elem_of_list_In, List.filter_In in H0 as [H0 Eb].
      cbn in Eb. apply Nat.eqb_eq in Eb as ->. apply elem_of_list_In in H0. specialize (D1 _ _ H0). rewrite Ey in D1. done.
    - rewrite (renamed_name s1 rs r y z W1 Vr ND Hr Ez En ns); [|by apply Hns]. done. }
  exists s'. split; [|split; [|split; [|split; [|split]]]].
  - unfold assign_physical_groups. erewrite bind_ok by reflexivity. change (synchronize s) with (Ok tt, s1) || idtac.
    fold s1. rewrite (bind_ok _ _ _ _ _ (dimtagreg_eq s1 o l W1 E1)), (bind_ok _ _ _ _ _ EL). cbn [fst snd].
    unfold rename_all. erewrite bind_ok. 2:{ rewrite (bind_ok _ _ _ _ _ EM). reflexivity. }
    by rewrite (bind_ok _ _ _ _ _ EE).
  - rewrite G1. cbn [groups set_regs]. rewrite F3. f_equal.
  - rewrite G3. cbn [sets set_regs]. done.
  - intros r Hr. unfold rname. rewrite G2. cbn [regs set_regs].
    assert (is_Some (R' !! r)) as [y Ey]. { apply lookup_lt_is_Some. rewrite LR. unfold valid in Vr. rewrite Forall_forall in Vr. by apply Vr. }
    destruct (HR r y Ey) as (z & Ez & En & Ei). rewrite (HM r y Ey). cbn [option_fmap option_map fmap]. f_equal. rewrite (renamed_name s1 rs r y z W1 Vr ND Hr Ez En ns); [done|by apply Hns].
  - intros r Hr. rewrite G2. cbn [regs set_regs]. rewrite <- F1. rewrite <- (Q1 r).
    + destruct (R' !! r) as [y|] eqn:Ey.
      * rewrite (HM r y Ey). by rewrite renamed_other.
      * apply lookup_ge_None in Ey. apply lookup_ge_None. cbn in LM. lia.
    + intros t Ht. apply Hr, firsts_elem. apply elem_of_list_fmap. by exists (t, r).
  - intros r. unfold rid. rewrite G2. cbn [regs set_regs]. rewrite <- F1. destruct (R' !! r) as [y|] eqn:Ey.
    + destruct (HR r y Ey) as (z & Ez & En & Ei). rewrite (HM r y Ey), Ez. cbn [option_fmap option_map fmap]. by rewrite (proj2 (renamed_dim _ _ _ _ _)), Ei.
    + apply lookup_ge_None in Ey. rewrite (proj2 (lookup_ge_None R2 r)) by (cbn in LM; lia). rewrite (proj2 (lookup_ge_None (regs s1) r)) by lia. done.
Qed.
Lemma collect_groups l : forall rt rn s, groups (snd (collect l rt rn s)) = groups s.
Proof.
  induction l as [|[[d t] r] l IH]; intros rt rn s; cbn [collect]; [done|].
  unfold bind. rewrite complete_eq. destruct (creg r d (regs s)) as [R|]; [|done]. cbn [regs set_regs]. destruct (R !! r); [|done]. by rewrite IH.
Qed.
Lemma assign_raise s o l : wf s -> contents s o = Some l -> ~ dims_agree s l -> 
  fst (assign_physical_groups K o s) = Raise /\ groups (snd (assign_physical_groups K o s)) = groups s.
Proof.
  intros W E HD. set (s1 := snd (synchronize s)).
  pose proof (sync_fields s) as (F1 & F2 & F3). fold s1 in F1, F2, F3. pose proof (sync_wf s W) as W1. fold s1 in W1.
  assert (contents s1 o = Some l) as E1 by (unfold contents in *; by rewrite F2).
  assert (cdims l (regs s1) = None) as EC. { rewrite F1. destruct (cdims l (regs s)) eqn:X; [|done]. exfalso. apply HD, cdims_iff. by rewrite X. }
  unfold assign_physical_groups. erewrite bind_ok by reflexivity. fold s1. rewrite (bind_ok _ _ _ _ _ (dimtagreg_eq s1 o l W1 E1)).
  pose proof (collect_raise l [] ∅ s1 EC) as H. 
  pose proof (collect_groups l [] ∅ s1) as HG.
  unfold bind. destruct (collect l [] ∅ s1) as [[t|] s2]; cbn in *; [done|]. by rewrite HG.
Qed.
End Emit.

(** ** When the names are different *)
Section Unique.
Context (s0 : st) (W : wf s0) (rs : list nat) (ND : NoDup rs) (V : valid rs s0).
Let key := idof (regs s0).
Lemma sharers_same r q : q ∈ sharers s0 rs r -> sharers s0 rs q = sharers s0 rs r.
Proof.
  unfold sharers at 1. intros H. apply elem_of_list_In, List.filter_In in H as [_ E]. apply bool_decide_eq_true_1 in E.
  unfold sharers. apply List.filter_ext. intros p. by rewrite E.
Qed.
Lemma sharers_in r q : q ∈ sharers s0 rs r -> q ∈ rs.
Proof. unfold sharers. intros H. apply elem_of_list_In, List.filter_In in H as [H _]. by apply elem_of_list_In. Qed.
Lemma sharers_self r : r ∈ rs -> r ∈ sharers s0 rs r.
Proof. intros H. unfold sharers. apply elem_of_list_In, List.filter_In. split; [by apply elem_of_list_In|]. by apply bool_decide_eq_true_2. Qed.
Definition ordered (r : nat) : list Z := merge_sort Z.le (map key (sharers s0 rs r)).
Lemma ordered_perm r : ordered r ≡ₚ map key (sharers s0 rs r).
Proof. apply merge_sort_Permutation. Qed.
Lemma ordered_nodup r : NoDup (ordered r).
Proof.
  rewrite ordered_perm. apply NoDup_fmap_2_strong; [|by apply sharers_nodup]. intros a b Ha Hb E. unfold key in E. eapply (key_inj s0 W rs V); [by eapply sharers_in|by eapply sharers_in|done].
Qed.
Lemma rank_position r q j : q ∈ sharers s0 rs r -> ordered r !! j = Some (key q) -> rank s0 rs q = j.
Proof.
  intros Hq Ej. unfold rank. rewrite (sharers_same r q Hq).
  transitivity (length (List.filter (fun i => (i <? key q)%Z) (map key (sharers s0 rs r)))).
  { rewrite filter_map, map_length. done. }
  rewrite <- (filter_perm_length _ _ _ (ordered_perm r)).
  apply sorted_position; [apply StronglySorted_merge_sort; apply _|apply ordered_nodup|done].
Qed.
Lemma rank_onto r i : i < length (sharers s0 rs r) -> exists q, q ∈ sharers s0 rs r /\ rank s0 rs q = i.
Proof.
  intros Hi. assert (length (ordered r) = length (sharers s0 rs r)) as L by (rewrite (Permutation_length (ordered_perm r)), map_length; done).
  destruct (lookup_lt_is_Some_2 (ordered r) i) as [k Ek]; [lia|]. pose proof (elem_of_list_lookup_2 _ _ _ Ek) as Hk.
  rewrite ordered_perm in Hk. apply elem_of_list_fmap in Hk as (q & -> & Hq). exists q. split; [done|]. by eapply rank_position.
Qed.
Lemma rank_at r q : q ∈ sharers s0 rs r -> ordered r !! rank s0 rs q = Some (key q).
Proof.
  intros Hq. assert (key q ∈ ordered r) as H by (rewrite ordered_perm; apply elem_of_list_fmap; eauto).
  apply elem_of_list_lookup in H as [j Ej]. by rewrite (rank_position r q j Hq Ej).
Qed.
Lemma rank_inj r q p : q ∈ sharers s0 rs r -> p ∈ sharers s0 rs r -> rank s0 rs q = rank s0 rs p -> q = p.
Proof.
  intros Hq Hp E. pose proof (rank_at r q Hq) as A. pose proof (rank_at r p Hp) as B. rewrite E in A. rewrite A in B. injection B as B.
  eapply (key_inj s0 W rs V); [by eapply sharers_in|by eapply sharers_in|done].
Qed.
Lemma rank_lt r : r ∈ rs -> rank s0 rs r < length (sharers s0 rs r).
Proof.
  intros Hr. pose proof (rank_at r r (sharers_self r Hr)) as A. apply lookup_lt_Some in A. by rewrite (Permutation_length (ordered_perm r)), map_length in A.
Qed.
Lemma sharers_pos r : r ∈ rs -> 0 < length (sharers s0 rs r).
Proof. intros H%rank_lt. lia. Qed.
Lemma sharers_two p q : p ∈ rs -> q ∈ rs -> p <> q -> rname s0 p = rname s0 q -> 1 < length (sharers s0 rs p).
Proof.
  intros Hp Hq N E. assert (q ∈ sharers s0 rs p) as H.
  { unfold sharers. apply elem_of_list_In, List.filter_In. split; [by apply elem_of_list_In|]. by apply bool_decide_eq_true_2. }
  pose proof (sharers_self p Hp) as H'. destruct (sharers s0 rs p) as [|a [|b u]]; [by apply elem_of_nil in H| |cbn; lia].
  apply elem_of_list_singleton in H, H'. congruence.
Qed.
Lemma named_in r : r ∈ rs -> exists n, rname s0 r = Some n.
Proof. intros Hr. unfold rname. destruct (alive s0 rs V r Hr) as [x ->]. by exists (r_name x). Qed.
Lemma names_distinct : NoDup (map (group_name s0 rs) rs) <-> ~ name_clash s0 rs.
Proof.
  split.
  - intros NDn (r & q & n & i & Hr & Hq & En & L & Li & Eq & Lq). destruct (rank_onto r i Li) as (p & Hp & Rp).
    pose proof (sharers_in _ _ Hp) as Hp'.
    assert (rname s0 p = Some n) as Enp. { unfold sharers in Hp. apply elem_of_list_In, List.filter_In in Hp as [_ E]. apply bool_decide_eq_true_1 in E. congruence. }
    assert (group_name s0 rs p = group_name s0 rs q) as EG.
    { unfold group_name. rewrite Enp, Eq, (sharers_same r p Hp), Lq. cbn [Nat.eqb default from_option].
      destruct (length (sharers s0 rs r) =? 1) eqn:X; [apply Nat.eqb_eq in X; lia|]. by rewrite Rp. }
    assert (p = q) as ->.
    { apply elem_of_list_lookup in Hp' as [a Ea], Hq as [b Eb].
      assert (a = b) as ->. { eapply NoDup_lookup; [exact NDn| |]; [rewrite list_lookup_fmap, Ea; reflexivity|rewrite list_lookup_fmap, Eb; cbn; by rewrite EG]. }
      congruence. }
    rewrite (sharers_same r q Hp) in Lq. lia.
  - intros NC. apply NoDup_fmap_2_strong; [|done]. intros p q Hp Hq EG. destruct (decide (p = q)) as [|N]; [done|]. exfalso.
    destruct (named_in p Hp) as [n En], (named_in q Hq) as [m Em]. pose proof (sharers_pos p Hp) as Lp. pose proof (sharers_pos q Hq) as Lq.
    unfold group_name in EG. rewrite En, Em in EG. cbn [default from_option] in EG.
    destruct (length (sharers s0 rs p) =? 1) eqn:Ep, (length (sharers s0 rs q) =? 1) eqn:Eq.
    + apply Nat.eqb_eq in Ep. pose proof (sharers_two p q Hp Hq N) as H. rewrite En, Em in H. specialize (H (f_equal Some EG)). lia.
    + apply Nat.eqb_eq in Ep. apply Nat.eqb_neq in Eq. apply NC. exists q, p, m, (rank s0 rs q). pose proof (rank_lt q Hq).
      do 3 (split; [done|]). split; [lia|]. split; [done|]. split; [|done]. rewrite En. f_equal. exact EG.
    + apply Nat.eqb_neq in Ep. apply Nat.eqb_eq in Eq. apply NC. exists p, q, n, (rank s0 rs p). pose proof (rank_lt p Hp).
      do 3 (split; [done|]). split; [lia|]. split; [done|]. split; [|done]. rewrite Em. f_equal. symmetry. exact EG.
    + destruct (joined_inj n m _ _ EG) as [Enm ER]. apply N. eapply (rank_inj p); [by apply sharers_self| |done].
      unfold sharers. apply elem_of_list_In, List.filter_In. split; [by apply elem_of_list_In|]. apply bool_decide_eq_true_2. congruence.
Qed.
End Unique.
