(** Lemmas about the id map model. *)
From stdpp Require Import gmap fin_map_dom.
From Coq Require Import Lia.
From Verif Require Import IdMap_Model.

(** ** Specification *)
Section Spec.
Context {A : Type}.

(** The finite map a user has in mind, from the observed events. *)
Definition live_step (m : gmap nat A) (e : im_event A) : gmap nat A :=
  match e with
  | EvAdd i x => <[i := x]> m
  | EvDel i => delete i m
  | EvKeyError _ => m
  end.

(** Every observation is legal: a new id was not live, only live ids are
    removed, a KeyError is reported only for an id that is not live. *)
Fixpoint legal (m : gmap nat A) (es : list (im_event A)) : Prop :=
  match es with
  | [] => True
  | e :: es' =>
      match e with
      | EvAdd i _ => m !! i = None
      | EvDel i => is_Some (m !! i)
      | EvKeyError i => m !! i = None
      end /\ legal (live_step m e) es'
  end.

(** Largest number of simultaneously live objects in a history. *)
Fixpoint peak (m : gmap nat A) (es : list (im_event A)) : nat :=
  match es with
  | [] => size m
  | e :: es' => Nat.max (size m) (peak (live_step m e) es')
  end.

Definition event_id (e : im_event A) : nat :=
  match e with EvAdd i _ => i | EvDel i => i | EvKeyError i => i end.
End Spec.

Section Proofs.
Context {A : Type}.
Implicit Types m : idmap A.

Definition im_inv m : Prop :=
  NoDup (im_free m) /\
  (forall i, i ∈ im_free m -> im_items m !! i = None /\ i < im_next m) /\
  (forall i, is_Some (im_items m !! i) -> i < im_next m) /\
  (forall i, i < im_next m -> is_Some (im_items m !! i) \/ i ∈ im_free m).

Lemma im_inv_empty : im_inv (im_empty : idmap A).
Proof.
  split; [constructor|]. split; [intros i H; now apply elem_of_nil in H|].
  split; intros i H; simpl in *.
  - rewrite lookup_empty in H. destruct H; discriminate.
  - lia.
Qed.

Lemma im_append_spec m x i m' : im_inv m -> im_append m x = (i, m') ->
  im_items m !! i = None /\ im_items m' = <[i := x]> (im_items m) /\ im_inv m'.
Proof.
  intros (H1 & H2 & H3 & H4). unfold im_append, get_new_id.
  destruct (im_free m) as [|j fs] eqn:Ef; intros E; inversion E; subst; clear E; simpl.
  - assert (N : im_items m !! im_next m = None).
    { destruct (im_items m !! im_next m) eqn:El; auto. specialize (H3 (im_next m)).
      rewrite El in H3. feed pose proof H3; [eauto|lia]. }
    split; [assumption|]. split; [reflexivity|].
    split; [constructor|]. simpl. split; [intros i H; now apply elem_of_nil in H|].
    split; intros i.
    + destruct (decide (i = im_next m)) as [->|]; [lia|].
      rewrite lookup_insert_ne by done. intros H. specialize (H3 i H). lia.
    + intros Hi. left. destruct (decide (i = im_next m)) as [->|]; [rewrite lookup_insert; eauto|].
      rewrite lookup_insert_ne by done. destruct (H4 i) as [|H]; [lia|assumption|now apply elem_of_nil in H].
  - destruct (H2 i) as [Hi1 Hi2]; [left|].
    split; [assumption|]. split; [reflexivity|].
    apply NoDup_cons in H1 as [Hn1 Hn2].
    split; [assumption|]. simpl. split; [|split].
    + intros j Hj. destruct (H2 j) as [Hj1 Hj2]; [now right|].
      split; [|assumption]. rewrite lookup_insert_ne; [assumption|]. intros ->. contradiction.
    + intros j. destruct (decide (j = i)) as [->|]; [lia|]. rewrite lookup_insert_ne by done. apply H3.
    + intros j Hj. destruct (decide (j = i)) as [->|]; [left; rewrite lookup_insert; eauto|].
      rewrite lookup_insert_ne by done. destruct (H4 j Hj) as [|H]; [now left|].
      apply elem_of_cons in H as [|]; [contradiction|now right].
Qed.

Lemma im_remove_spec m i m' : im_inv m -> im_remove m i = Some m' ->
  is_Some (im_items m !! i) /\ im_items m' = delete i (im_items m) /\ im_inv m'.
Proof.
  intros (H1 & H2 & H3 & H4). unfold im_remove.
  destruct (im_items m !! i) eqn:El; intros E; inversion E; subst; clear E; simpl.
  split; [eauto|]. split; [reflexivity|].
  split; [|split; [|split]]; simpl.
  - constructor; [|assumption]. intros Hin. destruct (H2 i Hin). congruence.
  - intros j Hj. apply elem_of_cons in Hj as [->|Hj].
    + rewrite lookup_delete. split; [reflexivity|]. apply H3. rewrite El; eauto.
    + destruct (H2 j Hj). rewrite lookup_delete_None. auto.
  - intros j. rewrite lookup_delete_is_Some. intros [_ ?]; auto.
  - intros j Hj. destruct (decide (j = i)) as [->|]; [right; left|].
    rewrite lookup_delete_ne by done. destruct (H4 j Hj); [now left|right; now right].
Qed.

Lemma im_remove_None m i : im_remove m i = None <-> im_items m !! i = None.
Proof. unfold im_remove. destruct (im_items m !! i); split; congruence. Qed.

Lemma im_step_inv m o e m' : im_inv m -> im_step m o = (e, m') ->
  im_inv m' /\ im_items m' = live_step (im_items m) e /\ legal (im_items m) [e].
Proof.
  intros HI. unfold im_step. destruct o as [x|i].
  - destruct (im_append m x) as [i m1] eqn:E. intros E'; inversion E'; subst.
    destruct (im_append_spec _ _ _ _ HI E) as (? & ? & ?). simpl. auto.
  - destruct (im_remove m i) as [m1|] eqn:E; intros E'; inversion E'; subst.
    + destruct (im_remove_spec _ _ _ HI E) as (? & ? & ?). simpl. auto.
    + apply im_remove_None in E. simpl. auto.
Qed.

Lemma im_run_spec : forall ops m es m', im_inv m -> im_run m ops = (es, m') ->
  im_inv m' /\ im_items m' = fold_left live_step es (im_items m) /\ legal (im_items m) es.
Proof.
  induction ops as [|o ops IH]; intros m es m' HI E; simpl in E.
  - inversion E; subst; simpl; auto.
  - destruct (im_step m o) as [e m1] eqn:E1. destruct (im_run m1 ops) as [es1 m2] eqn:E2.
    inversion E; subst; clear E.
    destruct (im_step_inv _ _ _ _ HI E1) as (HI1 & Ei & [HL _]).
    destruct (IH _ _ _ HI1 E2) as (HI2 & Ei2 & HL2).
    rewrite Ei in *. split; [assumption|]. split; [assumption|]. split; assumption.
Qed.

(** Number of ids ever used is the peak number of live objects. *)
Lemma im_size m : im_inv m -> im_next m = size (im_items m) + length (im_free m).
Proof.
  intros (H1 & H2 & H3 & H4).
  rewrite <- size_dom.
  assert (E : dom (im_items m) ∪ list_to_set (im_free m) = (set_seq 0 (im_next m) : gset nat)).
  { apply set_eq. intros i. rewrite elem_of_union, elem_of_dom, elem_of_list_to_set, elem_of_set_seq.
    split; [intros [H|H]|intros [_ H]].
    - split; [lia|]. apply H3, H.
    - split; [lia|]. apply (H2 i H).
    - apply H4, H. }
  assert (S : size (set_seq 0 (im_next m) : gset nat) = im_next m) by apply size_set_seq.
  rewrite <- S, <- E, size_union.
  - f_equal. rewrite size_list_to_set; auto.
  - intros i. rewrite elem_of_dom, elem_of_list_to_set. intros [x Hx] Hf.
    destruct (H2 i Hf). congruence.
Qed.

Lemma im_run_bound : forall ops m es m' k, im_inv m -> im_next m <= k -> im_run m ops = (es, m') ->
  im_next m' <= Nat.max k (peak (im_items m) es) /\
  Forall (fun e => match e with EvAdd i _ => i < Nat.max k (peak (im_items m) es) | _ => True end) es.
Proof.
  induction ops as [|o ops IH]; intros m es m' k HI Hk E; simpl in E.
  - inversion E; subst. split; [simpl; lia|constructor].
  - destruct (im_step m o) as [e m1] eqn:E1. destruct (im_run m1 ops) as [es1 m2] eqn:E2.
    inversion E; subst; clear E.
    destruct (im_step_inv _ _ _ _ HI E1) as (HI1 & Ei & [HL _]).
    pose proof (im_size _ HI) as Sz. pose proof (im_size _ HI1) as Sz1.
    assert (Hn : im_next m1 <= Nat.max k (size (im_items m1)) /\ size (im_items m1) <= peak (im_items m1) es1).
    { split.
      - unfold im_step in E1. destruct o as [x|i].
        + unfold im_append, get_new_id in E1. destruct (im_free m) eqn:Ef; inversion E1; subst; simpl in *; lia.
        + unfold im_remove in E1. destruct (im_items m !! i); inversion E1; subst; simpl in *; lia.
      - destruct es1; simpl; lia. }
    destruct Hn as [Hn Hp].
    assert (Hk1 : im_next m1 <= Nat.max k (peak (im_items m1) es1)) by lia.
    destruct (IH m1 es1 m' _ HI1 Hk1 E2) as [B1 B2].
    simpl. rewrite <- Ei in *. split; [lia|]. constructor.
    + destruct e as [i x| |]; auto.
      assert (i < im_next m1).
      { destruct HI1 as (_ & _ & H3 & _). apply H3. rewrite Ei. simpl. rewrite lookup_insert. eauto. }
      lia.
    + eapply Forall_impl; [exact B2|]. intros e'. destruct e'; auto. simpl. lia.
Qed.

(** The stream of ids which the next appends will get. *)
Definition stream m (k : nat) : nat :=
  match im_free m !! k with Some i => i | None => im_next m + (k - length (im_free m)) end.

Definition equiv_map m m' : Prop := im_items m = im_items m' /\ forall k, stream m k = stream m' k.

Lemma append_stream m x i m' : im_append m x = (i, m') ->
  i = stream m 0 /\ (forall k, stream m' k = stream m (S k)) /\ im_items m' = <[i := x]> (im_items m).
Proof.
  unfold im_append, get_new_id, stream.
  destruct (im_free m) as [|j fs] eqn:Ef; intros E; inversion E; subst; simpl.
  - rewrite Nat.add_0_r. repeat split. intros k. lia.
  - repeat split.
Qed.

Lemma remove_stream m i m' : im_remove m i = Some m' ->
  stream m' 0 = i /\ (forall k, stream m' (S k) = stream m k) /\ im_items m' = delete i (im_items m).
Proof.
  unfold im_remove, stream. destruct (im_items m !! i); intros E; inversion E; subst; simpl.
  repeat split.
Qed.

Lemma equiv_step m m' o e m1 : equiv_map m m' -> im_step m o = (e, m1) ->
  exists m1', im_step m' o = (e, m1') /\ equiv_map m1 m1'.
Proof.
  intros [Hi Hs] E. unfold im_step in *. destruct o as [x|i].
  - destruct (im_append m x) as [i m2] eqn:E1. inversion E; subst.
    destruct (im_append m' x) as [i' m2'] eqn:E2.
    destruct (append_stream _ _ _ _ E1) as (A1 & A2 & A3).
    destruct (append_stream _ _ _ _ E2) as (B1 & B2 & B3).
    assert (Hii : i' = i) by congruence. rewrite Hii in *. eexists. split; [reflexivity|].
    split; [congruence|]. intros k. now rewrite A2, B2.
  - destruct (im_remove m i) as [m2|] eqn:E1; inversion E; subst.
    + destruct (im_remove m' i) as [m2'|] eqn:E2.
      * destruct (remove_stream _ _ _ E1) as (A1 & A2 & A3).
        destruct (remove_stream _ _ _ E2) as (B1 & B2 & B3).
        eexists. split; [reflexivity|]. split; [congruence|].
        intros [|k]; [congruence|]. now rewrite A2, B2.
      * exfalso. apply im_remove_None in E2. rewrite <- Hi in E2. apply im_remove_None in E2. congruence.
    + apply im_remove_None in E1. rewrite Hi in E1. apply im_remove_None in E1. rewrite E1.
      eexists. split; [reflexivity|]. split; assumption.
Qed.

Lemma equiv_run : forall ops m m', equiv_map m m' -> fst (im_run m ops) = fst (im_run m' ops).
Proof.
  induction ops as [|o ops IH]; intros m m' H; simpl; [reflexivity|].
  destruct (im_step m o) as [e m1] eqn:E1.
  destruct (equiv_step _ _ _ _ _ H E1) as (m1' & E2 & H'). rewrite E2.
  specialize (IH _ _ H'). destruct (im_run m1 ops), (im_run m1' ops). simpl in *. congruence.
Qed.

Lemma equiv_refl m : equiv_map m m.
Proof. split; auto. Qed.

(** append followed by remove of the result *)
Lemma append_remove m x i m1 : im_inv m -> im_append m x = (i, m1) ->
  exists m2, im_remove m1 i = Some m2 /\ equiv_map m2 m /\ im_inv m1.
Proof.
  intros HI E. destruct (im_append_spec _ _ _ _ HI E) as (HA & B & HC).
  destruct (append_stream _ _ _ _ E) as (S1 & S2 & _).
  assert (R : im_remove m1 i <> None).
  { rewrite im_remove_None, B, lookup_insert. discriminate. }
  destruct (im_remove m1 i) as [m2|] eqn:Er; [|contradiction].
  destruct (remove_stream _ _ _ Er) as (R1 & R2 & R3).
  exists m2. split; [reflexivity|]. split; [|assumption]. split.
  - rewrite R3, B, delete_insert; auto.
  - intros [|k]; [congruence|]. now rewrite R2, S2.
Qed.

(** Append a list of objects; remove a list of ids. *)
Fixpoint appends m (xs : list A) : list nat * idmap A :=
  match xs with
  | [] => ([], m)
  | x :: xs' => let (i, m1) := im_append m x in
                let (is, m2) := appends m1 xs' in (i :: is, m2)
  end.
Fixpoint removes m (is : list nat) : option (idmap A) :=
  match is with
  | [] => Some m
  | i :: is' => match im_remove m i with Some m1 => removes m1 is' | None => None end
  end.

Lemma removes_app : forall l1 l2 m, removes m (l1 ++ l2) =
  match removes m l1 with Some m1 => removes m1 l2 | None => None end.
Proof. induction l1; intros; simpl; [reflexivity|]. destruct (im_remove m a); auto. Qed.

Lemma equiv_remove m m' i m1 : equiv_map m m' -> im_remove m i = Some m1 ->
  exists m1', im_remove m' i = Some m1' /\ equiv_map m1 m1'.
Proof.
  intros H E. assert (E1 : im_step m (IRemove i) = (EvDel i, m1)) by (simpl; now rewrite E).
  destruct (equiv_step _ _ _ _ _ H E1) as (m1' & E2 & H'). simpl in E2.
  destruct (im_remove m' i); inversion E2; subst. eauto.
Qed.

Lemma equiv_sym m m' : equiv_map m m' -> equiv_map m' m.
Proof. intros [? ?]; split; auto. Qed.
Lemma equiv_trans m m' m'' : equiv_map m m' -> equiv_map m' m'' -> equiv_map m m''.
Proof. intros [? ?] [? ?]; split; [congruence|]. intros; congruence. Qed.

Lemma appends_removes : forall xs m is m1, im_inv m -> appends m xs = (is, m1) ->
  exists m2, removes m1 (rev is) = Some m2 /\ equiv_map m2 m.
Proof.
  induction xs as [|x xs IH]; intros m is m1 HI E; simpl in E.
  - inversion E; subst. exists m1. split; [reflexivity|apply equiv_refl].
  - destruct (im_append m x) as [i ma] eqn:Ea. destruct (appends ma xs) as [is' mb] eqn:Eb.
    inversion E; subst; clear E.
    destruct (append_remove _ _ _ _ HI Ea) as (mr & Er & Hr & HIa).
    destruct (IH _ _ _ HIa Eb) as (m2 & E2 & H2).
    simpl. rewrite removes_app, E2. simpl.
    destruct (equiv_remove _ _ _ _ (equiv_sym _ _ H2) Er) as (m3 & E3 & H3).
    rewrite E3. exists m3. split; [reflexivity|]. eapply equiv_trans; [apply equiv_sym, H3|assumption].
Qed.

Lemma undo_allocation_l : forall (ops : list (im_op A)) xs is m1,
  let m := snd (im_run im_empty ops) in
  appends m xs = (is, m1) ->
  exists m2, removes m1 (rev is) = Some m2 /\ im_items m2 = im_items m /\
    forall further, fst (im_run m2 further) = fst (im_run m further).
Proof.
  intros ops xs is m1 m E.
  assert (HI : im_inv m).
  { unfold m. destruct (im_run im_empty ops) as [es m'] eqn:Er.
    destruct (im_run_spec _ _ _ _ im_inv_empty Er) as (? & _). assumption. }
  destruct (appends_removes _ _ _ _ HI E) as (m2 & E2 & H2).
  exists m2. split; [assumption|]. split; [apply H2|]. intros. now apply equiv_run.
Qed.

Lemma history_legal_l : forall (ops : list (im_op A)),
  let (es, m) := im_run im_empty ops in
  legal ∅ es /\ im_items m = fold_left live_step es ∅.
Proof.
  intros ops. destruct (im_run im_empty ops) as [es m] eqn:Er.
  destruct (im_run_spec _ _ _ _ im_inv_empty Er) as (? & ? & ?). simpl in *. split; assumption.
Qed.

Lemma ids_bounded_l : forall (ops : list (im_op A)),
  let (es, m) := im_run im_empty ops in
  Forall (fun e => match e with EvAdd i _ => i < peak ∅ es | _ => True end) es.
Proof.
  intros ops. destruct (im_run im_empty ops) as [es m] eqn:Er.
  destruct (im_run_bound _ _ _ _ 0 im_inv_empty (le_n 0) Er) as (_ & H). simpl in *. exact H.
Qed.

End Proofs.
