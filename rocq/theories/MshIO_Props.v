(** Properties C43 and C44 of GmshIO. *)
From Coq Require Import List Arith Bool ZArith String Ascii Lia Permutation.
From Verif Require Import MshIO_Model MshIO_Spec MshIO_Proofs MshIO_Read MshIO_Data.
Import ListNotations.
Local Open Scope string_scope.
Local Open Scope nat_scope.
Local Open Scope list_scope.
Local Notation length := List.length.

(** Sample: numbers that are integers; the version number is read as 2. *)
Definition zparse (s : string) : option Z := if String.eqb s "2.2" then Some 2%Z else parse_int s.
Lemma ztext : float_text show_int zparse.
Proof.
  split; [|apply show_word|discriminate]. intros x. unfold zparse. destruct (String.eqb_spec (show_int x) "2.2") as [E|].
  - exfalso. pose proof (show_chars x "."%char) as H. rewrite E in H. cbn in H. discriminate H. auto.
  - apply parse_show.
Qed.
Definition m1 : mesh Z := Mesh [(4, [0; -10; 5]); (2, [7; 8; 9])]%Z
  [(9, (4, [3; 1], [2; 4; 5; 6])); (1, (15, [3; 3], [4]))]%Z
  [("rock", (3, 2)); (".side", (1, 1))]%string%Z [].
Ltac nodup := repeat (apply NoDup_cons; [cbn; intuition discriminate|]); apply NoDup_nil.
Lemma m1_mesh : is_mesh m1.
Proof. split; nodup. Qed.
Lemma m1_names : forall n, In n (keys (physical m1)) -> word n.
Proof. intros n [<-|[<-|[]]]; (split; [discriminate|]); intros c H; cbn in H; intuition (subst; reflexivity). Qed.

(** C43: what is read back from a written mesh, up to the order of the keys. Elements with
    too few columns and nodes that do not have three coordinates are lost. *)
Theorem C43_read_written : forall F (show : F -> string) parse m, float_text show parse -> is_mesh m ->
  (forall n, In n (keys (physical m)) -> word n) ->
  exists m', read F parse (reset F) (write_ascii F show m) = Some m' /\
    (forall k, get Z.eqb k (nodes m') = only kept_node (get Z.eqb k (nodes m))) /\
    (forall k, get Z.eqb k (elements m') = only kept_elem (get Z.eqb k (elements m))) /\
    same String.eqb (physical m') (physical m) /\ element_data m' = [].
Proof.
  intros F show parse m FT M W. exists (filled m).
  split; [apply (read_ascii show parse FT); intros n H; apply word_one; auto|].
  split; [apply filled_nodes; auto|]. split; [apply filled_elements; auto|].
  split; [intros k; apply filled_physical; auto|]. unfold filled.
  rewrite (proj1 (proj2 (proj2 (elems_other _ _)))), (proj1 (proj2 (proj2 (nodes_other _ _)))), (proj2 (proj2 (names_other _ _))).
  reflexivity.
Qed.
Print Assumptions C43_read_written.
(** The round trip for meshes of elements with at least three tags and nodes. *)
Theorem C43_round_trip : forall F (show : F -> string) parse m, float_text show parse -> is_mesh m ->
  (forall n, In n (keys (physical m)) -> word n) ->
  (forall k c, In (k, c) (nodes m) -> length c = 3) ->
  (forall k t tags ns, In (k, (t, tags, ns)) (elements m) -> 3 <= length tags + length ns) ->
  exists m', read F parse (reset F) (write_ascii F show m) = Some m' /\
    same Z.eqb (nodes m') (nodes m) /\ same Z.eqb (elements m') (elements m) /\ same String.eqb (physical m') (physical m).
Proof.
  intros F show parse m FT M W N E. destruct (C43_read_written F show parse m FT M W) as (m' & A & B & C & D & _).
  exists m'. split; auto. split; [|split]; auto; intros k.
  - rewrite B. destruct (get Z.eqb k (nodes m)) as [c|] eqn:G; auto. apply (get_in _ Z.eqb_spec) in G.
    cbn [only]. unfold kept_node. rewrite (N _ _ G). auto.
  - rewrite C. destruct (get Z.eqb k (elements m)) as [[[t tags] ns]|] eqn:G; auto. apply (get_in _ Z.eqb_spec) in G.
    apply E in G. cbn [only kept_elem]. destruct (Nat.ltb_spec 2 (length tags + length ns)); auto. lia.
Qed.
Print Assumptions C43_round_trip.
(** Names of any text on one line: reading succeeds; only names that are one word (up to the
    white space around them) are found again. *)
Theorem C43_names : forall F (show : F -> string) parse m, float_text show parse -> is_mesh m ->
  (forall n, In n (keys (physical m)) -> one_line n) ->
  exists m', read F parse (reset F) (write_ascii F show m) = Some m' /\
    (forall k, get Z.eqb k (nodes m') = only kept_node (get Z.eqb k (nodes m))) /\
    (forall k, get Z.eqb k (elements m') = only kept_elem (get Z.eqb k (elements m))) /\
    (forall n v, get String.eqb n (physical m') = Some v ->
       word n /\ exists n0, In (n0, v) (physical m) /\ split n0 = [n]).
Proof.
  intros F show parse m FT M W. exists (filled m). split; [apply (read_ascii show parse FT); auto|].
  split; [apply filled_nodes; auto|]. split; [apply filled_elements; auto|].
  intros n v G. rewrite filled_physical_dict in G. split.
  - apply (put_name_keys (sorted by_name (physical m)) []); [intros ? []|].
    apply (get_in _ string_spec) in G. apply in_map_iff. exists (n, v). auto.
  - apply put_name_origin in G. destruct G as [G|(n0 & I & S)]; [discriminate|]. exists n0. split; auto.
    apply (Permutation_in _ (Permutation_sym (sorted_perm by_name _)) I).
Qed.
Print Assumptions C43_names.
(** The claim fails: a point element with one tag is written and not read, and so is a
    name with a space. *)
Theorem C43_refuted : exists m m' : mesh Z, is_mesh m /\
  read Z zparse (reset Z) (write_ascii Z show_int m) = Some m' /\
  get Z.eqb 1%Z (elements m) = Some (15, [7], [2])%Z /\ get Z.eqb 1%Z (elements m') = None /\
  get String.eqb "left side" (physical m) = Some (7, 0)%Z /\ physical m' = [].
Proof.
  exists (Mesh [(2, [0; 0; 0])]%Z [(1, (15, [7], [2]))]%Z [("left side"%string, (7, 0)%Z)] []).
  eexists. split; [split; nodup|]. split; [vm_compute; reflexivity|]. repeat split; reflexivity.
Qed.
Print Assumptions C43_refuted.
Example C43_case : exists m', read Z zparse (reset Z) (write_ascii Z show_int m1) = Some m' /\
  same Z.eqb (nodes m') (nodes m1) /\ same Z.eqb (elements m') (elements m1) /\
  same String.eqb (physical m') (physical m1) /\
  get Z.eqb 9%Z (elements m') = Some (4, [3; 1], [2; 4; 5; 6])%Z.
Proof.
  destruct (C43_round_trip Z show_int zparse m1 ztext m1_mesh m1_names) as (m' & A & B & C & D).
  - intros k c H. cbn in H. destruct H as [H|[H|[]]]; injection H as <- <-; reflexivity.
  - intros k t tags ns H. cbn in H. destruct H as [H|[H|[]]]; injection H as <- <- <- <-; cbn; lia.
  - exists m'. split; auto. split; auto. split; auto. split; auto. rewrite C. reflexivity.
Qed.
(** Hypotheses of [C43_names] with a name that is lost. *)
Example C43_names_case : exists m', read Z zparse (reset Z)
    (write_ascii Z show_int (Mesh [] [] [("left side", (7, 0)); ("top", (8, 2))]%string%Z [])) = Some m' /\
  get String.eqb "left side" (physical m') = None /\ get String.eqb "top" (physical m') = Some (8, 2)%Z.
Proof. eexists. split; [vm_compute; reflexivity|]. split; reflexivity. Qed.

(** C44: the field is read back under its name with each row at its element. The element is
    denoted by a string, not by the number that was given. *)
Theorem C44_round_trip : forall F (show : F -> string) parse t0 m ids fields text,
  float_text show parse -> parse "0"%string = Some t0 ->
  write_fields F show ids fields = Some text ->
  NoDup ids -> NoDup (keys fields) ->
  (forall n, In n (keys fields) -> one_line n /\ unquoted n /\ get String.eqb n (element_data m) = None) ->
  (forall n values, In (n, values) fields -> length values <= length ids) ->
  exists m', read F parse m text = Some m' /\
    nodes m' = nodes m /\ elements m' = elements m /\ physical m' = physical m /\
    (forall n values, In (n, values) fields -> exists d,
       get String.eqb n (element_data m') = Some [(0%Z, (t0, d))] /\ attached ids values d) /\
    (forall n, ~ In n (keys fields) -> get String.eqb n (element_data m') = get String.eqb n (element_data m)).
Proof.
  intros F show parse t0 m ids fields text FT T H NI NF HN L.
  assert (K : map (fun f => strip_quotes (fst f)) fields = keys fields).
  { apply map_ext_in. intros f I. apply unquoted_strip. apply HN. apply in_map. auto. }
  assert (Nm : forall n values, In (n, values) fields -> strip_quotes n = n).
  { intros n values I. apply unquoted_strip. apply HN. apply in_map_iff. exists (n, values). auto. }
  destruct (read_fields show parse FT ids fields text m) as (ls & fuel & E & R); auto.
  { intros f I. apply HN. apply in_map. auto. }
  assert (ND : NoDup (map (fun f : string * list (list F) => strip_quotes (fst f)) fields)) by (rewrite K; auto).
  destruct (fields_get ids t0 fields m ND) as (A & B & C1 & C2 & C3).
  exists (fold_left (put_field ids t0) fields m).
  split; [|split; [|split; [|split; [|split]]]]; auto.
  - rewrite R. apply (loop_fields show parse FT ids t0 T); auto.
    intros [n values] I. split; [exact (L _ _ I)|]. unfold has0. cbn [fst]. rewrite (Nm _ _ I).
    rewrite (proj2 (proj2 (HN n (in_map fst _ _ I)))). auto.
  - intros n values I. exists (fold_left put_row (combine ids values) []). split; [|apply rows_attached; auto].
    rewrite <- (Nm _ _ I) at 1. apply B; auto. rewrite (Nm _ _ I). apply (HN n (in_map fst _ _ I)).
  - intros n Hn. apply A. rewrite K. auto.
Qed.
Print Assumptions C44_round_trip.
(** Names in general: quotes at the ends of a name are lost; two names that differ only in
    them, or a field with more rows than ids, are written and cannot be read. *)
Theorem C44_unreadable : forall F (show : F -> string) parse t0 m ids fields text,
  float_text show parse -> parse "0"%string = Some t0 ->
  write_fields F show ids fields = Some text ->
  (forall n, In n (keys fields) -> one_line n) ->
  ((exists n values, In (n, values) fields /\ length ids < length values) \/
   ~ NoDup (map strip_quotes (keys fields))) ->
  read F parse m text = None.
Proof.
  intros F show parse t0 m ids fields text FT T H HN Bad.
  destruct (read_fields show parse FT ids fields text m) as (ls & fuel & E & R); auto.
  { intros f I. apply HN. apply in_map. auto. }
  rewrite R. apply (loop_fields_none show parse FT ids t0 T); auto.
  destruct Bad as [(n & values & I & L)|ND].
  - left. apply Exists_exists. exists (n, values). split; auto. left. unfold wide. cbn. lia.
  - right. unfold keys in ND. rewrite map_map in ND. auto.
Qed.
Print Assumptions C44_unreadable.
(** Writing succeeds exactly for arrays with rows of the same length, at least one. *)
Theorem C44_written : forall F (show : F -> string) ids fields,
  write_fields F show ids fields <> None <->
  (forall n values, In (n, values) fields -> values <> [] /\ forall r s, In r values -> In s values -> length r = length s).
Proof.
  intros F show ids fields. unfold write_fields.
  assert (Q : fields_lines F show ids fields <> None <->
    (forall n values, In (n, values) fields -> values <> [] /\ forall r s, In r values -> In s values -> length r = length s)).
  { induction fields as [|[n vs] fs IH]; cbn [fields_lines].
    - split; [intros _ ? ? []|discriminate].
    - assert (E : element_data_lines F show ids n vs <> None <-> vs <> [] /\ forall r s, In r vs -> In s vs -> length r = length s).
      { unfold element_data_lines. destruct vs as [|v0 vs]; [split; [congruence|intros [X _]; congruence]|].
        destruct (forallb _ _) eqn:Fb; split; try congruence.
        - intros _. split; [discriminate|]. rewrite forallb_forall in Fb. intros r s Hr Hs.
          apply Fb, Nat.eqb_eq in Hr. apply Fb, Nat.eqb_eq in Hs. congruence.
        - intros [_ X]. exfalso. apply not_true_iff_false in Fb. apply Fb. apply forallb_forall. intros r Hr.
          apply Nat.eqb_eq. apply X; auto. left. auto. }
      split.
      + intros X n' vs' [Y|I].
        * injection Y as <- <-. apply E. intros Z. rewrite Z in X. congruence.
        * apply IH with (n := n'); auto. intros Z. rewrite Z in X. destruct (element_data_lines F show ids n vs); congruence.
      + intros X. destruct (element_data_lines F show ids n vs) eqn:A; [destruct (fields_lines F show ids fs) eqn:B; [discriminate|]|].
        * exfalso. apply (proj2 IH); auto. intros n' vs' I. apply (X n'). right. auto.
        * exfalso. apply (proj2 E); auto. apply (X n). left. auto. }
  rewrite <- Q. destruct (fields_lines F show ids fields); cbn; split; congruence.
Qed.
Print Assumptions C44_written.
Definition f1 : list (string * list (list Z)) := [("conductivity", [[1; 2]; [30; 4]; [-5; 6]]); ("por 1", [[0]; [7]])]%string%Z.
Lemma unquoted_check s : strip_quotes s = s -> (forall c r, s = String c r -> c <> quote) -> unquoted s.
Proof.
  intros A B. split.
  - intros r E. apply (B quote r); auto.
  - intros r E. rewrite E in A at 1. unfold strip_quotes in A. rewrite lstrip_app in A by reflexivity.
    assert (Q : forall p t, String.length (rstrip p t) <= String.length t).
    { intros p t. induction t as [|c t IH]; cbn; auto. destruct (rstrip p t) eqn:X; [destruct (p c); cbn; lia|cbn in *; lia]. }
    assert (Q2 : forall p t, String.length (lstrip p t) <= String.length t).
    { intros p t. induction t as [|c t IH]; cbn; auto. destruct (p c); cbn; lia. }
    assert (Q3 : forall a b, String.length (a ++ b)%string = String.length a + String.length b).
    { intros a b. induction a; cbn; auto. }
    apply (f_equal String.length) in A. pose proof (Q (Ascii.eqb quote) (lstrip (Ascii.eqb quote) r)) as X.
    pose proof (Q2 (Ascii.eqb quote) r) as Y. rewrite E, Q3 in A. cbn in A. lia.
Qed.
Example C44_case : exists text m', write_fields Z show_int [11; 5; 8]%Z f1 = Some text /\
  read Z zparse m1 text = Some m' /\
  (exists d, get String.eqb "conductivity" (element_data m') = Some [(0, (0, d))]%Z /\
     get String.eqb "5" d = Some [30; 4]%Z) /\
  nodes m' = nodes m1.
Proof.
  destruct (write_fields Z show_int [11; 5; 8]%Z f1) as [text|] eqn:E; [|vm_compute in E; discriminate].
  exists text. destruct (C44_round_trip Z show_int zparse 0%Z m1 [11; 5; 8]%Z f1 text) as (m' & A & B & _ & _ & C & _); auto.
  - apply ztext.
  - nodup.
  - nodup.
  - intros n [<-|[<-|[]]]; (split; [apply one_check; reflexivity|]); (split; [|reflexivity]);
      (apply unquoted_check; [reflexivity|]); intros c r H; injection H as <- <-; discriminate.
  - intros n v [H|[H|[]]]; injection H as <- <-; cbn; lia.
  - exists m'. split; auto. split; auto. split; auto.
    destruct (C _ _ (or_introl eq_refl)) as (d & D1 & D2 & _). exists d. split; auto.
    apply (D2 1 5%Z [30; 4]%Z); reflexivity.
Qed.
(** Two names that differ by quotes. *)
Example C44_unreadable_case : exists text,
  write_fields Z show_int [1]%Z [("a", [[1]]); (String quote "a", [[2]])]%string%Z = Some text /\ read Z zparse (reset Z) text = None.
Proof.
  eexists. split; [reflexivity|]. apply (C44_unreadable Z show_int zparse 0%Z (reset Z) [1]%Z [("a", [[1]]); (String quote "a", [[2]])]%string%Z); auto.
  - apply ztext.
  - intros n [<-|[<-|[]]]; apply one_check; reflexivity.
  - right. intros H. inversion H as [|? ? X _]; subst. apply X. left. reflexivity.
Qed.
