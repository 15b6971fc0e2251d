(** Reading back element data (gmsh_io.py). *)
From Coq Require Import List Arith Bool ZArith String Ascii Lia Permutation.
From Verif Require Import MshIO_Model MshIO_Spec MshIO_Proofs MshIO_Read.
Import ListNotations.
Local Open Scope nat_scope.
Local Open Scope list_scope.
Local Notation length := List.length.

(** * The name between quotes *)
Definition q1 : string := String quote EmptyString.
Lemma rstrip_app p s c : p c = true -> rstrip p (s ++ String c EmptyString) = rstrip p s.
Proof.
  intros H. induction s as [|x s IH]; cbn [append rstrip]; [rewrite H; auto|]. rewrite IH. auto.
Qed.
Lemma rstrip_keep p s c : p c = false -> rstrip p (s ++ String c EmptyString) = (s ++ String c EmptyString)%string.
Proof.
  intros H. induction s as [|x s IH]; cbn [append rstrip]; [rewrite H; auto|]. rewrite IH.
  destruct s; auto.
Qed.
Lemma lstrip_app p s c : p c = true ->
  rstrip p (lstrip p (s ++ String c EmptyString)) = rstrip p (lstrip p s).
Proof.
  intros H. induction s as [|x s IH]; cbn [append lstrip]; [rewrite H; auto|].
  destruct (p x) eqn:X; auto. change (String x (s ++ String c ""))%string with ((String x s) ++ String c "")%string.
  apply rstrip_app. auto.
Qed.
Lemma name_line_strip n : strip (String quote (n ++ q1)) = String quote (n ++ q1).
Proof.
  unfold strip. cbn [lstrip]. change (white quote) with false. cbv iota.
  change (String quote (n ++ q1)) with ((String quote n) ++ q1)%string. apply rstrip_keep. reflexivity.
Qed.
Lemma name_strip n : strip_quotes (strip (String quote (n ++ q1))) = strip_quotes n.
Proof.
  rewrite name_line_strip. unfold strip_quotes. cbn [lstrip]. rewrite Ascii.eqb_refl. apply lstrip_app. reflexivity.
Qed.
Lemma rstrip_unquoted p s : (forall r c, p c = true -> s <> (r ++ String c EmptyString)%string) -> rstrip p s = s.
Proof.
  induction s as [|x s IH]; intros H; auto. cbn [rstrip]. rewrite IH.
  - destruct s; auto. destruct (p x) eqn:P; auto. exfalso. apply (H EmptyString x P). reflexivity.
  - intros r c P E. apply (H (String x r) c P). rewrite E. reflexivity.
Qed.
Lemma unquoted_strip n : unquoted n -> strip_quotes n = n.
Proof.
  intros [A B]. unfold strip_quotes. assert (L : lstrip (Ascii.eqb quote) n = n).
  { destruct n as [|c n]; auto. cbn [lstrip]. destruct (Ascii.eqb_spec quote c) as [<-|]; auto. exfalso. apply (A n). auto. }
  rewrite L. apply rstrip_unquoted. intros r c P. apply Ascii.eqb_eq in P. subst. apply B.
Qed.

Section R.
Context {F : Type} (show : F -> string) (parse : string -> option F).
Hypothesis FT : float_text show parse.
Notation loop := (read_loop F parse).
Notation rowsof := (list (string * list F)).

(** * Rows *)
Definition put_row (d : rowsof) (p : Z * list F) : rowsof := put String.eqb (show_int (fst p)) (snd p) d.
Lemma row_dollar p : dollar (row_line F show p) = false.
Proof.
  unfold row_line. destruct (show_starts (fst p) (" " ++ join (map show (snd p)))) as (c & C & [r E]).
  rewrite E. cbn [dollar]. apply (int_white c C).
Qed.
Lemma row_split p : split (row_line F show p) = show_int (fst p) :: map show (snd p).
Proof.
  unfold row_line. change (" " ++ join (map show (snd p)))%string with (String " " (join (map show (snd p)))).
  rewrite split_word_space by (auto using show_word). rewrite split_join by (apply (words_floats show parse FT)). auto.
Qed.
Lemma rows_read nc rs : Forall (fun p : Z * list F => length (snd p) = nc) rs -> forall k d ls,
  read_rows F parse (length rs + k) (Z.of_nat nc) d (map (row_line F show) rs ++ ls) =
  read_rows F parse k (Z.of_nat nc) (fold_left put_row rs d) ls.
Proof.
  induction 1 as [|p rs H _ IH]; intros k d ls; auto.
  cbn [List.length plus map app read_rows readline fold_left]. rewrite row_dollar, row_split.
  rewrite (parse_floats show parse FT). rewrite H, Z.eqb_refl. apply IH.
Qed.
Lemma rows_short k nc d ls : read_rows F parse (S k) nc d ("$EndElementData"%string :: ls) = None.
Proof. reflexivity. Qed.
Lemma head_read n (v0 : list F) (vs : list (list F)) t0 ls : parse "0" = Some t0 ->
  read_head F parse (["1"]%string ++ [String quote (n ++ q1)]%string ++ ["1"; "0"; "3"; "0"]%string ++
               [count_line v0; count_line vs] ++ ls) =
  Some ((strip_quotes n, t0, 0%Z, Z.of_nat (length v0), Z.of_nat (length vs)), ls).
Proof.
  intros T. cbn [app]. unfold read_head. cbn [readline]. rewrite name_strip.
  assert (C : forall A (l : list A), first_int (count_line l) = Some (Z.of_nat (length l))).
  { intros A l. unfold first_int, first, count_line. rewrite split_word by apply show_word. cbn [hd_error]. apply parse_show. }
  rewrite !C. unfold first_float, first. change (split "0") with ["0"]%string. cbn [hd_error]. rewrite T. reflexivity.
Qed.

(** * A block *)
Definition put_field (ids : list Z) (t0 : F) (m : mesh F) (f : string * list (list F)) : mesh F :=
  let n := strip_quotes (fst f) in
  let ts := match get String.eqb n (element_data m) with Some ts => ts | None => [] end in
  Mesh (nodes m) (elements m) (physical m)
    (put String.eqb n (put Z.eqb 0%Z (t0, fold_left put_row (combine ids (snd f)) []) ts) (element_data m)).
Definition has0 (n : string) (m : mesh F) : bool :=
  match get String.eqb n (element_data m) with
  | Some ts => match get Z.eqb 0%Z ts with Some _ => true | None => false end
  | None => false
  end.
Lemma combine_rows (ids : list Z) : forall vs nc, forallb (fun r : list F => length r =? nc) vs = true ->
  Forall (fun p : Z * list F => length (snd p) = nc) (combine ids vs).
Proof.
  induction ids as [|i ids IH]; intros [|v vs] nc H; constructor; cbn in H; apply andb_prop in H; destruct H as [A B].
  - apply Nat.eqb_eq. auto.
  - apply IH. auto.
Qed.
Lemma block_read ids n vs bl m t0 ls : element_data_lines F show ids n vs = Some bl -> parse "0" = Some t0 ->
  exists b, bl = "$ElementData"%string :: b /\
  read_block F parse m (b ++ ls) =
    if has0 (strip_quotes n) m then None
    else if length vs <=? length ids
    then Some (put_field ids t0 m (n, vs), "$EndElementData"%string :: ls) else None.
Proof.
  intros H T. unfold element_data_lines in H. destruct vs as [|v0 vs0] eqn:V; [discriminate|]. rewrite <- V in *.
  destruct (forallb (fun r => length r =? length v0) vs) eqn:L; [|discriminate]. injection H as <-.
  cbn [app]. eexists. split; [reflexivity|]. unfold read_block.
  pose proof (head_read n v0 vs t0 (map (row_line F show) (combine ids vs) ++ ["$EndElementData"]%string ++ ls) T) as Hd.
  cbn [app] in Hd |- *. rewrite <- app_assoc. cbn [app]. unfold q1 in Hd. rewrite Hd. clear Hd.
  unfold has0, put_field. cbn [fst snd]. set (ts := match get String.eqb (strip_quotes n) (element_data m) with Some ts => ts | None => [] end).
  assert (E : get Z.eqb 0%Z ts = match get String.eqb (strip_quotes n) (element_data m) with Some ts => get Z.eqb 0%Z ts | None => None end).
  { unfold ts. destruct (get String.eqb (strip_quotes n) (element_data m)); auto. }
  rewrite E. destruct (get String.eqb (strip_quotes n) (element_data m)) as [ts'|] eqn:G; [destruct (get Z.eqb 0%Z ts'); auto|].
  all: rewrite Nat2Z.id; pose proof (combine_length ids vs) as CL;
    pose proof (rows_read _ _ (combine_rows ids vs _ L)) as R;
    destruct (Nat.leb_spec (length vs) (length ids)) as [Le|Gt];
    [ replace (length vs) with (length (combine ids vs) + 0) by lia; rewrite R; reflexivity
    | replace (length vs) with (length (combine ids vs) + S (length vs - length ids - 1)) by lia;
      rewrite R; rewrite rows_short; reflexivity ].
Qed.
Lemma sec_end fuel md ft m ls : loop (S fuel) md ft m ("$EndElementData"%string :: ls) = loop fuel M0 ft m ls.
Proof. reflexivity. Qed.
Lemma loop_block ids n vs bl m t0 ls fuel ft : element_data_lines F show ids n vs = Some bl -> parse "0" = Some t0 ->
  loop (S (S fuel)) M0 ft m (bl ++ ls) =
    if has0 (strip_quotes n) m then None
    else if length vs <=? length ids then loop fuel M0 ft (put_field ids t0 m (n, vs)) ls else None.
Proof.
  intros H T. destruct (block_read ids n vs bl m t0 ls H T) as (b & -> & B).
  cbn [app]. cbn [read_loop readline]. change (dollar (strip "$ElementData")) with true. cbv iota.
  change (strip "$ElementData") with "$ElementData"%string.
  assert (S1 : section_line F parse "$ElementData" M0 m (b ++ ls) =
     match read_block F parse m (b ++ ls) with Some (m, ls) => Some (M0, m, ls) | None => None end) by reflexivity.
  rewrite S1, B. destruct (has0 (strip_quotes n) m); auto. destruct (length vs <=? length ids); auto.
Qed.

(** * All fields: success *)
Definition wide (ids : list Z) (f : string * list (list F)) : Prop := length (snd f) <= length ids.
Lemma put_field_other ids t0 m f k : k <> strip_quotes (fst f) ->
  get String.eqb k (element_data (put_field ids t0 m f)) = get String.eqb k (element_data m).
Proof. intros N. unfold put_field. cbn. rewrite (get_put _ string_spec). destruct (string_spec k (strip_quotes (fst f))); congruence. Qed.
Lemma loop_fields ids t0 : parse "0" = Some t0 -> forall fs ls, fields_lines F show ids fs = Some ls ->
  forall m fuel ft, NoDup (map (fun f => strip_quotes (fst f)) fs) ->
  (forall f, In f fs -> wide ids f /\ has0 (strip_quotes (fst f)) m = false) ->
  loop (2 * length fs + S fuel) M0 ft m ls = Some (fold_left (put_field ids t0) fs m).
Proof.
  intros T. induction fs as [|[n vs] fs IH]; intros ls H m fuel ft ND Hf; cbn [fields_lines] in H.
  - injection H as <-. reflexivity.
  - destruct (element_data_lines F show ids n vs) as [a|] eqn:A; [|discriminate].
    destruct (fields_lines F show ids fs) as [b|] eqn:B; [|discriminate]. injection H as <-.
    replace (2 * length ((n, vs) :: fs) + S fuel) with (S (S (2 * length fs + S fuel))) by (cbn [List.length]; lia).
    rewrite (loop_block ids n vs a m t0 b _ ft A T).
    destruct (Hf (n, vs) (or_introl eq_refl)) as [W N]. cbn [fst] in N. rewrite N.
    unfold wide in W. cbn [snd] in W. apply Nat.leb_le in W. rewrite W.
    inversion ND as [|? ? N1 N2]; subst. cbn [fold_left]. apply IH; auto.
    intros f I. destruct (Hf f (or_intror I)) as [W2 N']. split; auto.
    unfold has0. rewrite put_field_other; auto. intros E. apply N1. cbn [fst] in E |- *. rewrite <- E.
    apply in_map_iff. exists f. auto.
Qed.
(** Failure: a field with more rows than ids, or a name for the second time. *)
Lemma loop_fields_none ids t0 : parse "0" = Some t0 -> forall fs ls, fields_lines F show ids fs = Some ls ->
  forall m fuel ft, (Exists (fun f => ~ wide ids f \/ has0 (strip_quotes (fst f)) m = true) fs \/
                     ~ NoDup (map (fun f => strip_quotes (fst f)) fs)) ->
  loop (2 * length fs + S fuel) M0 ft m ls = None.
Proof.
  intros T. induction fs as [|[n vs] fs IH]; intros ls H m fuel ft Bad; cbn [fields_lines] in H.
  - exfalso. destruct Bad as [Bad|Bad]; [inversion Bad|]. apply Bad. constructor.
  - destruct (element_data_lines F show ids n vs) as [a|] eqn:A; [|discriminate].
    destruct (fields_lines F show ids fs) as [b|] eqn:B; [|discriminate]. injection H as <-.
    replace (2 * length ((n, vs) :: fs) + S fuel) with (S (S (2 * length fs + S fuel))) by (cbn [List.length]; lia).
    rewrite (loop_block ids n vs a m t0 b _ ft A T).
    destruct (has0 (strip_quotes n) m) eqn:N; auto. destruct (Nat.leb_spec (length vs) (length ids)) as [W|W]; auto.
    apply IH; auto. set (m' := put_field ids t0 m (n, vs)).
    assert (Keep : forall k, has0 k m = true -> has0 k m' = true).
    { intros k Hk. unfold has0 in *. unfold m', put_field. cbn [fst snd element_data]. rewrite (get_put _ string_spec).
      destruct (string_spec k (strip_quotes n)) as [->|]; auto.
      rewrite (get_put _ Z.eqb_spec). auto. }
    assert (New : has0 (strip_quotes n) m' = true).
    { unfold has0, m', put_field. cbn [fst snd element_data]. rewrite (get_put _ string_spec).
      destruct (string_spec (strip_quotes n) (strip_quotes n)); [|congruence]. rewrite (get_put _ Z.eqb_spec). auto. }
    destruct Bad as [Bad|Bad].
    + left. inversion Bad as [? ? [Q|Q] E|? ? Q E]; subst.
      * unfold wide in Q. cbn in Q. lia.
      * cbn [fst] in Q. congruence.
      * eapply Exists_impl; [|exact Q]. intros f [X|X]; auto.
    + destruct (in_dec string_dec (strip_quotes n) (map (fun f => strip_quotes (fst f)) fs)) as [I|I].
      * left. apply in_map_iff in I. destruct I as (f & E & I). apply Exists_exists. exists f. split; auto. rewrite E. auto.
      * right. intros ND. apply Bad. constructor; auto.
Qed.

(** * The whole file *)
Lemma block_one ids n vs bl : one_line n -> element_data_lines F show ids n vs = Some bl -> Forall one_line bl.
Proof.
  intros N H. unfold element_data_lines in H. destruct vs as [|v0 vs0] eqn:V; [discriminate|]. rewrite <- V in *.
  destruct (forallb _ vs); [|discriminate]. injection H as <-.
  assert (C : forall A (l : list A), one_line (count_line l)) by (intros; apply word_one, show_word).
  repeat (apply Forall_cons || apply Forall_nil || (apply Forall_app; split)); auto; try (apply one_check; reflexivity).
  - apply one_cons; [split; discriminate|]. apply one_app; auto. apply one_check. reflexivity.
  - apply forall_map. intros p _. apply one_app; [apply word_one, show_word|].
    apply one_space. apply one_join. apply (words_floats show parse FT).
Qed.
Lemma fields_one ids fs : forall ls, (forall f, In f fs -> one_line (fst f)) -> fields_lines F show ids fs = Some ls ->
  Forall one_line ls /\ 2 * length fs <= length ls.
Proof.
  induction fs as [|[n vs] fs IH]; intros ls N H; cbn [fields_lines] in H.
  - injection H as <-. auto.
  - destruct (element_data_lines F show ids n vs) as [a|] eqn:A; [|discriminate].
    destruct (fields_lines F show ids fs) as [b|] eqn:B; [|discriminate]. injection H as <-.
    destruct (IH b) as [P Q]; auto. { intros f I. apply N. cbn; auto. }
    split.
    + apply Forall_app. split; auto. eapply block_one; eauto. apply (N (n, vs)). cbn; auto.
    + rewrite app_length. cbn [List.length]. unfold element_data_lines in A. destruct vs; [discriminate|].
      destruct (forallb _ _); [|discriminate]. injection A as <-. cbn [app List.length]. rewrite !app_length. cbn [List.length]. lia.
Qed.
Lemma read_fields ids fs text m : (forall f, In f fs -> one_line (fst f)) -> write_fields F show ids fs = Some text ->
  exists ls fuel, fields_lines F show ids fs = Some ls /\
  read F parse m text = loop (2 * length fs + S fuel) M0 (Some 0%Z) m ls.
Proof.
  intros N H. unfold write_fields in H. destruct (fields_lines F show ids fs) as [ls|] eqn:E; [|discriminate].
  assert (HT : text = out_all (["$MeshFormat"; "2.2 0 8"; "$EndMeshFormat"]%string ++ ls)) by (cbn [option_map] in H; congruence).
  subst text. clear H. destruct (fields_one ids fs ls N E) as [O L].
  exists ls, (length ls - 2 * length fs). split; auto. unfold read.
  assert (O2 : Forall one_line (["$MeshFormat"; "2.2 0 8"; "$EndMeshFormat"]%string ++ ls)).
  { apply Forall_app. split; auto. repeat (apply Forall_cons || apply Forall_nil); apply one_check; reflexivity. }
  rewrite newlines_all by auto. rewrite lines_all by auto. cbn [app List.length].
  replace (2 * length fs + S (length ls - 2 * length fs)) with (S (length ls)) by lia.
  assert (V : exists v, parse "2.2"%string = Some v) by (destruct (parse "2.2"%string) eqn:V; [eauto|exfalso; apply (ft_version _ _ FT); auto]).
  destruct V as [v V].
  change (loop (S (S (S (S (length ls))))) M0 None m ("$MeshFormat" :: "2.2 0 8" :: "$EndMeshFormat" :: ls)%string)
    with (loop (S (S (S (length ls)))) MFormat None m ("2.2 0 8" :: "$EndMeshFormat" :: ls)%string).
  replace (loop (S (S (S (length ls)))) MFormat None m ("2.2 0 8" :: "$EndMeshFormat" :: ls)%string)
    with (loop (S (S (length ls))) MFormat (Some 0%Z) m ("$EndMeshFormat" :: ls)%string); [reflexivity|].
  symmetry. cbn [read_loop readline]. change (dollar (strip "2.2 0 8")) with false. cbv iota.
  unfold data_line. change (split (strip "2.2 0 8")) with ["2.2"; "0"; "8"]%string. cbv iota beta zeta. rewrite V.
  reflexivity.
Qed.

(** * The dictionary of a field *)
Lemma show_inj a b : show_int a = show_int b -> a = b.
Proof. intros H. apply (f_equal parse_int) in H. rewrite !parse_show in H. congruence. Qed.
Lemma rows_dict rs : forall d, NoDup (map fst rs) -> forall s,
  get String.eqb s (fold_left put_row rs d) =
  match find (fun p => String.eqb s (show_int (fst p))) rs with Some p => Some (snd p) | None => get String.eqb s d end.
Proof.
  induction rs as [|p rs IH]; intros d ND s; auto. inversion ND as [|? ? N1 N2]; subst. cbn [fold_left find].
  rewrite IH by auto. unfold put_row at 1. rewrite (get_put _ string_spec).
  destruct (string_spec s (show_int (fst p))) as [->|Ne]; auto.
  destruct (find _ rs) as [p'|] eqn:Fd; auto. exfalso. apply find_some in Fd. destruct Fd as [I E].
  apply String.eqb_eq in E. apply show_inj in E. apply N1. rewrite E. apply in_map. auto.
Qed.
Lemma combine_fst_nodup (ids : list Z) (vs : list (list F)) : NoDup ids -> NoDup (map fst (combine ids vs)).
Proof.
  revert vs. induction ids as [|i ids IH]; intros [|v vs] H; try constructor; inversion H; subst; auto.
  intros I. apply in_map_iff in I. destruct I as ([j w] & E & I). cbn in E. subst j. apply in_combine_l in I. auto.
Qed.
Lemma combine_nth_error {A B} (l : list A) : forall (l' : list B) k p,
  nth_error (combine l l') k = Some p <-> nth_error l k = Some (fst p) /\ nth_error l' k = Some (snd p).
Proof.
  induction l as [|a l IH]; intros [|b l'] [|k] p; cbn; try (split; [discriminate|intros [? ?]; discriminate]).
  - destruct p. cbn. split; [intros [= <- <-]; auto|intros [[= <-] [= <-]]; auto].
  - apply IH.
Qed.
Lemma rows_attached ids vs : NoDup ids -> attached ids vs (fold_left put_row (combine ids vs) []).
Proof.
  intros ND. pose proof (combine_fst_nodup ids vs ND) as N2. split.
  - intros k id row A B. rewrite rows_dict by auto.
    assert (I : In (id, row) (combine ids vs)).
    { apply (nth_error_In _ k). apply combine_nth_error. auto. }
    destruct (find _ _) as [p|] eqn:Fd.
    + apply find_some in Fd. destruct Fd as [I2 E]. apply String.eqb_eq, show_inj in E.
      apply (in_get Z.eqb Z.eqb_spec _ _ _ N2) in I. destruct p as [j w]. cbn in E. subst j.
      apply (in_get Z.eqb Z.eqb_spec _ _ _ N2) in I2. cbn. congruence.
    + exfalso. apply (find_none _ _ Fd) in I. cbn [fst] in I. rewrite String.eqb_refl in I. discriminate.
  - intros s row H. rewrite rows_dict in H by auto. destruct (find _ _) as [p|] eqn:Fd; [|discriminate].
    injection H as <-. apply find_some in Fd. destruct Fd as [I E]. apply String.eqb_eq in E.
    apply In_nth_error in I. destruct I as [k K]. apply combine_nth_error in K. exists k, (fst p). tauto.
Qed.
Lemma fields_get ids t0 fs : forall m, NoDup (map (fun f => strip_quotes (fst f)) fs) ->
  (forall k, ~ In k (map (fun f => strip_quotes (fst f)) fs) ->
     get String.eqb k (element_data (fold_left (put_field ids t0) fs m)) = get String.eqb k (element_data m)) /\
  (forall n vs, In (n, vs) fs -> get String.eqb (strip_quotes n) (element_data m) = None ->
     get String.eqb (strip_quotes n) (element_data (fold_left (put_field ids t0) fs m)) =
     Some [(0%Z, (t0, fold_left put_row (combine ids vs) []))]) /\
  nodes (fold_left (put_field ids t0) fs m) = nodes m /\ elements (fold_left (put_field ids t0) fs m) = elements m /\
  physical (fold_left (put_field ids t0) fs m) = physical m.
Proof.
  induction fs as [|[n vs] fs IH]; intros m ND; cbn [fold_left].
  - split; auto. split; [intros ? ? []|auto].
  - inversion ND as [|? ? N1 N2]; subst. destruct (IH (put_field ids t0 m (n, vs)) N2) as (A & B & C).
    split; [|split]; [| |exact C].
    + intros k Hk. cbn [map fst In] in Hk. rewrite A by tauto. apply put_field_other. cbn [fst]. intros E. apply Hk. auto.
    + intros n' vs' [[= <- <-]|I] G.
      * rewrite A by auto. unfold put_field. cbn [fst snd element_data]. rewrite G, (get_put _ string_spec), String.eqb_refl. auto.
      * apply B; auto. rewrite put_field_other; auto. cbn [fst]. intros E. apply N1. cbn [fst]. rewrite <- E.
        apply in_map_iff. exists (n', vs'). auto.
Qed.
End R.
