(** Proofs about gmsh_io.py. *)
From Coq Require Import List Arith Bool ZArith String Ascii Lia Permutation DecimalString DecimalZ DecimalFacts.
From Verif Require Import MshIO_Model MshIO_Spec.
Import ListNotations.
Local Open Scope nat_scope.
Local Open Scope list_scope.
Local Notation length := List.length.

Lemma chars_app a b : chars (a ++ b)%string = chars a ++ chars b.
Proof. induction a; cbn; congruence. Qed.
Lemma app_nil_s a : (a ++ "")%string = a.
Proof. induction a; cbn; congruence. Qed.
Lemma app_assoc_s a b c : ((a ++ b) ++ c)%string = (a ++ (b ++ c))%string.
Proof. induction a; cbn; congruence. Qed.
Lemma white_nl : white nl = true. Proof. reflexivity. Qed.

(** * Lines *)
Lemma lines_out l t : one_line l -> lines (out l ++ t)%string = l :: lines t.
Proof.
  unfold out. rewrite app_assoc_s. intros H. induction l as [|c l IH]; [reflexivity|].
  change ((String c l ++ (String nl "" ++ t))%string) with (String c (l ++ (String nl "" ++ t))%string).
  cbn [lines]. destruct (Ascii.eqb_spec c nl) as [->|N].
  - exfalso. destruct (H nl) as [Q _]; [cbn; auto|auto].
  - rewrite IH; auto. intros x Q. apply H. cbn; auto.
Qed.
Lemma newlines_line l t : one_line l -> newlines (out l ++ t)%string = (out l ++ newlines t)%string.
Proof.
  unfold out. rewrite !app_assoc_s. intros H. induction l as [|c l IH]; [reflexivity|].
  change ((String c l ++ (String nl "" ++ t))%string) with (String c (l ++ (String nl "" ++ t))%string).
  cbn [newlines]. destruct (Ascii.eqb_spec c cr) as [->|N].
  - exfalso. destruct (H cr) as [_ Q]; [cbn; auto|auto].
  - rewrite IH; auto. intros x Q. apply H. cbn; auto.
Qed.
Lemma newlines_all ls : Forall one_line ls -> newlines (out_all ls) = out_all ls.
Proof. induction 1 as [|l ls H _ IH]; [reflexivity|]. cbn [out_all fold_right]. rewrite newlines_line; auto. unfold out_all in IH. congruence. Qed.
Lemma lines_all ls : Forall one_line ls -> lines (out_all ls) = ls.
Proof. induction 1 as [|l ls H _ IH]; [reflexivity|]. cbn [out_all fold_right]. rewrite lines_out; auto. unfold out_all in IH. congruence. Qed.

(** * Columns *)
Lemma split_white c r : white c = true -> split (String c r) = split r.
Proof. intros W. cbn [split]. rewrite W. auto. Qed.
Lemma split_last c : white c = false -> split (String c EmptyString) = [String c EmptyString].
Proof. intros W. cbn [split]. rewrite W. auto. Qed.
Lemma split_end c d r : white c = false -> white d = true -> split (String c (String d r)) = String c EmptyString :: split r.
Proof. intros W D. cbn [split]. rewrite W, D. auto. Qed.
Lemma split_more c d r : white c = false -> white d = false ->
  split (String c (String d r)) = match split (String d r) with w :: ws => String c w :: ws | [] => [String c EmptyString] end.
Proof. intros W D. cbn [split]. rewrite W, D. auto. Qed.
Lemma split_word_space w c b : word w -> white c = true -> split (w ++ String c b)%string = w :: split b.
Proof.
  intros [N W] C. induction w as [|d w IH]; [congruence|]. clear N.
  assert (D : white d = false) by (apply W; cbn; auto).
  destruct w as [|e w].
  - cbn [append]. rewrite split_end; auto.
  - assert (E : white e = false) by (apply W; cbn; auto).
    cbn [append] in *. rewrite split_more by auto. rewrite IH; auto; [discriminate|]. intros x Hx. apply W. cbn in *; auto.
Qed.
Lemma split_word w : word w -> split w = [w].
Proof.
  intros [N W]. induction w as [|d w IH]; [congruence|]. clear N.
  assert (D : white d = false) by (apply W; cbn; auto). destruct w as [|e w]; [apply split_last; auto|].
  rewrite split_more; auto; [|apply W; cbn; auto].
  rewrite IH; auto; [discriminate|]. intros x Hx. apply W. cbn in *; auto.
Qed.
Lemma join_cons w v ws : join (w :: v :: ws) = (w ++ String " " (join (v :: ws)))%string.
Proof. reflexivity. Qed.
Lemma split_join ws : Forall word ws -> split (join ws) = ws.
Proof.
  induction 1 as [|w ws H F IH]; auto. destruct ws as [|v ws]; [apply split_word; auto|].
  rewrite join_cons, split_word_space, IH; auto.
Qed.
Lemma split_join_space ws c b : Forall word ws -> white c = true -> split (join ws ++ String c b)%string = ws ++ split b.
Proof.
  intros F C. induction F as [|w ws H F IH]; [apply split_white; auto|]. destruct ws as [|v ws].
  - apply split_word_space; auto.
  - rewrite join_cons, app_assoc_s. cbn [append]. rewrite split_word_space by auto. cbn [app]. f_equal. exact IH.
Qed.
Lemma split_lstrip s : split (lstrip white s) = split s.
Proof. induction s as [|c s IH]; auto. cbn [lstrip]. destruct (white c) eqn:W; auto. cbn [split]. rewrite W. auto. Qed.
Lemma rstrip_nil s : rstrip white s = EmptyString -> split s = [].
Proof.
  induction s as [|c s IH]; auto. cbn [rstrip]. destruct (rstrip white s) eqn:R; [|discriminate].
  destruct (white c) eqn:W; [|discriminate]. intros _. cbn [split]. rewrite W. auto.
Qed.
Lemma rstrip_first c s : exists r, rstrip white (String c s) = String c r \/ (rstrip white (String c s) = EmptyString /\ white c = true).
Proof. cbn [rstrip]. destruct (rstrip white s); [destruct (white c); exists EmptyString; auto|eauto]. Qed.
Lemma split_rstrip s : split (rstrip white s) = split s.
Proof.
  induction s as [|c s IH]; auto. cbn [rstrip]. destruct (rstrip white s) as [|d r] eqn:R.
  - assert (S0 : split s = []) by (apply rstrip_nil; auto). destruct (white c) eqn:W.
    + rewrite split_white; auto.
    + rewrite split_last by auto. destruct s as [|e s]; [rewrite split_last; auto|]. destruct (white e) eqn:We.
      * rewrite split_end, <- (split_white e), S0; auto.
      * rewrite split_more, S0; auto.
  - destruct (white c) eqn:W; [rewrite !(split_white c) by auto; exact IH|]. destruct s as [|e s]; [discriminate|].
    destruct (rstrip_first e s) as (r' & [Q|[Q _]]); rewrite Q in R; [|discriminate]. injection R as -> ->.
    destruct (white d) eqn:Wd.
    + rewrite !split_end by auto. f_equal. rewrite !(split_white d) in IH; auto.
    + rewrite !split_more by auto. rewrite IH. auto.
Qed.
Lemma split_strip s : split (strip s) = split s.
Proof. unfold strip. rewrite split_rstrip. apply split_lstrip. Qed.
(** A line that starts with a visible character. *)
Definition starts (c : ascii) (s : string) : Prop := exists r, s = String c r.
Lemma strip_starts c s : white c = false -> starts c s -> starts c (strip s).
Proof.
  intros W [r ->]. unfold strip. cbn [lstrip]. rewrite W.
  destruct (rstrip_first c r) as (r' & [Q|[_ Q]]); [exists r'; auto|congruence].
Qed.

(** * Integers *)
Definition int_char (c : ascii) : bool := existsb (Ascii.eqb c) (chars "0123456789-"%string).
Lemma int_white c : int_char c = true -> white c = false /\ Ascii.eqb c "$"%char = false.
Proof.
  unfold int_char. rewrite existsb_exists. intros (d & Hd & Q). apply Ascii.eqb_eq in Q. subst d.
  cbn in Hd. repeat (destruct Hd as [<-|Hd]; [split; reflexivity|]). destruct Hd.
Qed.
Lemma uint_chars u : forall c, In c (chars (NilEmpty.string_of_uint u)) -> int_char c = true.
Proof. induction u; cbn [NilEmpty.string_of_uint chars In]; intros c H; [destruct H|..]; (destruct H as [<-|H]; [reflexivity|auto]). Qed.
Lemma uint_chars0 u : forall c, In c (chars (NilZero.string_of_uint u)) -> int_char c = true.
Proof.
  intros c H. destruct u; [cbn in H; destruct H as [<-|[]]; reflexivity|..];
    match type of H with In c (chars (NilZero.string_of_uint ?d)) => exact (uint_chars d c H) end.
Qed.
Lemma uint_nonempty u : NilZero.string_of_uint u <> EmptyString.
Proof. destruct u; cbn; discriminate. Qed.
Lemma show_chars z : forall c, In c (chars (show_int z)) -> int_char c = true.
Proof.
  unfold show_int. destruct (Z.to_int z) as [u|u]; cbn; intros c H; [eapply uint_chars0; eauto|].
  destruct H as [<-|H]; [reflexivity|eapply uint_chars0; eauto].
Qed.
Lemma show_word z : word (show_int z).
Proof.
  split.
  - unfold show_int. destruct (Z.to_int z); cbn; [apply uint_nonempty|discriminate].
  - intros c H. apply show_chars in H. apply int_white in H. tauto.
Qed.
Lemma parse_show z : parse_int (show_int z) = Some z.
Proof.
  unfold parse_int, show_int. rewrite NilZero.isi; cbn.
  - rewrite DecimalZ.of_to. auto.
  - destruct z; cbn; try discriminate. intros Q. injection Q as Q. revert Q. apply DecimalPos.Unsigned.to_uint_nonnil.
  - destruct z; cbn; try discriminate. intros Q. injection Q as Q. revert Q. apply DecimalPos.Unsigned.to_uint_nonnil.
Qed.
Lemma show_starts z r : exists c, int_char c = true /\ starts c (show_int z ++ r)%string.
Proof.
  destruct (show_int z) as [|c t] eqn:E. { exfalso. apply (proj1 (show_word z)); auto. }
  exists c. split; [apply (show_chars z); rewrite E; cbn; auto|]. exists (t ++ r)%string. auto.
Qed.
Lemma words_ints l : Forall word (map show_int l).
Proof. induction l; constructor; auto. apply show_word. Qed.
Lemma mapo_map {A B C} (f : A -> B) (g : B -> option C) (h : A -> C) l :
  (forall x, g (f x) = Some (h x)) -> mapo g (map f l) = Some (map h l).
Proof. intros H. induction l as [|x l IH]; auto. cbn. rewrite H, IH. auto. Qed.
Lemma mapo_show l : mapo parse_int (map show_int l) = Some l.
Proof. rewrite (mapo_map show_int parse_int (fun x => x)) by apply parse_show. rewrite map_id. auto. Qed.
Lemma word_one w : word w -> one_line w.
Proof. intros [_ W] c H. apply W in H. split; intros ->; discriminate H. Qed.
Lemma one_app a b : one_line a -> one_line b -> one_line (a ++ b).
Proof. intros A B c. rewrite chars_app, in_app_iff. intros [H|H]; auto. Qed.
Lemma one_cons c s : c <> nl /\ c <> cr -> one_line s -> one_line (String c s).
Proof. intros E H x [<-|Q]; auto. Qed.
Lemma one_space s : one_line s -> one_line (String " " s).
Proof. apply one_cons. split; discriminate. Qed.
Lemma one_nil : one_line "". Proof. intros c []. Qed.
Lemma one_join ws : Forall word ws -> one_line (join ws).
Proof.
  induction 1 as [|w ws H F IH]; [apply one_nil|]. destruct ws as [|v ws]; [apply word_one; auto|].
  cbn [join]. apply one_app; [apply word_one; auto|]. apply one_space; auto.
Qed.

(** * Dictionaries *)
Section D.
  Context {K V : Type} (eqb : K -> K -> bool) (E : forall a b, reflect (a = b) (eqb a b)).
  Lemma get_put k k' v (d : list (K * V)) : get eqb k (put eqb k' v d) = if eqb k k' then Some v else get eqb k d.
  Proof.
    induction d as [|[k2 v2] d IH]; [reflexivity|]. cbn [put].
    destruct (E k' k2) as [->|N]; cbn [get].
    - destruct (E k k2); auto.
    - rewrite IH. destruct (E k k2) as [->|N2]; auto. destruct (E k2 k'); congruence.
  Qed.
  Lemma get_in k v (d : list (K * V)) : get eqb k d = Some v -> In (k, v) d.
  Proof.
    induction d as [|[k2 v2] d IH]; [discriminate|]. cbn. destruct (E k k2) as [->|N]; auto.
    intros H. injection H as ->. auto.
  Qed.
  Lemma in_get k v (d : list (K * V)) : NoDup (keys d) -> In (k, v) d -> get eqb k d = Some v.
  Proof.
    induction d as [|[k2 v2] d IH]; [intros _ []|]. cbn. intros N H. inversion N as [|? ? N1 N2]; subst.
    destruct H as [H|H].
    - injection H as -> ->. destruct (E k k); congruence.
    - destruct (E k k2) as [->|Ne]; auto. exfalso. apply N1. apply in_map_iff. exists (k2, v). auto.
  Qed.
  Lemma get_none k (d : list (K * V)) : get eqb k d = None <-> ~ In k (keys d).
  Proof.
    induction d as [|[k2 v2] d IH]; cbn; [tauto|]. destruct (E k k2) as [->|N].
    - split; [discriminate|]. intros H. exfalso. auto.
    - rewrite IH. intuition.
  Qed.
  Lemma get_perm (d e : list (K * V)) : NoDup (keys d) -> Permutation d e -> forall k, get eqb k d = get eqb k e.
  Proof.
    intros N P k. assert (N2 : NoDup (keys e)).
    { eapply Permutation_NoDup; [|exact N]. apply Permutation_map; auto. }
    destruct (get eqb k d) as [v|] eqn:G.
    - symmetry. apply in_get; auto. eapply Permutation_in; eauto. apply get_in; auto.
    - symmetry. apply get_none. apply get_none in G. intros H. apply G. eapply Permutation_in; [|exact H].
      apply Permutation_sym. apply Permutation_map. auto.
  Qed.
  (** Entering the kept entries of a list one after another. *)
  Lemma get_fold (keep : V -> bool) (l : list (K * V)) : forall d, NoDup (keys l) -> forall k,
    get eqb k (fold_left (fun d p => if keep (snd p) then put eqb (fst p) (snd p) d else d) l d) =
    match only keep (get eqb k l) with Some v => Some v | None => get eqb k d end.
  Proof.
    induction l as [|[k2 v2] l IH]; intros d N k; auto. inversion N as [|? ? N1 N2]; subst.
    cbn [fold_left fst snd]. rewrite IH by auto. cbn [get].
    destruct (E k k2) as [->|Ne].
    - assert (Q : get eqb k2 l = None) by (apply get_none; auto). rewrite Q. cbn [only].
      destruct (keep v2); auto. rewrite get_put. destruct (E k2 k2); congruence.
    - destruct (only keep (get eqb k l)); auto. destruct (keep v2); auto. rewrite get_put. destruct (E k k2); congruence.
  Qed.
End D.
Lemma insert_perm {A} (leb : A -> A -> bool) x l : Permutation (x :: l) (insert A leb x l).
Proof.
  induction l as [|y l IH]; cbn; auto. destruct (leb x y); auto.
  eapply perm_trans; [apply perm_swap|]. apply perm_skip. auto.
Qed.
Lemma sorted_perm {A} (leb : A -> A -> bool) l : Permutation l (sorted leb l).
Proof.
  induction l as [|x l IH]; cbn; auto. eapply perm_trans; [|apply insert_perm]. apply perm_skip. auto.
Qed.
Lemma sorted_nodup {K V} (leb : K * V -> K * V -> bool) (l : list (K * V)) : NoDup (keys l) -> NoDup (keys (sorted leb l)).
Proof. intros N. eapply Permutation_NoDup; [|exact N]. apply Permutation_map. apply sorted_perm. Qed.
