(** Reading back what was written (gmsh_io.py). *)
From Coq Require Import List Arith Bool ZArith String Ascii Lia Permutation.
From Verif Require Import MshIO_Model MshIO_Spec MshIO_Proofs.
Import ListNotations.
Local Open Scope nat_scope.
Local Open Scope list_scope.
Local Notation length := List.length.

Section R.
Context {F : Type} (show : F -> string) (parse : string -> option F).
Hypothesis FT : float_text show parse.
Notation loop := (read_loop F parse).

Lemma words_floats l : Forall word (map show l).
Proof. induction l; constructor; auto. apply (ft_word _ _ FT). Qed.
Lemma parse_floats l : mapo parse (map show l) = Some l.
Proof. rewrite (mapo_map show parse (fun x => x)) by apply (ft_back _ _ FT). rewrite map_id. auto. Qed.

(** A line starting with an integer. *)
Lemma loop_data fuel md ft m z r ls :
  loop (S fuel) md ft m ((show_int z ++ r)%string :: ls) =
  match data_line F parse (show_int z ++ r)%string md ft m with
  | Some (md, ft, m) => loop fuel md ft m ls
  | None => None
  end.
Proof.
  destruct (show_starts z r) as (c & C & S). destruct (int_white c C) as [W D].
  destruct (strip_starts c _ W S) as [t T]. cbn [read_loop readline].
  assert (Q : data_line F parse (strip (show_int z ++ r)) md ft m = data_line F parse (show_int z ++ r) md ft m).
  { unfold data_line. rewrite split_strip. auto. }
  rewrite Q. rewrite T. cbn [dollar]. rewrite D.
  destruct (data_line F parse (show_int z ++ r)%string md ft m) as [[[md' ft'] m']|]; auto.
Qed.
Lemma loop_count {A} fuel md m (l : list A) ls : md = MNames \/ md = MNodes \/ md = MElements ->
  loop (S fuel) md (Some 0%Z) m (count_line l :: ls) = loop fuel md (Some 0%Z) m ls.
Proof.
  intros H. unfold count_line. rewrite <- (app_nil_s (show_int _)). rewrite loop_data, app_nil_s. unfold data_line.
  rewrite split_word by apply show_word. destruct H as [->|[->| ->]]; reflexivity.
Qed.

(** * Names *)
Definition add_name (m : mesh F) (p : string * (Z * Z)) : mesh F :=
  match split (fst p) with
  | [w] => set_physical F (put String.eqb w (snd p) (physical m)) m
  | _ => m
  end.
Lemma loop_names ns : forall fuel m ls,
  loop (length ns + fuel) MNames (Some 0%Z) m (map name_line ns ++ ls) =
  loop fuel MNames (Some 0%Z) (fold_left add_name ns m) ls.
Proof.
  induction ns as [|[n [i d]] ns IH]; intros fuel m ls; auto.
  cbn [List.length plus map app fold_left]. unfold name_line at 1. rewrite loop_data.
  unfold data_line. change (" " ++ show_int i ++ " " ++ n)%string with (String " " (show_int i ++ String " " n))%string.
  rewrite split_word_space by (auto using show_word). rewrite split_word_space by (auto using show_word).
  unfold add_name at 2. cbn [fst snd]. destruct (split n) as [|w [|w' ws]]; try apply IH.
  rewrite !parse_show. apply IH.
Qed.
(** * Nodes *)
Definition add_node (m : mesh F) (p : Z * list F) : mesh F :=
  if kept_node (snd p) then set_nodes F (put Z.eqb (fst p) (snd p) (nodes m)) m else m.
Lemma loop_nodes ns : forall fuel m ls,
  loop (length ns + fuel) MNodes (Some 0%Z) m (map (node_line F show) ns ++ ls) =
  loop fuel MNodes (Some 0%Z) (fold_left add_node ns m) ls.
Proof.
  induction ns as [|[i c] ns IH]; intros fuel m ls; auto.
  cbn [List.length plus map app fold_left]. unfold node_line at 1. cbn [fst snd]. rewrite loop_data.
  unfold data_line. change (" " ++ join (map show c))%string with (String " " (join (map show c)))%string.
  rewrite split_word_space by (auto using show_word). rewrite split_join by apply words_floats.
  unfold add_node at 2, kept_node. cbn [fst snd]. unfold node_columns.
  destruct c as [|x [|y [|z [|w c]]]]; try apply IH.
  change [show x; show y; show z] with (map show [x; y; z]). cbn [map].
  rewrite parse_show. change [show x; show y; show z] with (map show [x; y; z]). rewrite parse_floats. apply IH.
Qed.
(** * Elements *)
Definition add_elem (m : mesh F) (p : Z * elem) : mesh F :=
  if kept_elem (snd p) then set_elements F (put Z.eqb (fst p) (snd p) (elements m)) m else m.
Lemma loop_elems ns : forall fuel m ls,
  loop (length ns + fuel) MElements (Some 0%Z) m (map elem_line ns ++ ls) =
  loop fuel MElements (Some 0%Z) (fold_left add_elem ns m) ls.
Proof.
  induction ns as [|[i [[t tags] nn]] ns IH]; intros fuel m ls; auto.
  cbn [List.length plus map app fold_left]. unfold elem_line at 1. rewrite loop_data.
  unfold data_line. 
  match goal with |- context [split ?s] => assert (Q : split s = map show_int ([i; t; Z.of_nat (length tags)] ++ tags ++ nn)) end.
  { cbn [append]. rewrite !split_word_space by (auto using show_word).
    rewrite split_join_space by (auto using words_ints). rewrite split_join by apply words_ints.
    rewrite !map_app. auto. }
  rewrite Q. unfold elem_columns. rewrite map_length, mapo_show.
  unfold add_elem at 2, kept_elem. cbn [fst snd]. rewrite app_length, app_length. cbn [List.length].
  replace (5 <? 3 + (length tags + length nn)) with (2 <? length tags + length nn).
  2:{ apply eq_true_iff_eq. rewrite !Nat.ltb_lt. lia. }
  destruct (2 <? length tags + length nn); [|apply IH].
  cbn [nth app]. replace (Z.to_nat (3 + Z.of_nat (length tags))) with (S (S (S (length tags)))) by lia.
  cbn [firstn skipn]. rewrite firstn_app, Nat.sub_diag, firstn_O, app_nil_r, firstn_all.
  rewrite skipn_app, Nat.sub_diag, skipn_all. cbn [skipn app]. apply IH.
Qed.

(** * The three dictionaries *)
Lemma names_other ns m : nodes (fold_left add_name ns m) = nodes m /\ elements (fold_left add_name ns m) = elements m /\
  element_data (fold_left add_name ns m) = element_data m.
Proof.
  revert m. induction ns as [|p ns IH]; intros m; auto. cbn [fold_left].
  destruct (IH (add_name m p)) as (A & B & C). rewrite A, B, C. unfold add_name.
  destruct (split (fst p)) as [|w [|]]; auto.
Qed.
Lemma nodes_other ns m : physical (fold_left add_node ns m) = physical m /\ elements (fold_left add_node ns m) = elements m /\
  element_data (fold_left add_node ns m) = element_data m /\
  nodes (fold_left add_node ns m) = fold_left (fun d p => if kept_node (snd p) then put Z.eqb (fst p) (snd p) d else d) ns (nodes m).
Proof.
  revert m. induction ns as [|p ns IH]; intros m; auto. cbn [fold_left].
  destruct (IH (add_node m p)) as (A & B & C & D). rewrite A, B, C, D. unfold add_node. destruct (kept_node (snd p)); auto.
Qed.
Lemma elems_other ns m : physical (fold_left add_elem ns m) = physical m /\ nodes (fold_left add_elem ns m) = nodes m /\
  element_data (fold_left add_elem ns m) = element_data m /\
  elements (fold_left add_elem ns m) = fold_left (fun d p => if kept_elem (snd p) then put Z.eqb (fst p) (snd p) d else d) ns (elements m).
Proof.
  revert m. induction ns as [|p ns IH]; intros m; auto. cbn [fold_left].
  destruct (IH (add_elem m p)) as (A & B & C & D). rewrite A, B, C, D. unfold add_elem. destruct (kept_elem (snd p)); auto.
Qed.
Definition put_name (d : list (string * (Z * Z))) (p : string * (Z * Z)) :=
  match split (fst p) with [w] => put String.eqb w (snd p) d | _ => d end.
Lemma names_dict ns m : physical (fold_left add_name ns m) = fold_left put_name ns (physical m).
Proof.
  revert m. induction ns as [|p ns IH]; intros m; auto. cbn [fold_left]. rewrite IH. f_equal.
  unfold add_name, put_name. destruct (split (fst p)) as [|w [|]]; auto.
Qed.
Lemma string_spec : forall a b, reflect (a = b) (String.eqb a b).
Proof. exact String.eqb_spec. Qed.
Lemma put_name_word ns : Forall (fun p : string * (Z * Z) => word (fst p)) ns -> forall d,
  fold_left put_name ns d = fold_left (fun d p => if (fun _ => true) (snd p) then put String.eqb (fst p) (snd p) d else d) ns d.
Proof.
  induction 1 as [|p ns H _ IH]; intros d; auto. cbn [fold_left]. rewrite IH. f_equal.
  unfold put_name. rewrite split_word; auto.
Qed.
Lemma split_words s : Forall word (split s).
Proof.
  induction s as [|c s IH]; [constructor|]. destruct (white c) eqn:W; [rewrite split_white; auto|].
  assert (W1 : word (String c EmptyString)).
  { split; [discriminate|]. intros x [<-|[]]. auto. }
  destruct s as [|d s]; [rewrite split_last; auto|]. destruct (white d) eqn:D.
  - rewrite split_end by auto. constructor; auto. rewrite split_white in IH; auto.
  - rewrite split_more by auto. destruct (split (String d s)) as [|w ws]; [constructor; auto|].
    inversion IH as [|? ? [A B] C]; subst. constructor; auto. split; [discriminate|]. intros x [<-|H]; auto.
Qed.
Lemma put_name_keys ns : forall d, (forall n, In n (keys d) -> word n) -> forall n, In n (keys (fold_left put_name ns d)) -> word n.
Proof.
  induction ns as [|p ns IH]; intros d Hd; auto. cbn [fold_left]. apply IH. intros n Hn. unfold put_name in Hn.
  destruct (split (fst p)) as [|w [|]] eqn:S; auto.
  assert (Ww : word w). { pose proof (split_words (fst p)) as Q. rewrite S in Q. inversion Q; auto. }
  destruct (string_spec n w) as [->|N]; auto. apply Hd.
  destruct (get String.eqb n d) as [v|] eqn:G.
  - apply (get_in _ string_spec) in G. apply in_map_iff. exists (n, v). auto.
  - exfalso. assert (Q : get String.eqb n (put String.eqb w (snd p) d) = None).
    { rewrite (get_put _ string_spec). destruct (string_spec n w); congruence. }
    apply (get_none _ string_spec) in Q. auto.
Qed.
Lemma put_name_origin ns : forall d n v, get String.eqb n (fold_left put_name ns d) = Some v ->
  get String.eqb n d = Some v \/ exists n0, In (n0, v) ns /\ split n0 = [n].
Proof.
  induction ns as [|p ns IH]; intros d n v H; auto. cbn [fold_left] in H. apply IH in H. destruct H as [H|(n0 & A & B)].
  - unfold put_name in H. destruct (split (fst p)) as [|w [|]] eqn:S; auto.
    rewrite (get_put _ string_spec) in H. destruct (string_spec n w) as [->|N]; auto.
    injection H as <-. right. exists (fst p). rewrite <- surjective_pairing. cbn. auto.
  - right. exists n0. cbn. auto.
Qed.

(** * The whole file *)
Definition filled (m : mesh F) : mesh F :=
  fold_left add_elem (sorted by_int (elements m))
    (fold_left add_node (sorted by_int (nodes m)) (fold_left add_name (sorted by_name (physical m)) (reset F))).
Lemma sorted_len {A} leb (l : list A) : length (sorted leb l) = length l.
Proof. symmetry. apply Permutation_length. apply sorted_perm. Qed.
Lemma name_one p : one_line (fst p) -> one_line (name_line p).
Proof.
  destruct p as [n [i d]]. cbn [fst]. intros H. unfold name_line.
  apply one_app; [apply word_one, show_word|]. apply one_space; auto.
  apply one_app; [apply word_one, show_word|]. apply one_space; auto.
Qed.
Lemma node_one p : one_line (node_line F show p).
Proof. apply one_app; [apply word_one, show_word|]. apply one_space; auto. apply one_join. apply words_floats. Qed.
Lemma elem_one p : one_line (elem_line p).
Proof.
  destruct p as [i [[t tags] nn]]. unfold elem_line.
  do 3 (apply one_app; [apply word_one, show_word|]; apply one_space; auto).
  apply one_app; [apply one_join, words_ints|]. apply one_space; auto. apply one_join, words_ints.
Qed.
Lemma forall_map {A B} (P : B -> Prop) (f : A -> B) l : (forall x, In x l -> P (f x)) -> Forall P (map f l).
Proof. intros H. apply Forall_forall. intros y Hy. apply in_map_iff in Hy. destruct Hy as (x & <- & Hx). auto. Qed.
Lemma one_check s : existsb (fun c => Ascii.eqb nl c || Ascii.eqb cr c) (chars s) = false -> one_line s.
Proof.
  intros H c Q. apply not_true_iff_false in H. split; intros ->; apply H; apply existsb_exists.
  - exists nl. auto.
  - exists cr. auto.
Qed.
Lemma ascii_lines m : (forall n, In n (keys (physical m)) -> one_line n) ->
  lines (newlines (write_ascii F show m)) =
    ["$MeshFormat"; "2.2 0 8"; "$EndMeshFormat"; "$PhysicalNames"; count_line (physical m)]%string
    ++ map name_line (sorted by_name (physical m))
    ++ ["$EndPhysicalNames"; "$Nodes"; count_line (nodes m)]%string
    ++ map (node_line F show) (sorted by_int (nodes m))
    ++ ["$EndNodes"; "$Elements"; count_line (elements m)]%string
    ++ map elem_line (sorted by_int (elements m))
    ++ ["$EndElements"]%string.
Proof.
  intros N.
  match goal with |- _ = ?ls => cut (Forall one_line ls); [intros Q; unfold write_ascii; rewrite newlines_all by exact Q; apply lines_all; exact Q|] end.
  assert (C : forall A (l : list A), one_line (count_line l)) by (intros; apply word_one, show_word).
  pose proof one_check as K.
  repeat (apply Forall_app; split); repeat (apply Forall_cons || apply Forall_nil); auto; try (apply K; reflexivity).
  - apply forall_map. intros p Hp. apply name_one. apply N.
    apply (Permutation_in _ (Permutation_sym (sorted_perm by_name (physical m)))) in Hp. apply in_map; auto.
  - apply forall_map. intros p _. apply node_one.
  - apply forall_map. intros p _. apply elem_one.
Qed.
Lemma read_ascii m : (forall n, In n (keys (physical m)) -> one_line n) ->
  read F parse (reset F) (write_ascii F show m) = Some (filled m).
Proof.
  intros N. unfold read. rewrite (ascii_lines m N).
  remember (length (["$MeshFormat"; "2.2 0 8"; "$EndMeshFormat"; "$PhysicalNames"; count_line (physical m)]%string
    ++ map name_line (sorted by_name (physical m))
    ++ ["$EndPhysicalNames"; "$Nodes"; count_line (nodes m)]%string
    ++ map (node_line F show) (sorted by_int (nodes m))
    ++ ["$EndNodes"; "$Elements"; count_line (elements m)]%string
    ++ map elem_line (sorted by_int (elements m))
    ++ ["$EndElements"]%string)) as n eqn:En.
  rewrite !app_length, !map_length in En. cbn [List.length] in En.
  set (ns := sorted by_name (physical m)) in *. set (nn := sorted by_int (nodes m)) in *. set (ne := sorted by_int (elements m)) in *.
  assert (Q : S n = S (S (S (S (S (length ns + S (S (S (length nn + S (S (S (length ne + 2)))))))))))) by lia.
  rewrite Q. clear Q En n. cbn [app].
  assert (Sec : forall fuel line md ft mm ls md', dollar (strip line) = true -> strip line = line ->
     section_line F parse line md mm ls = Some (md', mm, ls) -> line <> EmptyString ->
     loop (S fuel) md ft mm (line :: ls) = loop fuel md' ft mm ls).
  { intros fuel line md ft mm ls md' D S H E. cbn [read_loop readline]. rewrite D, S, H.
    destruct (String.eqb_spec line EmptyString); congruence. }
  rewrite (Sec _ "$MeshFormat"%string _ _ _ _ MFormat); [|reflexivity|reflexivity|reflexivity|discriminate].
  assert (V : exists v, parse "2.2"%string = Some v) by (destruct (parse "2.2"%string) eqn:V; [eauto|exfalso; apply (ft_version _ _ FT); auto]).
  destruct V as [v V].
  match goal with |- loop (S ?f) MFormat None ?mm ("2.2 0 8"%string :: ?ls) = _ =>
    replace (loop (S f) MFormat None mm ("2.2 0 8"%string :: ls)) with (loop f MFormat (Some 0%Z) mm ls) end.
  2:{ cbn [read_loop readline]. change (dollar (strip "2.2 0 8")) with false. cbv iota.
      unfold data_line. change (split (strip "2.2 0 8")) with ["2.2"; "0"; "8"]%string. cbv iota beta zeta. rewrite V.
      reflexivity. }
  rewrite (Sec _ "$EndMeshFormat"%string _ _ _ _ M0); [|reflexivity|reflexivity|reflexivity|discriminate].
  rewrite (Sec _ "$PhysicalNames"%string _ _ _ _ MNames); [|reflexivity|reflexivity|reflexivity|discriminate].
  rewrite loop_count by auto. rewrite loop_names.
  rewrite (Sec _ "$EndPhysicalNames"%string _ _ _ _ M0); [|reflexivity|reflexivity|reflexivity|discriminate].
  rewrite (Sec _ "$Nodes"%string _ _ _ _ MNodes); [|reflexivity|reflexivity|reflexivity|discriminate].
  rewrite loop_count by auto. rewrite loop_nodes.
  rewrite (Sec _ "$EndNodes"%string _ _ _ _ M0); [|reflexivity|reflexivity|reflexivity|discriminate].
  rewrite (Sec _ "$Elements"%string _ _ _ _ MElements); [|reflexivity|reflexivity|reflexivity|discriminate].
  rewrite loop_count by auto. rewrite loop_elems.
  rewrite (Sec _ "$EndElements"%string _ _ _ _ M0); [|reflexivity|reflexivity|reflexivity|discriminate].
  reflexivity.
Qed.
Lemma filled_nodes m : is_mesh m -> forall k, get Z.eqb k (nodes (filled m)) = only kept_node (get Z.eqb k (nodes m)).
Proof.
  intros [A B C] k. unfold filled. rewrite (proj1 (proj2 (elems_other _ _))).
  rewrite (proj2 (proj2 (proj2 (nodes_other _ _)))). rewrite (proj1 (names_other _ _)).
  rewrite (get_fold _ Z.eqb_spec) by (apply sorted_nodup; auto).
  rewrite <- (get_perm _ Z.eqb_spec _ _ A (sorted_perm by_int _)). destruct (only _ _); auto.
Qed.
Lemma filled_elements m : is_mesh m -> forall k, get Z.eqb k (elements (filled m)) = only kept_elem (get Z.eqb k (elements m)).
Proof.
  intros [A B C] k. unfold filled. rewrite (proj2 (proj2 (proj2 (elems_other _ _)))).
  rewrite (proj1 (proj2 (nodes_other _ _))). rewrite (proj1 (proj2 (names_other _ _))).
  rewrite (get_fold _ Z.eqb_spec) by (apply sorted_nodup; auto).
  rewrite <- (get_perm _ Z.eqb_spec _ _ B (sorted_perm by_int _)). destruct (only _ _); auto.
Qed.
Lemma filled_physical_dict m : physical (filled m) = fold_left put_name (sorted by_name (physical m)) [].
Proof.
  unfold filled. rewrite (proj1 (elems_other _ _)). rewrite (proj1 (nodes_other _ _)). apply names_dict.
Qed.
Lemma filled_physical m : is_mesh m -> (forall n, In n (keys (physical m)) -> word n) ->
  forall k, get String.eqb k (physical (filled m)) = get String.eqb k (physical m).
Proof.
  intros [A B C] W k. rewrite filled_physical_dict. rewrite put_name_word.
  - pose proof (get_fold _ string_spec (fun _ : Z * Z => true) (sorted by_name (physical m)) []) as Q.
    cbv beta in Q |- *. rewrite Q by (apply sorted_nodup; auto).
    rewrite <- (get_perm _ string_spec _ _ C (sorted_perm by_name _)). destruct (get String.eqb k (physical m)); auto.
  - apply Forall_forall. intros p Hp. apply W.
    apply (Permutation_in _ (Permutation_sym (sorted_perm by_name (physical m)))) in Hp. apply in_map; auto.
Qed.
End R.
