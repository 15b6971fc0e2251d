(** Lemmas about fields and options. *)
From stdpp Require Import gmap strings list.
From Coq Require Import ZArith QArith String Lia.
From Verif Require Import Gmsh_Model Gmsh_Spec Gmsh_Proofs Gmsh_Wf Gmsh_Split Gmsh_Frag Field_Model Field_Spec.
Local Open Scope nat_scope.
Local Notation length := List.length.

Lemma alter_last {A} (g : A -> A) (l : list A) x : alter g (length l) (l ++ [x]) = l ++ [g x].
Proof. induction l as [|a l IH]; cbn; [done|]. f_equal. exact IH. Qed.
Lemma set_number_last fs f k v : set_number (length fs) k v (fs ++ [f]) = fs ++ [Fld (f_type f) (<[k := v]> (f_num f)) (f_list f)].
Proof. apply (alter_last (fun f => Fld _ _ _)). Qed.
Lemma set_numbers_last fs f k v : set_numbers (length fs) k v (fs ++ [f]) = fs ++ [Fld (f_type f) (f_num f) (<[k := v]> (f_list f))].
Proof. apply (alter_last (fun f => Fld _ _ _)). Qed.
Lemma set_number_fld fs t n l k v : set_number (length fs) k v (fs ++ [Fld t n l]) = fs ++ [Fld t (<[k := v]> n) l].
Proof. apply set_number_last. Qed.
Lemma set_numbers_fld fs t n l k v : set_numbers (length fs) k v (fs ++ [Fld t n l]) = fs ++ [Fld t n (<[k := v]> l)].
Proof. apply set_numbers_last. Qed.
Lemma field_ref_num j : field_ref (num j) = Some j.
Proof.
  unfold field_ref, num. cbn. rewrite (proj2 (Qeq_bool_iff _ _)) by reflexivity.
  destruct (0 <=? Z.of_nat j)%Z eqn:E; [by rewrite Nat2Z.id|]. apply Z.leb_gt in E. lia.
Qed.

Section V.
Context (dist : field -> Q * Q * Q -> Q).
Local Notation value_in := (value_in dist).
Local Notation value_at := (value_at dist).
Lemma all_some_ext {A} (f g : Z -> option A) l : (forall z, z ∈ l -> f z = g z) -> all_some (map f l) = all_some (map g l).
Proof.
  intros H. induction l as [|z l IH]; cbn; [done|]. rewrite H by constructor. rewrite IH; [done|]. intros y Hy. apply H. by constructor.
Qed.
(** Only the fields referred to matter, and the fuel does not. *)
Lemma value_ext fs fs' : refs_ok fs -> (forall i f, fs !! i = Some f -> fs' !! i = Some f) ->
  forall i n n' p, i < n -> i < n' -> i < length fs -> value_in n fs i p = value_in n' fs' i p.
Proof.
  intros R H i. induction (lt_wf i) as [i _ IH]. intros [|n] [|n'] p Hn Hn' Hi; try lia. cbn [Field_Spec.value_in].
  destruct (fs !! i) as [f|] eqn:E.
  2:{ apply lookup_ge_None in E. lia. }
  rewrite (H i f E). assert (forall j, j ∈ refs f -> value_in n fs j p = value_in n' fs' j p) as HR.
  { intros j Hj. pose proof (R i f j E Hj). apply IH; lia. }
  unfold refs in HR. destruct (String.eqb (f_type f) "Box"); [done|].
  assert (forall l, f_list f !! "FieldsList" = Some l ->
    all_some (map (fun z => value_in n fs (Z.to_nat z) p) l) = all_some (map (fun z => value_in n' fs' (Z.to_nat z) p) l)) as HL.
  { intros l El. apply all_some_ext. intros z Hz. apply HR. rewrite El. apply elem_of_app. right. apply elem_of_list_fmap. eauto. }
  destruct (String.eqb (f_type f) "Min"); [destruct (f_list f !! "FieldsList"); [by rewrite HL|done]|].
  destruct (String.eqb (f_type f) "Max"); [destruct (f_list f !! "FieldsList"); [by rewrite HL|done]|].
  destruct (String.eqb (f_type f) "Threshold"); [|done].
  destruct (f_num f !! "IField" ≫= field_ref) as [j|]; [|done]. rewrite (HR j); [done|]. apply elem_of_app. left. constructor.
Qed.
Lemma value_old fs f i p : refs_ok fs -> i < length fs -> value_at (fs ++ [f]) i p = value_at fs i p.
Proof.
  intros R Hi. symmetry. apply value_ext; [done| |lia|lia|done]. intros j g E. by apply lookup_app_l_Some.
Qed.
Lemma value_deep fs f i p : refs_ok fs -> i < length fs -> value_in (length fs) (fs ++ [f]) i p = value_at fs i p.
Proof.
  intros R Hi. symmetry. apply value_ext; [done| |lia|lia|done]. intros j g E. by apply lookup_app_l_Some.
Qed.
Lemma refs_ok_snoc fs f : refs_ok fs -> (forall j, j ∈ refs f -> j < length fs) -> refs_ok (fs ++ [f]).
Proof.
  intros R H i g j E Hj. apply lookup_app_Some in E as [E|[L E]]; [by eapply R|]. apply list_lookup_singleton_Some in E as [E ->].
  specialize (H j Hj). lia.
Qed.
Lemma last_field fs (f : field) : (fs ++ [f]) !! length fs = Some f.
Proof. rewrite lookup_app_r by done. by rewrite Nat.sub_diag. Qed.
End V.
Ltac lk := repeat first [rewrite lookup_insert | rewrite lookup_insert_ne by done].
Section W.
Context (dist : field -> Q * Q * Q -> Q).
Local Notation value_at := (value_at dist).
Lemma box_eq a b v w fs : exists f, box a b v w fs = (length fs, fs ++ [f]) /\ refs f = [] /\
  forall p, value_at (fs ++ [f]) (length fs) p = Some (if inside a b p then v else w).
Proof.
  destruct a as [[x0 y0] z0], b as [[x1 y1] z1]. unfold box, add. rewrite !set_number_fld. eexists. split; [reflexivity|]. split.
  - unfold refs. cbn [f_num f_list]. lk. by rewrite !lookup_empty.
  - intros p. unfold Field_Spec.value_at. cbn [value_in]. rewrite last_field. cbn [f_type f_num String.eqb Ascii.eqb Bool.eqb]. lk.
    by destruct (inside _ _ p).
Qed.
Lemma least_spec v l : exists w, least (v :: l) = Some w /\ (w ∈ v :: l) /\ Forall (fun u => (w <= u)%Q) (v :: l).
Proof.
  revert v. induction l as [|u l IH]; intros v.
  - exists v. cbn. split; [done|]. split; [constructor|]. constructor; [apply Qle_refl|constructor].
  - destruct (IH u) as (w & E & Hw & F). cbn [least] in E |- *. rewrite E. destruct (Qle_bool v w) eqn:B.
    + exists v. split; [done|]. split; [constructor|]. constructor; [apply Qle_refl|]. apply Qle_bool_iff in B.
      eapply Forall_impl; [exact F|]. cbn. intros t Ht. by eapply Qle_trans.
    + exists w. split; [done|]. split; [by constructor|]. constructor; [|done]. destruct (Qlt_le_dec w v) as [L|L]; [by apply Qlt_le_weak|].
      apply Qle_bool_iff in L. congruence.
Qed.
Lemma greatest_spec v l : exists w, greatest (v :: l) = Some w /\ (w ∈ v :: l) /\ Forall (fun u => (u <= w)%Q) (v :: l).
Proof.
  revert v. induction l as [|u l IH]; intros v.
  - exists v. cbn. split; [done|]. split; [constructor|]. constructor; [apply Qle_refl|constructor].
  - destruct (IH u) as (w & E & Hw & F). cbn [greatest] in E |- *. rewrite E. destruct (Qle_bool v w) eqn:B.
    + exists w. split; [done|]. split; [by constructor|]. constructor; [by apply Qle_bool_iff|done].
    + exists v. split; [done|]. split; [constructor|]. assert (w <= v)%Q as L.
      { destruct (Qlt_le_dec w v) as [L|L]; [by apply Qlt_le_weak|]. apply Qle_bool_iff in L. congruence. }
      constructor; [apply Qle_refl|]. eapply Forall_impl; [exact F|]. cbn. intros t Ht. by eapply Qle_trans.
Qed.
Lemma all_some_map {A} (g : nat -> option A) l vs : Forall2 (fun i v => g i = Some v) l vs ->
  all_some (map (fun z => g (Z.to_nat z)) (map Z.of_nat l)) = Some vs.
Proof. induction 1 as [|i v l vs E H IH]; cbn; [done|]. by rewrite Nat2Z.id, E, IH. Qed.
Lemma list_field_eq (make : list nat -> store -> nat * store) ty l fs :
  make l fs = (length fs, set_numbers (length fs) "FieldsList" (map Z.of_nat l) (fs ++ [Fld ty ∅ ∅])) ->
  make l fs = (length fs, fs ++ [Fld ty ∅ {["FieldsList" := map Z.of_nat l]}]).
Proof. intros ->. by rewrite set_numbers_fld. Qed.
Lemma refs_list ty l : refs (Fld ty ∅ {["FieldsList" := map Z.of_nat l]}) = l.
Proof.
  unfold refs. cbn [f_num f_list]. rewrite lookup_empty, lookup_singleton. cbn. rewrite map_map. induction l as [|a l IH]; cbn; [done|]. by rewrite Nat2Z.id, IH.
Qed.
Lemma values_deep fs f l vs p : refs_ok fs -> Forall2 (fun i v => value_at fs i p = Some v) l vs ->
  Forall2 (fun i v => value_in dist (length fs) (fs ++ [f]) i p = Some v) l vs.
Proof.
  intros R F. eapply Forall2_impl; [exact F|]. cbn. intros i v E. rewrite value_deep; [done|done|].
  unfold Field_Spec.value_at in E. cbn in E. destruct (fs !! i) eqn:X; [by eapply lookup_lt_Some|done].
Qed.
Lemma min_eq l fs vs p : refs_ok fs -> Forall2 (fun i v => value_at fs i p = Some v) l vs ->
  value_at (snd (min_field l fs)) (fst (min_field l fs)) p = least vs.
Proof.
  intros R F. rewrite (list_field_eq min_field "Min" l fs eq_refl). cbn [fst snd]. unfold Field_Spec.value_at. cbn [value_in]. rewrite last_field.
  cbn [f_type f_num f_list String.eqb Ascii.eqb Bool.eqb]. rewrite lookup_singleton.
  rewrite (all_some_map (fun i => value_in dist (length fs) (fs ++ _) i p) l vs); [done|]. by apply values_deep.
Qed.
Lemma max_eq l fs vs p : refs_ok fs -> Forall2 (fun i v => value_at fs i p = Some v) l vs ->
  value_at (snd (max_field l fs)) (fst (max_field l fs)) p = greatest vs.
Proof.
  intros R F. rewrite (list_field_eq max_field "Max" l fs eq_refl). cbn [fst snd]. unfold Field_Spec.value_at. cbn [value_in]. rewrite last_field.
  cbn [f_type f_num f_list String.eqb Ascii.eqb Bool.eqb]. rewrite lookup_singleton.
  rewrite (all_some_map (fun i => value_in dist (length fs) (fs ++ _) i p) l vs); [done|]. by apply values_deep.
Qed.
Lemma threshold_eq j lower upper sig fs : exists f, threshold j lower upper sig fs = (length fs, fs ++ [f]) /\ refs f = [j] /\ f_type f = "Threshold" /\
  f_num f !! "IField" = Some (num j) /\ f_num f !! "DistMin" = Some (fst lower) /\ f_num f !! "LcMin" = Some (snd lower) /\
  f_num f !! "DistMax" = (match upper with Some _ => Some (fst lower) | None => None end) /\
  f_num f !! "LcMax" = (match upper with Some _ => Some (snd lower) | None => None end) /\
  f_num f !! "StopAtDistMax" = (match upper with Some _ => None | None => Some 1%Q end) /\
  f_num f !! "Sigmoid" = (if sig then Some 1%Q else None).
Proof.
  destruct lower as [d v]. unfold threshold, add. destruct upper as [u|], sig; rewrite !set_number_fld; (eexists; split; [reflexivity|]);
    unfold refs; cbn [f_num f_list f_type fst snd]; lk; rewrite ?lookup_empty; cbn [mbind option_bind]; rewrite field_ref_num; done.
Qed.
Lemma distance_nodes_eq nodes c fs : exists f, distance_nodes nodes c fs = (length fs, fs ++ [f]) /\ f_type f = "Distance" /\ refs f = [] /\
  f_list f !! "NodesList" = Some nodes.
Proof.
  unfold distance_nodes, add, set_coords. rewrite set_numbers_fld. destruct c as [[[fx fy] fz]|]; rewrite ?set_number_fld; (eexists; split; [reflexivity|]);
    unfold refs; cbn [f_num f_list f_type]; lk; rewrite ?lookup_empty; done.
Qed.
Lemma distance_edges_eq curves per c fs : exists f, distance_edges curves per c fs = (length fs, fs ++ [f]) /\ f_type f = "Distance" /\ refs f = [] /\
  f_list f !! "EdgesList" = Some curves /\ f_num f !! "NNodesByEdge" = Some per.
Proof.
  unfold distance_edges, add, set_coords. rewrite set_numbers_fld, set_number_fld. destruct c as [[[fx fy] fz]|]; rewrite ?set_number_fld; (eexists; split; [reflexivity|]);
    unfold refs; cbn [f_num f_list f_type]; lk; rewrite ?lookup_empty; done.
Qed.
End W.
