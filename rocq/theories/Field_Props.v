(** Properties C55 and C70-C72 (field.py, options.py). *)
From stdpp Require Import gmap strings list.
From Coq Require Import ZArith QArith String Lia.
From Verif Require Import Gmsh_Model Gmsh_Spec Gmsh_Proofs Gmsh_Wf Gmsh_Split Gmsh_Frag Gmsh_Misc Gmsh_Props Field_Model Field_Spec Field_Proofs.
Local Open Scope nat_scope.
Local Notation length := List.length.

(** Stores made by calls of the functions of field.py, with fields that exist as arguments. *)
Inductive built : store -> Prop :=
  | B_none : built []
  | B_nodes l c fs : built fs -> built (snd (distance_nodes l c fs))
  | B_edges l q c fs : built fs -> built (snd (distance_edges l q c fs))
  | B_threshold j lo up sg fs : built fs -> j < length fs -> built (snd (threshold j lo up sg fs))
  | B_min l fs : built fs -> Forall (fun j => j < length fs) l -> built (snd (min_field l fs))
  | B_max l fs : built fs -> Forall (fun j => j < length fs) l -> built (snd (max_field l fs))
  | B_box a b v w fs : built fs -> built (snd (box a b v w fs))
  | B_constant v r fs : built fs -> built (snd (constant v r fs))
  | B_restrict K j os b fs s i fs' s' : built fs -> j < length fs -> restrict K j os b fs s = (Ok (i, fs'), s') -> built fs'.
(** The store after restrict. *)
Lemma restrict_store K j os b fs s i fs' s' : restrict K j os b fs s = (Ok (i, fs'), s') ->
  fs' = fs \/ exists f, fs' = fs ++ [f] /\ refs f = [j].
Proof.
  unfold restrict. destruct os as [|o os]; [intros [= <- <- <-]; by left|]. intros E. right.
  repeat (unfold bind at 1 in E; match type of E with context [match ?m with (_, _) => _ end] => destruct m as [[?|] ?]; [|done] end).
  do 4 (match type of E with context [match ?l with [] => _ | _ :: _ => _ end] => is_var l; destruct l; [done|] end).
  match type of E with context [match ?l with [] => _ | _ :: _ => _ end] => is_var l; destruct l; [|done] end.
  unfold add in E. rewrite tags_fields in E by done. injection E as <- <- <-. eexists. split; [reflexivity|].
  unfold refs. cbn [f_num f_list]. unfold singletonM, map_singleton. lk. rewrite lookup_empty. cbn [mbind option_bind]. by rewrite field_ref_num.
Qed.
Lemma built_refs fs : built fs -> refs_ok fs.
Proof.
  induction 1 as [|l c fs B IH|l q c fs B IH|j lo up sg fs B IH Hj|l fs B IH Hl|l fs B IH Hl|a b v w fs B IH|v r fs B IH|K j os b fs s i fs' s' B IH Hj E].
  - intros i f j E. by destruct i.
  - destruct (distance_nodes_eq l c fs) as (f & -> & _ & Rf & _). apply refs_ok_snoc; [done|]. rewrite Rf. intros j Hj. by apply elem_of_nil in Hj.
  - destruct (distance_edges_eq l q c fs) as (f & -> & _ & Rf & _). apply refs_ok_snoc; [done|]. rewrite Rf. intros j Hj. by apply elem_of_nil in Hj.
  - destruct (threshold_eq j lo up sg fs) as (f & -> & Rf & _). apply refs_ok_snoc; [done|]. rewrite Rf. intros k Hk. by apply elem_of_list_singleton in Hk as ->.
  - rewrite (list_field_eq min_field "Min" l fs eq_refl). apply refs_ok_snoc; [done|]. rewrite refs_list. by apply Forall_forall.
  - rewrite (list_field_eq max_field "Max" l fs eq_refl). apply refs_ok_snoc; [done|]. rewrite refs_list. by apply Forall_forall.
  - destruct (box_eq (fun _ _ => 0%Q) a b v w fs) as (f & -> & Rf & _). apply refs_ok_snoc; [done|]. rewrite Rf. intros j Hj. by apply elem_of_nil in Hj.
  - unfold constant. destruct (box_eq (fun _ _ => 0%Q) (- r, - r, - r)%Q (r, r, r) v huge fs) as (f & -> & Rf & _). apply refs_ok_snoc; [done|]. rewrite Rf. intros j Hj. by apply elem_of_nil in Hj.
  - destruct (restrict_store _ _ _ _ _ _ _ _ _ E) as [-> |(f & -> & Rf)]; [done|]. apply refs_ok_snoc; [done|]. rewrite Rf. intros k Hk. by apply elem_of_list_singleton in Hk as ->.
Qed.

Section Fields.
Context (dist : field -> Q * Q * Q -> Q).
Local Notation value := (value_at dist).

(** ** C55 *)
Lemma threshold_value j lo up sg fs p d : refs_ok fs -> value fs j p = Some d ->
  let r := threshold j lo up sg fs in
  value (snd r) (fst r) p = (if Qle_bool d (fst lo) then Some (snd lo) else match up with Some _ => Some (snd lo) | None => None end).
Proof.
  intros R E r. unfold r. destruct (threshold_eq j lo up sg fs) as (f & -> & _ & Ht & Hi & H1 & H2 & H3 & H4 & _). cbn [fst snd].
  assert (j < length fs) as Hj. { unfold value_at in E. cbn in E. destruct (fs !! j) eqn:X; [by eapply lookup_lt_Some|done]. }
  unfold value_at. cbn [value_in]. rewrite last_field, Ht. cbn [String.eqb Ascii.eqb Bool.eqb]. rewrite Hi. cbn [mbind option_bind]. rewrite field_ref_num, H1, H2.
  rewrite value_deep by done. rewrite E. destruct (Qle_bool d (fst lo)) eqn:B; [done|]. rewrite H3, H4. destruct up; [|done].
  destruct (Qle_bool (fst lo) d) eqn:B'; [done|]. exfalso.
  assert (d <= fst lo \/ fst lo <= d)%Q as [X|X] by (destruct (Qlt_le_dec d (fst lo)); [left; by apply Qlt_le_weak|by right]); apply Qle_bool_iff in X; congruence.
Qed.
(** With any upper bound the field has the value of the lower bound everywhere. *)
Theorem C55_constant j lo up sg fs p d : built fs -> value fs j p = Some d ->
  let r := threshold j lo (Some up) sg fs in value (snd r) (fst r) p = Some (snd lo).
Proof. intros B E r. unfold r. rewrite (threshold_value j lo (Some up) sg fs p d (built_refs _ B) E). by destruct (Qle_bool d (fst lo)). Qed.
(** Without an upper bound the value is right up to the lower bound. *)
Theorem C55_lower j lo up sg fs p d : built fs -> value fs j p = Some d -> (d <= fst lo)%Q ->
  let r := threshold j lo up sg fs in value (snd r) (fst r) p = Some (snd lo).
Proof. intros B E L r. unfold r. rewrite (threshold_value j lo up sg fs p d (built_refs _ B) E). apply Qle_bool_iff in L. by rewrite L. Qed.
(** So the ramp of the docstring holds just where it has the value of the lower bound. *)
Theorem C55_ramp j lo up fs p d : built fs -> value fs j p = Some d ->
  let r := threshold j lo (Some up) false fs in
  value (snd r) (fst r) p = Some (ramp lo up d) <-> ramp lo up d = snd lo.
Proof. intros B E r. unfold r. rewrite (C55_constant j lo up false fs p d B E). split; [by intros [= ->]|by intros ->]. Qed.

(** ** C70 *)
(** box has v_in in the box and v_out elsewhere. *)
Theorem C70_box a b v w fs p : let r := box a b v w fs in value (snd r) (fst r) p = Some (if inside a b p then v else w).
Proof. intros r. unfold r. destruct (box_eq dist a b v w fs) as (f & -> & _ & H). apply H. Qed.
(** constant has the value at points with coordinates up to the radius and 1e300 elsewhere. *)
Theorem C70_constant v r fs x y z : let f := constant v r fs in
  value (snd f) (fst f) (x, y, z) = Some (if inside (- r, - r, - r)%Q (r, r, r) (x, y, z) then v else inject_Z (10 ^ 300)).
Proof. apply (C70_box (- r, - r, - r)%Q (r, r, r) v huge fs (x, y, z)). Qed.
(** min and max of fields with known values. *)
Theorem C70_min l fs vs v p : built fs -> Forall2 (fun i v => value fs i p = Some v) l (v :: vs) ->
  let r := min_field l fs in exists w, value (snd r) (fst r) p = Some w /\ w ∈ v :: vs /\ Forall (fun u => w <= u)%Q (v :: vs).
Proof. intros B F r. unfold r. rewrite (min_eq dist l fs (v :: vs) p (built_refs _ B) F). apply least_spec. Qed.
Theorem C70_max l fs vs v p : built fs -> Forall2 (fun i v => value fs i p = Some v) l (v :: vs) ->
  let r := max_field l fs in exists w, value (snd r) (fst r) p = Some w /\ w ∈ v :: vs /\ Forall (fun u => u <= w)%Q (v :: vs).
Proof. intros B F r. unfold r. rewrite (max_eq dist l fs (v :: vs) p (built_refs _ B) F). apply greatest_spec. Qed.
(** A new field gets a new number and leaves the value of all others. *)
Lemma keeps_value fs f i p : built fs -> i < length fs -> value (fs ++ [f]) i p = value fs i p.
Proof. intros B H. apply value_old; [by apply built_refs|done]. Qed.
Theorem C70_others fs i p : built fs -> i < length fs ->
  (forall a b v w, fst (box a b v w fs) = length fs /\ value (snd (box a b v w fs)) i p = value fs i p) /\
  (forall v r, fst (constant v r fs) = length fs /\ value (snd (constant v r fs)) i p = value fs i p) /\
  (forall l, fst (min_field l fs) = length fs /\ value (snd (min_field l fs)) i p = value fs i p) /\
  (forall l, fst (max_field l fs) = length fs /\ value (snd (max_field l fs)) i p = value fs i p) /\
  (forall j lo up sg, fst (threshold j lo up sg fs) = length fs /\ value (snd (threshold j lo up sg fs)) i p = value fs i p) /\
  (forall l c, fst (distance_nodes l c fs) = length fs /\ value (snd (distance_nodes l c fs)) i p = value fs i p) /\
  (forall l q c, fst (distance_edges l q c fs) = length fs /\ value (snd (distance_edges l q c fs)) i p = value fs i p) /\
  (forall K j os b s n fs' s', restrict K j os b fs s = (Ok (n, fs'), s') -> value fs' i p = value fs i p).
Proof.
  intros B H. pose proof (fun f => keeps_value fs f i p B H) as X. split; [|split; [|split; [|split; [|split; [|split; [|split]]]]]].
  - intros a b v w. destruct (box_eq dist a b v w fs) as (f & -> & _). by split; [|apply X].
  - intros v r. unfold constant. destruct (box_eq dist (- r, - r, - r)%Q (r, r, r) v huge fs) as (f & -> & _). by split; [|apply X].
  - intros l. rewrite (list_field_eq min_field "Min" l fs eq_refl). by split; [|apply X].
  - intros l. rewrite (list_field_eq max_field "Max" l fs eq_refl). by split; [|apply X].
  - intros j lo up sg. destruct (threshold_eq j lo up sg fs) as (f & -> & _). by split; [|apply X].
  - intros l c. destruct (distance_nodes_eq l c fs) as (f & -> & _). by split; [|apply X].
  - intros l q c. destruct (distance_edges_eq l q c fs) as (f & -> & _). by split; [|apply X].
  - intros K j os b s n fs' s' E. destruct (restrict_store _ _ _ _ _ _ _ _ _ E) as [-> |(f & -> & _)]; [done|apply X].
Qed.
End Fields.
(** A field with the value x in (0, 10), by a distance that is the first coordinate. *)
Definition first_coord (f : field) (p : Q * Q * Q) : Q := let '(x, _, _) := p in x.
Definition one_distance : store := snd (distance_nodes [1%Z] None []).
Theorem C55_refuted : built one_distance /\
  let r := threshold 0 (0, 1)%Q (Some (10, 5)%Q) false one_distance in
  value_at first_coord one_distance 0 (5, 0, 0)%Q = Some 5%Q /\ value_at first_coord (snd r) (fst r) (5, 0, 0)%Q = Some 1%Q /\
  (ramp (0, 1) (10, 5) 5 == 3)%Q.
Proof. split; [apply B_nodes, B_none|]. vm_compute. repeat split. Qed.
Example C55_case : let r := threshold 0 (2, 1)%Q None false one_distance in
  value_at first_coord (snd r) (fst r) (1, 0, 0)%Q = Some 1%Q.
Proof. vm_compute. done. Qed.
Example C70_case :
  let fs := snd (box (0, 0, 0)%Q (2, 2, 2)%Q 3 7 one_distance) in
  built fs /\ value_at first_coord fs 0 (1, 1, 1)%Q = Some 1%Q /\ value_at first_coord fs 1 (1, 1, 1)%Q = Some 3%Q /\
  value_at first_coord (snd (min_field [0; 1] fs)) 2 (1, 1, 1)%Q = Some 1%Q /\ value_at first_coord (snd (max_field [0; 1] fs)) 2 (9, 1, 1)%Q = Some 9%Q /\
  value_at first_coord fs 1 (9, 1, 1)%Q = Some 7%Q.
Proof. split; [apply B_box, B_nodes, B_none|]. vm_compute. repeat split. Qed.

(** ** C71 *)
(** restrict lists the tags of the objects of the sets by dimension. *)
Theorem C71_restrict K s f os ls fs : reached K s -> os <> [] -> Forall2 (fun o l => contents s o = Some l) os ls ->
  dims_agree s (List.concat ls) -> Forall (fun p : dimtag * nat => 0 <= fst (fst p) < 4)%Z (List.concat ls) ->
  exists F s', restrict K f os false fs s = (Ok (Some (length fs), fs ++ [F]), s') /\ f_type F = "Restrict"%string /\ f_num F !! "IField"%string = Some (num f) /\
    forall d k, (d, k) ∈ [(0%Z, "VerticesList"); (1%Z, "EdgesList"); (2%Z, "FacesList"); (3%Z, "RegionsList")]%string ->
      f_list F !! k = Some (map snd (map fst (with_dim d (List.concat ls)))).
Proof.
  intros R Ne H D A. destruct (restrict_eq K s f os ls fs (reached_wf K s R) Ne H D A) as (r & s' & E & F & -> & H1 & H2 & H3 & H4 & H5 & H6).
  exists F, s'. do 3 (split; [done|]). intros d k Hk. repeat (apply elem_of_cons in Hk as [[= -> ->]|Hk]; [done|]). by apply elem_of_nil in Hk.
Qed.
(** The same with the boundary, for which the kernel is asked. *)
Theorem C71_boundary K s f os ls bs fs : reached K s -> os <> [] -> Forall2 (fun o l => contents s o = Some l) os ls ->
  k_boundary K (tick s) false (map fst (List.concat ls)) = Some bs ->
  let l := List.concat ls ++ map (fun t : dimtag => (t, Z.to_nat (fst t))) bs in
  dims_agree s l -> Forall (fun p : dimtag * nat => 0 <= fst (fst p) < 4)%Z l ->
  exists F s', restrict K f os true fs s = (Ok (Some (length fs), fs ++ [F]), s') /\ f_type F = "Restrict"%string /\ f_num F !! "IField"%string = Some (num f) /\
    forall d k, (d, k) ∈ [(0%Z, "VerticesList"); (1%Z, "EdgesList"); (2%Z, "FacesList"); (3%Z, "RegionsList")]%string ->
      f_list F !! k = Some (map snd (map fst (with_dim d l))).
Proof.
  intros R Ne H Eb l D A. destruct (restrict_boundary_eq K s f os ls bs fs (reached_wf K s R) Ne H Eb D A) as (r & s' & E & F & -> & H1 & H2 & H3 & H4 & H5 & H6).
  exists F, s'. do 3 (split; [done|]). intros d k Hk. repeat (apply elem_of_cons in Hk as [[= -> ->]|Hk]; [done|]). by apply elem_of_nil in Hk.
Qed.
Example C71_case : let r := fst (restrict K0 0 [0; 1] true one_distance (run K0 three init)) in
  match r with
  | Ok (Some 1, fs) => match fs !! 1 with
      | Some F => f_list F !! "RegionsList"%string = Some [1]%Z /\ f_list F !! "FacesList"%string = Some [2; 51]%Z /\ f_list F !! "EdgesList"%string = Some [52]%Z
      | None => False end
  | _ => False
  end.
Proof. vm_compute. repeat split. Qed.

(** ** C72 *)
(** An assignment to an option after finish_init works just for a defined name and a value that fits; then exactly the
    option prefix + name is set. *)
Theorem C72_assign o key v g : o_done o = true ->
  (forall g', setattr o key v g = (o, Some g') <-> exists k x, o_names o !! key = Some k /\ fits k v /\ sent v = Some x /\ g' = <[(o_prefix o ++ key)%string := x]> g) /\
  (setattr o key v g = (o, None) <-> ~ exists k, o_names o !! key = Some k /\ fits k v).
Proof.
  intros D. unfold setattr. rewrite D. unfold instance_setattr. destruct (o_names o !! key) as [k|] eqn:E.
  2:{ split; [intros g'; split; [done|intros (k & x & X & _); done]|]. split; [intros _ (k & X & _); done|done]. }
  destruct v as [k' q|u|k'|k']; cbn [fits sent].
  - destruct (numeric k) eqn:N.
    + assert (k = KInt \/ k = KFloat \/ k = KBool \/ k = KEnum) as F by (destruct k; auto; done). split; [intros g'; split|].
      * intros [= <-]. by exists k, (SNum q).
      * intros (k1 & x & [= <-] & _ & [= <-] & ->). done.
      * split; [done|]. intros X. exfalso. apply X. by exists k.
    + assert (~ (k = KInt \/ k = KFloat \/ k = KBool \/ k = KEnum)) as F by (intros [-> |[-> |[-> | ->]]]; done). split; [intros g'; split; [done|]|].
      * intros (k1 & x & [= <-] & X & _). done.
      * split; [|done]. intros _ (k1 & [= <-] & X). done.
  - destruct k; (split; [intros g'; split|split]); try done; try (intros [= <-]; by exists KStr, (SStr u)); try (intros (k1 & x & [= <-] & X & Y & ->); by try injection Y as <-);
      try (intros _ (k1 & [= <-] & X); done); try (intros X; exfalso; apply X; by exists KStr).
  - split; [intros g'; split; [by destruct k|]|split; [|by destruct k]]; [by intros (k1 & x & _ & [] & _)|by intros _ (k1 & _ & [])].
  - split; [intros g'; split; [by destruct k|]|split; [|by destruct k]]; [by intros (k1 & x & _ & [] & _)|by intros _ (k1 & _ & [])].
Qed.
(** Assignments change no option with another prefix. *)
Theorem C72_prefix o l g n : (forall key, n <> (o_prefix o ++ key)%string) -> snd (assign o l g) !! n = g !! n.
Proof.
  revert o g. induction l as [|[key v] l IH]; intros o g H; cbn [assign]; [done|]. destruct (setattr o key v g) as [o' g'] eqn:E.
  assert (forall o1 g1, instance_setattr o1 key v g = Some g1 -> o_prefix o1 = o_prefix o -> g1 !! n = g !! n) as I.
  { intros o1 g1 X P. unfold instance_setattr in X. destruct (o_names o1 !! key) as [k|]; [|done].
    destruct v; try done; [destruct (numeric k)|destruct k]; try done; injection X as <-; rewrite P; rewrite lookup_insert_ne; [done|apply not_eq_sym, H | done|apply not_eq_sym, H]. }
  unfold setattr in E. assert (o_prefix o' = o_prefix o /\ default g g' !! n = g !! n) as [P G].
  { destruct (o_done o); injection E as <- <-; split; try done.
    - destruct (instance_setattr o key v g) eqn:X; [by apply (I o)|done].
    - destruct v; try done; match goal with |- default g ?m !! n = _ => destruct m eqn:X; [by eapply I|done] end. }
  rewrite IH; [done|]. by rewrite P.
Qed.
(** An option of an enumeration takes every number, member or not. *)
Theorem C72_enum_refuted : exists o q, o = finish_init (fst (setattr (new_options "Mesh.") "Algorithm" (VNum KEnum 2) ∅)) /\ ~ (q == 2)%Q /\
  snd (setattr o "Algorithm" (VNum KFloat q) ∅) = Some {["Mesh.Algorithm"%string := SNum q]}.
Proof. eexists _, (1 # 2)%Q. split; [reflexivity|]. split; [by vm_compute|]. vm_compute. done. Qed.
Example C72_case :
  let '(o, g) := assign (new_options "Mesh.") [("AnisoMax", VNum KFloat 1); ("Name", VStr "a")]%string ∅ in
  let '(o', g') := assign (finish_init o) [("AnisoMax", VStr "x"); ("Name", VStr "b"); ("Other", VNum KInt 1)]%string g in
  g' !! "Mesh.Name"%string = Some (SStr "b") /\ g' !! "Mesh.AnisoMax"%string = Some (SNum 1) /\ g' !! "Mesh.Other"%string = None.
Proof. vm_compute. repeat split. Qed.

Print Assumptions C55_constant.
Print Assumptions C55_lower.
Print Assumptions C55_ramp.
Print Assumptions C55_refuted.
Print Assumptions C70_box.
Print Assumptions C70_constant.
Print Assumptions C70_min.
Print Assumptions C70_max.
Print Assumptions C70_others.
Print Assumptions C71_restrict.
Print Assumptions C71_boundary.
Print Assumptions C72_assign.
Print Assumptions C72_prefix.
Print Assumptions C72_enum_refuted.
