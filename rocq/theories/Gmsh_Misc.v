(** Boundaries, small objects, restricted fields, rectangles. *)
From stdpp Require Import gmap strings list sorting.
From Coq Require Import ZArith QArith String Lia.
From Verif Require Import Gmsh_Model Gmsh_Spec Gmsh_Proofs Gmsh_Wf Gmsh_Split Gmsh_Frag Gmsh_Phys Field_Model Field_Spec Field_Proofs.
Local Open Scope nat_scope.
Local Notation length := List.length.

Definition by_default (t : dimtag) : dimtag * nat := (t, Z.to_nat (fst t)).
Lemma each_default bs s : Forall (fun t : dimtag => 0 <= fst t < 4)%Z bs ->
  each (fun dt : dimtag => default_region (fst dt)) bs s = (Ok (map snd (map by_default bs)), s).
Proof.
  induction 1 as [|t bs Ht F IH]; cbn [each map]; [done|]. erewrite bind_ok.
  2:{ unfold default_region. replace (_ && _)%bool with true by (symmetry; apply andb_true_iff; split; [apply Z.leb_le|apply Z.ltb_lt]; lia). reflexivity. }
  by rewrite (bind_ok _ _ _ _ _ IH).
Qed.
Section Misc.
Context (K : kernel).
Lemma boundary_eq s o l c bs : wf s -> contents s o = Some l -> k_boundary K (tick s) c (map fst l) = Some bs ->
  Forall (fun t : dimtag => 0 <= fst t < 4)%Z bs ->
  exists s', get_boundary K o c s = (Ok (length (sets s)), s') /\ grown s s' /\ contents s' (length (sets s)) = Some (map by_default bs) /\
    tick s' = S (tick s).
Proof.
  intros W E Eb F. destruct (contents_some s o l W E) as (x & Ex & Ett & Er & V). unfold get_boundary.
  rewrite (bind_ok _ _ _ _ _ (get_set_eq _ _ _ Ex)). erewrite bind_ok by reflexivity.
  change (if flag s then set_flag false (set_dirty false s) else s) with (snd (synchronize s)). set (s1 := snd (synchronize s)).
  pose proof (sync_fields s) as (F1 & F2 & F3). pose proof (sync_wf s W) as W1. fold s1 in F1, F2, F3, W1.
  assert (tick s1 = tick s /\ names s1 = names s /\ xys s1 = xys s) as (T1 & N1 & X1) by (unfold s1, synchronize; cbn; by destruct (flag s)).
  set (s2 := set_stale (stale s1 || dirty s1) (set_tick (S (tick s1)) s1)).
  assert (ask (fun k => k_boundary K k c (o_tags x)) s1 = (Ok bs, s2)) as EA.
  { unfold ask. rewrite T1, Ett, Eb. unfold s2. by rewrite T1. }
  rewrite (bind_ok _ _ _ _ _ EA), (bind_ok _ _ _ _ _ (each_default bs s2 F)).
  rewrite new_set_eq by (rewrite !map_length; done). change (sets s2) with (sets s1). rewrite F2.
  eexists. split; [reflexivity|]. split; [|split].
  - split; [|cbn; repeat (split; [done|]); by eexists].
    replace (sets s) with (sets s2) by (change (sets s2) with (sets s1); done). apply wf_app; [by apply (wf_ext s1)|by rewrite !map_length|].
    unfold valid. rewrite map_map. apply Forall_fmap. eapply Forall_impl; [exact F|]. cbn. intros t Ht. change (Z.to_nat t.1 < length (regs s1)). pose proof (w_def s1 W1). lia.
  - unfold contents. cbn. rewrite lookup_app_r by done. rewrite Nat.sub_diag. cbn. f_equal.
    replace bs with (map fst (map by_default bs)) at 1 by (rewrite map_map; cbn; apply map_id). apply combine_map.
  - change (S (tick s1) = S (tick s)). by rewrite T1.
Qed.
Lemma small_masses (mass : dimtag -> Q) ts : (forall n t, k_mass K n t = Some (mass t)) -> forall s,
  exists s', each (fun dt s => match k_mass K (tick s) dt with
                          | Some m => (Ok m, set_tick (S (tick s)) s)
                          | None => (Raise, set_tick (S (tick s)) s)
                          end) ts s = (Ok (map mass ts), s') /\ s' = set_tick (length ts + tick s) s.
Proof.
  intros H. induction ts as [|t ts IH]; intros s; cbn [each map].
  - exists s. split; [done|]. by destruct s.
  - destruct (IH (set_tick (S (tick s)) s)) as (s' & E & Es). exists s'. erewrite bind_ok by (rewrite H; reflexivity). rewrite (bind_ok _ _ _ _ _ E).
    split; [done|]. rewrite Es. cbn. by rewrite Nat.add_succ_r.
Qed.
Lemma keep_fst {A} (l : list (dimtag * nat)) (g : dimtag -> Q) lim (f : dimtag * nat -> A) :
  map fst (List.filter (fun p => negb (Qle_bool (snd p) lim)) (combine (map f l) (map g (map fst l)))) =
  map f (List.filter (fun p => negb (Qle_bool (g (fst p)) lim)) l).
Proof. induction l as [|p l IH]; cbn; [done|]. destruct (Qle_bool (g (fst p)) lim); cbn; by rewrite IH. Qed.
Lemma small_eq s o l lim mass : wf s -> contents s o = Some l -> (forall n t, k_mass K n t = Some (mass t)) ->
  exists s', remove_small_mass K o lim s = (Ok o, s') /\
    contents s' o = Some (List.filter (fun p => negb (Qle_bool (mass (fst p)) lim)) l) /\
    (forall q, q <> o -> contents s' q = contents s q) /\ regs s' = regs s /\ groups s' = groups s.
Proof.
  intros W E H. destruct (contents_some s o l W E) as (x & Ex & Ett & Er & V). unfold remove_small_mass.
  rewrite (bind_ok _ _ _ _ _ (get_set_eq _ _ _ Ex)), Ett.
  destruct (small_masses mass (map fst l) H s) as (s1 & E1 & ->). rewrite (bind_ok _ _ _ _ _ E1), Er.
  unfold put_set. erewrite bind_ok by reflexivity. eexists. split; [reflexivity|]. cbn [set_sets set_tick sets regs groups].
  split; [|split; [|done]].
  - unfold contents. cbn. rewrite list_lookup_insert by (by eapply lookup_lt_Some). rewrite !keep_fst. f_equal. apply combine_map.
  - intros q N. unfold contents. cbn. by rewrite list_lookup_insert_ne.
Qed.

(** ** restrict *)
Lemma grown_of_sync s : wf s -> grown s (snd (synchronize s)).
Proof.
  intros W. pose proof (sync_fields s) as (F1 & F2 & F3). split; [by apply sync_wf|]. unfold synchronize. cbn. destruct (flag s); repeat (split; [done|]); exists []; cbn; by rewrite app_nil_r.
Qed.
Lemma grown_all s s' os ls : grown s s' -> Forall2 (fun o l => contents s o = Some l) os ls -> Forall2 (fun o l => contents s' o = Some l) os ls.
Proof. intros G F. eapply Forall2_impl; [exact F|]. intros o l E. by eapply grown_contents. Qed.
Lemma tags_fields i f l0 l1 l2 l3 fs : i = length fs ->
  set_numbers i "RegionsList" l3 (set_numbers i "FacesList" l2 (set_numbers i "EdgesList" l1 (set_numbers i "VerticesList" l0
     (set_number i "IField" (num f) (fs ++ [Fld "Restrict" ∅ ∅]))))) =
  fs ++ [Fld "Restrict" {["IField" := num f]} (<["RegionsList" := l3]> (<["FacesList" := l2]> (<["EdgesList" := l1]> {["VerticesList" := l0]})))].
Proof. intros ->. by rewrite set_number_last, !set_numbers_last. Qed.
Lemma combine_len {A B} (a : list A) (b : list B) : length a = length b -> map fst (combine a b) = a.
Proof. revert b. induction a as [|x a IH]; intros [|y b] H; cbn in *; try done. f_equal. apply IH. lia. Qed.
Lemma restrict_tail s g l f fs : wf s -> contents s g = Some l -> dims_agree s l -> Forall (fun p : dimtag * nat => 0 <= fst (fst p) < 4)%Z l ->
  exists s', (ps <~ split_by_dimension g ; xs <~ each get_set ps ;
     match xs with
     | [points; edges; faces; volumes] =>
       let tags x := map snd (o_tags x) in
       let '(i, fs) := add "Restrict" fs in
       ret (Some i, set_numbers i "RegionsList" (tags volumes) (set_numbers i "FacesList" (tags faces)
                   (set_numbers i "EdgesList" (tags edges) (set_numbers i "VerticesList" (tags points) (set_number i "IField" (num f) fs)))))
     | _ => raise
     end) s = (Ok (Some (length fs), fs ++ [Fld "Restrict" {["IField" := num f]}
        (<["RegionsList" := map snd (map fst (with_dim 3 l))]> (<["FacesList" := map snd (map fst (with_dim 2 l))]>
        (<["EdgesList" := map snd (map fst (with_dim 1 l))]> {["VerticesList" := map snd (map fst (with_dim 0 l))]})))]), s').
Proof.
  intros W E D F. apply cdims_iff in D as [R' EC]. rewrite (bind_ok _ _ _ _ _ (split_by_dimension_eq s g l R' W E EC F)).
  set (X := map (fun d => Some (OSet (map fst (with_dim d l)) (map snd (with_dim d l)))) [0; 1; 2; 3]%Z).
  eexists. erewrite bind_ok.
  2:{ apply (each_get (seq (length (sets s)) 4) (map (fun d => OSet (map fst (with_dim d l)) (map snd (with_dim d l))) [0; 1; 2; 3]%Z)).
      assert (forall k y, X !! k = Some (Some y) -> (sets s ++ X) !! (k + length (sets s)) = Some (Some y)) as HX.
      { intros k y Ek. rewrite lookup_app_r by lia. by rewrite Nat.add_sub. }
      cbn [seq map]. 
      constructor; [by apply (HX 0)|]. constructor; [by apply (HX 1)|]. constructor; [by apply (HX 2)|]. constructor; [by apply (HX 3)|]. constructor. }
  cbn [map]. cbn zeta. unfold add. cbn [o_tags]. rewrite (tags_fields _ f _ _ _ _ fs eq_refl). reflexivity.
Qed.
Definition restrict_lists (f : nat) (l : list (dimtag * nat)) (r : option nat * store) (fs : store) : Prop :=
  exists F, r = (Some (length fs), fs ++ [F]) /\ f_type F = "Restrict" /\ f_num F !! "IField" = Some (num f) /\
    f_list F !! "VerticesList" = Some (map snd (map fst (with_dim 0 l))) /\ f_list F !! "EdgesList" = Some (map snd (map fst (with_dim 1 l))) /\
    f_list F !! "FacesList" = Some (map snd (map fst (with_dim 2 l))) /\ f_list F !! "RegionsList" = Some (map snd (map fst (with_dim 3 l))).
Lemma restrict_lists_of f l fs : restrict_lists f l (Some (length fs), fs ++ [Fld "Restrict" {["IField" := num f]}
        (<["RegionsList" := map snd (map fst (with_dim 3 l))]> (<["FacesList" := map snd (map fst (with_dim 2 l))]>
        (<["EdgesList" := map snd (map fst (with_dim 1 l))]> {["VerticesList" := map snd (map fst (with_dim 0 l))]})))]) fs.
Proof. eexists. split; [reflexivity|]. cbn [f_type f_num f_list]. unfold singletonM, map_singleton. lk. done. Qed.
Lemma restrict_eq s f os ls fs : wf s -> os <> [] -> Forall2 (fun o l => contents s o = Some l) os ls ->
  dims_agree s (List.concat ls) -> Forall (fun p : dimtag * nat => 0 <= fst (fst p) < 4)%Z (List.concat ls) ->
  exists r s', restrict K f os false fs s = (Ok r, s') /\ restrict_lists f (List.concat ls) r fs.
Proof.
  intros W Ne H D F. destruct os as [|o os]; [done|]. unfold restrict. erewrite bind_ok by reflexivity.
  change (if flag s then set_flag false (set_dirty false s) else s) with (snd (synchronize s)). set (s1 := snd (synchronize s)).
  pose proof (grown_of_sync s W) as G1. fold s1 in G1. pose proof (grown_all _ _ _ _ G1 H) as H1.
  destruct G1 as (W1 & R1 & _). destruct (group_grown s1 (o :: os) ls W1 H1) as (g & s2 & E2 & G2 & C2 & _). rewrite (bind_ok _ _ _ _ _ E2).
  erewrite bind_ok by reflexivity. destruct G2 as (W2 & R2 & _).
  destruct (restrict_tail s2 g (List.concat ls) f fs W2 C2) as (s3 & E3); [|done|].
  { unfold dims_agree, rdim in *. by rewrite R2, R1. }
  eexists _, s3. split; [exact E3|]. apply restrict_lists_of.
Qed.
Lemma restrict_boundary_eq s f os ls bs fs : wf s -> os <> [] -> Forall2 (fun o l => contents s o = Some l) os ls ->
  k_boundary K (tick s) false (map fst (List.concat ls)) = Some bs ->
  let l := List.concat ls ++ map by_default bs in
  dims_agree s l -> Forall (fun p : dimtag * nat => 0 <= fst (fst p) < 4)%Z l ->
  exists r s', restrict K f os true fs s = (Ok r, s') /\ restrict_lists f l r fs.
Proof.
  intros W Ne H Eb l D F. destruct os as [|o os]; [done|]. unfold restrict. erewrite bind_ok by reflexivity.
  change (if flag s then set_flag false (set_dirty false s) else s) with (snd (synchronize s)). set (s1 := snd (synchronize s)).
  pose proof (grown_of_sync s W) as G1. fold s1 in G1. pose proof (grown_all _ _ _ _ G1 H) as H1.
  assert (tick s1 = tick s) as T1 by (unfold s1, synchronize; cbn; by destruct (flag s)).
  destruct G1 as (W1 & R1 & _). destruct (group_grown s1 (o :: os) ls W1 H1) as (g & s2 & E2 & G2 & C2 & T2 & _). rewrite (bind_ok _ _ _ _ _ E2).
  destruct G2 as (W2 & R2 & _).
  assert (Forall (fun t : dimtag => 0 <= fst t < 4)%Z bs) as Fb.
  { unfold l in F. apply Forall_app in F as [_ F]. by apply Forall_fmap in F. }
  destruct (boundary_eq s2 g (List.concat ls) false bs W2 C2) as (s3 & E3 & G3 & C3 & T3); [by rewrite T2, T1|done|].
  pose proof (grown_contents _ _ _ _ G3 C2) as C2'. destruct G3 as (W3 & R3 & _).
  destruct (group_grown s3 [g; length (sets s2)] [List.concat ls; map by_default bs] W3) as (g4 & s4 & E4 & G4 & C4 & _).
  { constructor; [done|]. constructor; [done|]. constructor. }
  destruct G4 as (W4 & R4 & _). erewrite bind_ok. 2:{ rewrite (bind_ok _ _ _ _ _ E3). exact E4. }
  replace (List.concat [List.concat ls; map by_default bs]) with l in C4 by (unfold l; cbn; by rewrite app_nil_r).
  destruct (restrict_tail s4 g4 l f fs W4 C4) as (s5 & E5); [|done|].
  { unfold dims_agree, rdim in *. by rewrite R4, R3, R2, R1. }
  eexists _, s5. split; [exact E5|]. apply restrict_lists_of.
Qed.

(** ** rectangle *)
Lemma rectangle_ok s i a b c1 c2 c3 t : xys s !! i = Some [a; b] -> k_add K (tick s) = Some t ->
  exists s', rectangle K i [c1; c2; c3] s = (Ok (length (sets s)), s') /\ contents s' (length (sets s)) = Some [((2, t)%Z, 2)] /\
    rects s' = rects s ++ [[c1 - a / 2; c2 - b / 2; c3 - 0 / 2; a; b]%Q] /\ xys s' !! i = Some [a; b; 0%Q] /\ flag s' = true /\
    (forall q, q < length (sets s) -> contents s' q = contents s q).
Proof.
  intros E Et. unfold rectangle. rewrite E. cbn zeta. cbn [app length Nat.eqb andb].
  set (s1 := set_xys _ s). erewrite bind_ok by (apply change_eq; exact Et). erewrite bind_ok by reflexivity. unfold need. erewrite bind_ok by reflexivity.
  unfold object, default_region. cbn [Z.leb Z.ltb Z.compare andb]. erewrite bind_ok by reflexivity. eexists. split; [reflexivity|]. cbn.
  split; [|split; [done|split; [|split; [done|]]]].
  - unfold contents. cbn. rewrite lookup_app_r by done. by rewrite Nat.sub_diag.
  - rewrite list_lookup_insert; [done|]. by eapply lookup_lt_Some.
  - intros q Hq. unfold contents. cbn. by rewrite lookup_app_l.
Qed.
Lemma rectangle_bad s i l c : xys s !! i = Some l -> length l <> 2 -> fst (rectangle K i c s) = Raise.
Proof.
  intros E N. unfold rectangle. rewrite E. cbn zeta. destruct (_ && _)%bool eqn:B; [|done]. apply andb_true_iff in B as [_ B].
  apply Nat.eqb_eq in B. rewrite app_length in B. cbn in B. lia.
Qed.
End Misc.
