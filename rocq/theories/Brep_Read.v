(** The file written after the search can be read back. *)
From Coq Require Import List Arith Bool ZArith QArith Lia.
From Verif Require Import Brep_Model Brep_Spec Brep_Proofs.
Import ListNotations.
Local Open Scope nat_scope.
Local Open Scope list_scope.

Lemma mapo_total {A B} (f : A -> option B) l : (forall x, In x l -> exists y, f x = Some y) ->
  exists m, mapo f l = Some m.
Proof.
  induction l as [|x l IH]; intros H; cbn; [eauto|].
  destruct (H x) as [y Y]; [cbn; auto|]. rewrite Y.
  destruct IH as [m M]; [intros z Hz; apply H; cbn; auto|]. rewrite M. eauto.
Qed.
Lemma read_list_ok {A B} (f : A -> option B) l m : Forall2 (fun x y => f x = Some y) l m -> read_list f l = Some m.
Proof. induction 1 as [|x y l m F _ IH]; cbn; auto. rewrite F, IH. auto. Qed.
Lemma Forall2_nth {A B} (P : A -> B -> Prop) l m k x : Forall2 P l m -> nth_error l k = Some x ->
  exists y, nth_error m k = Some y /\ P x y.
Proof.
  intros F. revert k. induction F as [|a b l m Q _ IH]; intros [|k] H; cbn in *; try discriminate; eauto.
  injection H as <-. eauto.
Qed.
Lemma Forall2_nth_r {A B} (P : A -> B -> Prop) l m k y : Forall2 P l m -> nth_error m k = Some y ->
  exists x, nth_error l k = Some x /\ P x y.
Proof.
  intros F. revert k. induction F as [|a b l m Q _ IH]; intros [|k] H; cbn in *; try discriminate; eauto.
  injection H as <-. eauto.
Qed.
Lemma Forall2_length' {A B} (P : A -> B -> Prop) l m : Forall2 P l m -> length l = length m.
Proof. induction 1; cbn; auto. Qed.
Lemma read_all_ok {A B O} (f : list B -> A -> option B) (P : O -> B -> Prop) :
  forall (os : list O) (l : list A) pre tbl,
  Forall2 P pre tbl -> length os = length l ->
  (forall j o r tbl, nth_error os j = Some o -> nth_error l j = Some r ->
     Forall2 P (pre ++ firstn j os) tbl -> exists y, f tbl r = Some y /\ P o y) ->
  exists tbl', read_all f tbl l = Some tbl' /\ Forall2 P (pre ++ os) tbl'.
Proof.
  induction os as [|o os IH]; intros [|r l] pre tbl F L H; cbn in L; try discriminate.
  - cbn. exists tbl. rewrite app_nil_r. auto.
  - cbn. destruct (H 0 o r tbl) as (y & Y & Py); auto. { cbn. rewrite app_nil_r. auto. }
    rewrite Y. destruct (IH l (pre ++ [o]) (tbl ++ [y])) as (t' & T & FT).
    + apply Forall2_app; auto.
    + lia.
    + intros j o' r' tb H1 H2 H3. apply (H (S j)); auto. cbn. rewrite <- app_assoc in H3. auto.
    + exists t'. split; auto. rewrite <- app_assoc in FT. auto.
Qed.
Lemma nth_firstn_lt {A} (l : list A) j k x : k < j -> nth_error l k = Some x -> nth_error (firstn j l) k = Some x.
Proof.
  revert j k. induction l as [|y l IH]; intros [|j] [|k] L H; cbn in *; try discriminate; try lia; auto.
  apply IH; auto; lia.
Qed.

Lemma read_powers_cons tbl z p rest : read_powers tbl (z :: p :: rest) =
  if (z <=? 0)%Z then None
  else match find_loc tbl (Z.to_nat z), read_powers tbl rest with
       | Some t, Some l => Some ((t, p) :: l)
       | _, _ => None
       end.
Proof. reflexivity. Qed.

Section Reading.
Variable D T : cls -> nat -> Prop.
Variable s : st.
Hypothesis K : ok D T s.
Hypothesis TI : forall c o, D c o -> T c o -> is_ident (hp s) c o.
Hypothesis C : comp (fun _ => False) s.
(** No power of the identity is written. *)
Hypothesis NI : forall o l p, In o (grp s CL) -> nth_error (h_loc (hp s)) o = Some (LComp l) -> In p l ->
  nth_error (h_loc (hp s)) (fst p) <> Some LIdent.
Let n := length (grp s SH).
Let s' := flip_ids s.

Lemma flip_other c o : c <> SH -> ids s' c o = ids s c o.
Proof. intros N. unfold s', flip_ids. cbn. destruct (cls_eqb_spec c SH); [congruence|auto]. Qed.
Lemma flip_shape j o : nth_error (grp s SH) j = Some o -> ids s' SH o = Some (n - j).
Proof.
  intros H. unfold s', flip_ids. cbn.
  assert (X : existsb (Nat.eqb o) (grp s SH) = true).
  { apply existsb_exists. exists o. split; [eapply nth_error_In; eauto|apply Nat.eqb_refl]. }
  destruct (cls_eqb_spec SH SH); [|congruence]. rewrite X. cbn.
  destruct (i_grp _ _ _ (o_inv _ _ _ K) SH j o H) as (_ & Q & _). rewrite Q. cbn. unfold n. f_equal. lia.
Qed.

(** Positions of numbered objects. *)
Lemma pos c o : D c o -> done s c o -> is_ident (hp s) c o /\ ids s c o = Some 0 \/
  exists k, nth_error (grp s c) k = Some o /\ ids s c o = Some (S k).
Proof.
  intros Hd H. destruct (done_pos D T s c o (o_inv _ _ _ K) Hd H) as [A|(k & _ & A)].
  - apply TI in A; auto. left. split; auto. destruct A as [-> A]. apply (g_ident _ (o_good _ _ _ K)); auto.
  - right. exists k. split; auto. destruct (i_grp _ _ _ (o_inv _ _ _ K) c k o A) as (_ & Q & _).
    rewrite Q. f_equal. lia.
Qed.
Lemma grp_alloc c j o : nth_error (grp s c) j = Some o -> D c o /\ o < size c (hp s).
Proof. intros H. destruct (i_grp _ _ _ (o_inv _ _ _ K) c j o H) as (A & _ & B). auto. Qed.

(** ** Locations *)
Lemma out_loc_total : exists rs, mapo (out_loc s') (grp s CL) = Some rs.
Proof.
  apply mapo_total. intros o Ho. apply In_nth_error in Ho. destruct Ho as [j Hj].
  destruct (grp_alloc CL j o Hj) as [Hd L]. cbn in L. destruct (lt_nth_some _ _ L) as [x X].
  unfold out_loc. change (hp s') with (hp s). rewrite X.
  destruct x as [|m|l].
  - exfalso. destruct (i_grp _ _ _ (o_inv _ _ _ K) CL j o Hj) as (_ & Q & _).
    rewrite (g_ident _ (o_good _ _ _ K) o X) in Q. injection Q. lia.
  - eauto.
  - destruct (mapo_total (fun p => match ids s' CL (fst p) with Some i => Some [Z.of_nat i; snd p] | None => None end) l)
      as [t TT].
    + intros p Hp. rewrite flip_other by congruence.
      destruct (i_comp _ _ _ (o_inv _ _ _ K) j o l p Hj X Hp) as [I|(k & _ & I)].
      * apply TI in I; [destruct I as [_ I]|].
        2:{ apply (d_closed _ _ (o_region _ _ _ K) CL o); auto. cbn. rewrite X. apply in_map_iff. exists p; auto. }
        rewrite (g_ident _ (o_good _ _ _ K) _ I). eauto.
      * destruct (i_grp _ _ _ (o_inv _ _ _ K) CL k _ I) as (_ & Q & _). rewrite Q. eauto.
    + rewrite TT. eauto.
Qed.
Lemma read_locs_ok rs : mapo (out_loc s') (grp s CL) = Some rs ->
  exists ts, read_all read_loc [] rs = Some ts /\ Forall2 (loc_tree (hp s)) (grp s CL) ts.
Proof.
  intros H. apply mapo_spec in H.
  apply (read_all_ok read_loc (loc_tree (hp s)) (grp s CL) rs [] []); auto.
  - eapply Forall2_length'; eauto.
  - intros j o r tbl Ho Hr F. cbn in F.
    destruct (Forall2_nth _ _ _ _ _ H Ho) as (r' & R' & O). assert (r' = r) by congruence. subst r'.
    unfold out_loc in O. change (hp s') with (hp s) in O.
    destruct (nth_error (h_loc (hp s)) o) as [x|] eqn:X; [|discriminate].
    destruct x as [|m|l]; try discriminate.
    + injection O as <-. cbn. exists (TMat m). split; auto. constructor; auto.
    + match type of O with match mapo ?f l with _ => _ end = _ => destruct (mapo f l) as [t|] eqn:M; [|discriminate] end.
      injection O as <-. apply mapo_spec in M.
      assert (A : exists l', read_powers tbl (concat t ++ [0%Z]) = Some l' /\
                  Forall2 (fun p q => loc_tree (hp s) (fst p) (fst q) /\ snd p = snd q) l l').
      { assert (B : forall p, In p l -> exists k, k < j /\ nth_error (grp s CL) k = Some (fst p)).
        { intros p Hp. destruct (i_comp _ _ _ (o_inv _ _ _ K) j o l p Ho X Hp) as [I|I]; auto.
          apply TI in I; [destruct I as [_ I]|].
          2:{ apply (d_closed _ _ (o_region _ _ _ K) CL o); [apply (grp_alloc CL j o Ho)|]. cbn. rewrite X.
              apply in_map_iff. exists p; auto. }
          exfalso. eapply NI; eauto. eapply nth_error_In; eauto. }
        clear X Hr R' H. induction M as [|p q l t Q _ IH].
        - cbn. exists []. split; auto.
        - destruct IH as (l' & L' & F'). { intros x Hx. apply B. cbn; auto. }
          destruct (B p) as (k & Kj & Kn); [cbn; auto|].
          rewrite flip_other in Q by congruence.
          destruct (i_grp _ _ _ (o_inv _ _ _ K) CL k _ Kn) as (_ & Q' & _). rewrite Q' in Q. injection Q as <-.
          destruct (Forall2_nth _ _ _ _ _ F (nth_firstn_lt _ _ _ _ Kj Kn)) as (tp & TP & LT).
          cbn [concat app]. remember (Z.of_nat (k + 1)) as z.
          rewrite read_powers_cons.
          assert (Zp : (z <=? 0)%Z = false) by (apply Z.leb_gt; lia). rewrite Zp.
          replace (Z.to_nat z) with (S k) by lia. cbn [find_loc]. rewrite TP, L'.
          exists ((tp, snd p) :: l'). split; auto. }
      destruct A as (l' & A1 & A2). exists (TComp l'). cbn. rewrite A1. split; auto.
      eapply LT_comp; eauto.
Qed.

Section Tables.
Variable f : file.
Variable locs : list ltree.
Hypothesis FL : Forall2 (loc_tree (hp s)) (grp s CL) locs.
Hypothesis F2 : Forall2 (fun o g => nth_error (h_c2 (hp s)) o = Some g) (grp s C2) (f_c2 f).
Hypothesis F3 : Forall2 (fun o g => nth_error (h_c3 (hp s)) o = Some g) (grp s C3) (f_c3 f).
Hypothesis FS : Forall2 (fun o g => nth_error (h_s (hp s)) o = Some g) (grp s CS) (f_surfs f).
Hypothesis FN : length (f_shapes f) = n.

Lemma find_loc_ok o : D CL o -> done s CL o ->
  exists i t, ids s' CL o = Some i /\ find_loc locs i = Some t /\ loc_tree (hp s) o t.
Proof.
  intros Hd H. rewrite flip_other by congruence. destruct (pos CL o Hd H) as [[[_ A] B]|(k & A & B)].
  - exists 0, TId. split; auto. split; auto. constructor; auto.
  - destruct (Forall2_nth _ _ _ _ _ FL A) as (t & TT & LT). exists (S k), t. auto.
Qed.
Lemma find_c2_ok o : D C2 o -> done s C2 o ->
  exists i g, ids s' C2 o = Some i /\ find_rec (f_c2 f) i = Some g /\ nth_error (h_c2 (hp s)) o = Some g.
Proof.
  intros Hd H. rewrite flip_other by congruence. destruct (pos C2 o Hd H) as [[[Q _] _]|(k & A & B)]; [discriminate|].
  destruct (Forall2_nth _ _ _ _ _ F2 A) as (t & TT & LT). exists (S k), t. auto.
Qed.
Lemma find_c3_ok o : D C3 o -> done s C3 o ->
  exists i g, ids s' C3 o = Some i /\ find_rec (f_c3 f) i = Some g /\ nth_error (h_c3 (hp s)) o = Some g.
Proof.
  intros Hd H. rewrite flip_other by congruence. destruct (pos C3 o Hd H) as [[[Q _] _]|(k & A & B)]; [discriminate|].
  destruct (Forall2_nth _ _ _ _ _ F3 A) as (t & TT & LT). exists (S k), t. auto.
Qed.
Lemma find_s_ok o : D CS o -> done s CS o ->
  exists i g, ids s' CS o = Some i /\ find_rec (f_surfs f) i = Some g /\ nth_error (h_s (hp s)) o = Some g.
Proof.
  intros Hd H. rewrite flip_other by congruence. destruct (pos CS o Hd H) as [[[Q _] _]|(k & A & B)]; [discriminate|].
  destruct (Forall2_nth _ _ _ _ _ FS A) as (t & TT & LT). exists (S k), t. auto.
Qed.
Lemma repr_ok r : (forall c o, In (c, o) (repr_refs r) -> D c o /\ done s c o) ->
  match r with R2 _ _ _ _ _ | R3 _ _ _ _ => True | _ => False end ->
  exists e t, out_repr s' r = Some [e] /\ read_repr f locs e = Some t /\ repr_tree (hp s) r [t].
Proof.
  intros H Q. destruct r as [t0 t1 c l|t0 t1 c sf l| |]; try tauto.
  - destruct (H C3 c) as [a b]; [cbn; auto|]. destruct (H CL l) as [a' b']; [cbn; auto|].
    destruct (find_c3_ok c a b) as (i & g & I1 & I2 & I3).
    destruct (find_loc_ok l a' b') as (i' & t & J1 & J2 & J3).
    unfold out_repr. rewrite I1, J1. eexists _, _. split; eauto. cbn. rewrite I2, J2. split; eauto.
    constructor; auto.
  - destruct (H C2 c) as [a b]; [cbn; auto|]. destruct (H CL l) as [a' b']; [cbn; auto|].
    destruct (H CS sf) as [a'' b'']; [cbn; auto|].
    destruct (find_c2_ok c a b) as (i & g & I1 & I2 & I3).
    destruct (find_loc_ok l a' b') as (i' & t & J1 & J2 & J3).
    destruct (find_s_ok sf a'' b'') as (i'' & g' & L1 & L2' & L3).
    unfold out_repr. rewrite I1, J1, L1. eexists _, _. split; eauto. cbn. rewrite I2, J2, L2'. split; eauto.
    constructor; auto.
Qed.
Lemma reprs_ok l : (forall r, In r l -> (forall c o, In (c, o) (repr_refs r) -> D c o /\ done s c o) /\
    match r with R2 _ _ _ _ _ | R3 _ _ _ _ => True | _ => False end) ->
  exists es ts, mapo (out_repr s') l = Some es /\ read_list (read_repr f locs) (concat es) = Some (concat ts) /\
    Forall2 (repr_tree (hp s)) l ts.
Proof.
  induction l as [|r l IH]; intros H.
  - exists [], []. cbn. auto.
  - destruct IH as (es & ts & A & B & F). { intros q Hq. apply H; cbn; auto. }
    destruct (H r) as [H1 H2]; [cbn; auto|].
    destruct (repr_ok r H1 H2) as (e & t & O & Rd & TR).
    exists ([e] :: es), ([t] :: ts). cbn [mapo]. rewrite O, A. split; auto. cbn. rewrite Rd, B. auto.
Qed.

(** ** One shape *)
Lemma shape_ok j o x tbl : nth_error (grp s SH) j = Some o -> get_shape s o = Some x ->
  Forall2 (shape_tree (hp s)) (firstn j (grp s SH)) tbl ->
  exists r t, out_shape s' o = Some r /\ read_shape f locs tbl r = Some t /\ shape_tree (hp s) o t.
Proof.
  intros Hj X Ft.
  assert (Hin : In o (grp s SH)) by (eapply nth_error_In; eauto).
  destruct (grp_alloc SH j o Hj) as [Hd L].
  destruct (C o Hin (fun F => F) x X) as (CR & CE & CF).
  assert (W := shape_wf D T s o x K X).
  assert (SUB : exists sub t, out_sub s' x = Some sub /\ read_sub f locs sub = Some t /\ sub_tree (hp s) x t).
  { unfold out_sub. destruct (s_kind x) eqn:Kx;
      try (exists SubNone, TNone; repeat split; auto; constructor; congruence).
    - destruct (CF eq_refl) as (sf & l & R). rewrite R.
      assert (Q : forall c p, In (c, p) (repr_refs (RF sf l)) -> D c p /\ done s c p).
      { intros c p Hp. split; [eapply (repr_D D T s o x (RF sf l)); eauto; rewrite R; cbn; auto|].
        eapply CR; eauto. rewrite R; cbn; auto. }
      destruct (Q CS sf) as [a b]; [cbn; auto|]. destruct (Q CL l) as [a' b']; [cbn; auto|].
      destruct (find_loc_ok l a' b') as (i' & t & J1 & J2 & J3).
      destruct (find_s_ok sf a b) as (i & g & L1 & L2' & L3).
      rewrite J1, L1. eexists _, _. split; eauto. cbn. rewrite L2', J2. split; eauto.
      eapply ST_f; eauto.
    - assert (RN := CE eq_refl).
      destruct (reprs_ok (s_repr x)) as (es & ts & A & B & F).
      { intros r Hr. split.
        - intros c p Hp. split; [eapply (repr_D D T s o x r); eauto|]. eapply CR; eauto.
        - destruct (wx_repr _ _ W r Hr) as [RK _]. rewrite Kx in RK. destruct r; cbn in RK; auto. }
      destruct (s_repr x) as [|r rs] eqn:R; [congruence|]. rewrite A.
      eexists _, _. split; eauto. cbn. rewrite B. cbn. split; eauto. rewrite <- R in *.
      apply ST_e; auto.
    - eexists _, _. split; eauto. cbn. split; eauto. apply ST_v; auto. }
  assert (CH : exists cs ts, mapo (out_ref s') (s_childs x) = Some cs /\
             read_list (read_child f locs tbl) cs = Some ts /\
             Forall2 (fun r c => r_or r = fst (fst c) /\ shape_tree (hp s) (r_shape r) (snd (fst c)) /\
                          loc_tree (hp s) (r_loc r) (snd c)) (s_childs x) ts).
  { assert (A : forall r, In r (s_childs x) ->
       (exists k, k < j /\ nth_error (grp s SH) k = Some (r_shape r)) /\ done s CL (r_loc r) /\ D CL (r_loc r)).
    { intros r Hr. destruct (i_child _ _ _ (o_inv _ _ _ K) j o x r Hj X Hr) as [[a|a] b].
      - exfalso. apply TI in a; [destruct a; discriminate|]. apply (child_D D T s o x r); auto.
      - split; auto. split; auto. apply (child_D D T s o x r); auto. }
    clear X W CR CE CF SUB. induction (s_childs x) as [|r l IH].
    - exists [], []. cbn. auto.
    - destruct IH as (cs & ts & A1 & A2 & A3). { intros q Hq. apply A. cbn; auto. }
      destruct (A r) as ((k & Kj & Kn) & B & B'); [cbn; auto|].
      destruct (find_loc_ok _ B' B) as (i & t & J1 & J2 & J3).
      destruct (Forall2_nth _ _ _ _ _ Ft (nth_firstn_lt _ _ _ _ Kj Kn)) as (tp & TP & LT).
      exists ((r_or r, n - k, i) :: cs), ((r_or r, tp, t) :: ts). cbn [mapo].
      unfold out_ref at 1. rewrite (flip_shape k _ Kn), J1, A1. split; auto. cbn [read_list read_child].
      assert (Kl : k < n) by (unfold n; eapply nth_some_lt; eauto).
      unfold find_shape. rewrite FN.
      replace ((1 <=? n - k) && (n - k <=? n)) with true.
      2:{ symmetry. apply andb_true_iff. split; apply Nat.leb_le; lia. }
      replace (n - (n - k)) with k by lia. rewrite TP, J2, A2. split; auto. }
  destruct SUB as (sub & t & S1 & S2 & S3). destruct CH as (cs & ts & C1 & C2' & C3').
  unfold out_shape. change (get_shape s' o) with (get_shape s o). rewrite X, S1, C1.
  eexists _, _. split; eauto. unfold read_shape. cbn. rewrite S2, C2'. split; eauto.
  econstructor; eauto.
Qed.
End Tables.

Lemma geo_total c tb : (forall j o, nth_error (grp s c) j = Some o -> o < length tb) ->
  exists m, mapo (nth_error (A := geom) tb) (grp s c) = Some m.
Proof.
  intros H. apply mapo_total. intros o Ho. apply In_nth_error in Ho. destruct Ho as [j Hj].
  apply lt_nth_some. eapply H; eauto.
Qed.

Variable root : nat.
Hypothesis LAST : n > 0 /\ nth_error (grp s SH) (n - 1) = Some root.

Lemma file_ok : exists a b c d e,
  mapo (out_loc s') (grp s CL) = Some a /\ mapo (nth_error (h_c2 (hp s))) (grp s C2) = Some b /\
  mapo (nth_error (h_c3 (hp s))) (grp s C3) = Some c /\ mapo (nth_error (h_s (hp s))) (grp s CS) = Some d /\
  mapo (out_shape s') (grp s SH) = Some e /\
  exists t, read (File a b c d e) = Some t /\ shape_tree (hp s) root t.
Proof.
  destruct out_loc_total as [a A].
  destruct (geo_total C2 (h_c2 (hp s))) as [b B]. { intros j o Hj. apply (grp_alloc C2 j o Hj). }
  destruct (geo_total C3 (h_c3 (hp s))) as [c C']. { intros j o Hj. apply (grp_alloc C3 j o Hj). }
  destruct (geo_total CS (h_s (hp s))) as [d D']. { intros j o Hj. apply (grp_alloc CS j o Hj). }
  destruct (read_locs_ok a A) as (locs & RL & FL).
  assert (SO : forall F j o x tbl, f_c2 F = b -> f_c3 F = c -> f_surfs F = d -> length (f_shapes F) = n ->
    nth_error (grp s SH) j = Some o -> get_shape s o = Some x ->
    Forall2 (shape_tree (hp s)) (firstn j (grp s SH)) tbl ->
    exists r t, out_shape s' o = Some r /\ read_shape F locs tbl r = Some t /\ shape_tree (hp s) o t).
  { intros F j o x tbl <- <- <- LF. apply (shape_ok F locs FL); auto; apply mapo_spec; auto. }
  assert (E : exists e, mapo (out_shape s') (grp s SH) = Some e).
  { (* induction over the order of writing gives the trees *)
    apply mapo_total. intros o Ho. apply In_nth_error in Ho. destruct Ho as [j Hj].
    assert (G : forall m, m <= n -> exists tbl, Forall2 (shape_tree (hp s)) (firstn m (grp s SH)) tbl).
    { induction m as [|m IH]; intros Lm.
      - exists []. cbn. constructor.
      - destruct IH as [tbl TT]; [lia|]. unfold n in Lm.
        destruct (lt_nth_some (grp s SH) m) as [p P]; [lia|].
        destruct (grp_alloc SH m p P) as [_ Lp]. destruct (lt_nth_some (h_sh (hp s)) p Lp) as [x X].
        destruct (SO (File a b c d (repeat (SRec Co SubNone [] []) n)) m p x tbl)
          as (r & t & _ & _ & ST); auto.
        { cbn. apply repeat_length. }
        exists (tbl ++ [t]).
        replace (firstn (S m) (grp s SH)) with (firstn m (grp s SH) ++ [p]).
        + apply Forall2_app; auto.
        + clear - P. revert m P. induction (grp s SH) as [|y l IH]; intros [|m] P; cbn in *; try discriminate.
          * congruence.
          * f_equal. auto. }
    assert (Lj : j < n) by (unfold n; eapply nth_some_lt; eauto).
    destruct (G j) as [tbl TT]; [lia|].
    destruct (grp_alloc SH j o Hj) as [_ Lp]. destruct (lt_nth_some (h_sh (hp s)) o Lp) as [x X].
    destruct (SO (File a b c d (repeat (SRec Co SubNone [] []) n)) j o x tbl)
          as (r & t & O & _ & ST); auto.
    { cbn. apply repeat_length. }
    eauto. }
  destruct E as [e E]. exists a, b, c, d, e. do 5 (split; auto).
  set (F := File a b c d e).
  assert (LE : length e = n).
  { pose proof (mapo_spec _ _ _ E) as Q. apply Forall2_length' in Q. unfold n. auto. }
  destruct (read_all_ok (read_shape F locs) (shape_tree (hp s)) (grp s SH) e [] []) as (tbl & RT & FT); auto.
  { intros j o r tbl Ho Hr Ft. cbn in Ft.
    destruct (grp_alloc SH j o Ho) as [_ Lp]. destruct (lt_nth_some (h_sh (hp s)) o Lp) as [x X].
    destruct (SO F j o x tbl) as (r' & t & O & Rd & ST); auto.
    assert (r' = r).
    { destruct (Forall2_nth _ _ _ _ _ (mapo_spec _ _ _ E) Ho) as (r'' & R'' & O''). cbn in O''. congruence. }
    subst. eauto. }
  cbn in FT. destruct LAST as [N0 LR].
  destruct (Forall2_nth _ _ _ _ _ FT LR) as (t & TT & ST).
  exists t. split; auto. unfold read. change (f_locs F) with a. rewrite RL.
  change (f_shapes F) with e. rewrite RT. unfold find_shape. change (f_shapes F) with e. rewrite LE.
  replace ((1 <=? 1) && (1 <=? n)) with true; auto.
  symmetry. apply andb_true_iff. split; apply Nat.leb_le; lia.
Qed.
End Reading.
