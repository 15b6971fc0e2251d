(** The objects written by write_model and the second call (brep_writer.py). *)
From Coq Require Import List Arith Bool ZArith QArith Lia.
From Verif Require Import Brep_Model Brep_Spec Brep_Proofs Brep_Read Brep_Run.
Import ListNotations.
Local Open Scope nat_scope.
Local Open Scope list_scope.

(** * Every numbered curve and surface belongs to a shape *)
Definition geo (c : cls) : Prop := c <> SH /\ c <> CL.
Lemma implicit_curve_grps e s s' : implicit_curve e s = Some s' -> grp s' = grp s.
Proof.
  unfold implicit_curve. destruct (get_shape s e); [|discriminate].
  destruct (subshapes s0) as [|a [|b [|]]]; try discriminate.
  destruct (point_of s a); [|discriminate]. destruct (point_of s b); [|discriminate].
  intros H. apply add_repr_grp in H. rewrite H. auto.
Qed.
Lemma attach_edge_grps sf d p s s' : attach_edge sf d p s = Some s' -> grp s' = grp s.
Proof.
  unfold attach_edge. destruct (get_shape s (snd p)) as [y|]; [|discriminate].
  destruct (subshapes y) as [|a [|b ?]]; try discriminate.
  destruct (ids s SH a); [|discriminate]. destruct (ids s SH b); [|discriminate].
  destruct (dict_get n d); [|discriminate]. destruct (dict_get n0 d); [|discriminate].
  intros H. apply add_repr_grp in H. rewrite H. auto.
Qed.
Lemma implicit_surface_grps o s s' : implicit_surface o s = Some s' -> grp s' = grp s.
Proof.
  unfold implicit_surface. intros H.
  destruct (get_shape s o) as [x|]; [|discriminate]. destruct (face_refs s x) as [refs|]; [|discriminate].
  destruct (mapo _ refs) as [keyed|]; [|discriminate]. destruct (mapo _ refs) as [walks|]; [|discriminate].
  destruct (mapo _ (concat walks)) as [vs|]; [|discriminate]. cbv zeta in H.
  destruct (negb _); [discriminate|]. destruct (mapo _ (odds (rotate vs))) as [pts|]; [|discriminate].
  destruct (patch pts) as [[g uvs]|]; [|discriminate].
  match type of H with foldo _ ?l ?t = _ => transitivity (grp t); [|auto]; revert H; generalize l, t end.
  intros l. induction l as [|p l IH]; intros t H; cbn [foldo] in H; [congruence|].
  destruct (attach_edge (length (h_s (hp s))) _ p t) as [t1|] eqn:A; [|discriminate].
  rewrite (IH _ H). eapply attach_edge_grps; eauto.
Qed.
Lemma loc_dfs_grps fuel : forall o s s', loc_dfs fuel o s = Some s' -> forall c, c <> CL -> grp s' c = grp s c.
Proof.
  induction fuel as [|fuel IH]; intros o s s' H c N; [discriminate|]. cbn in H.
  destruct (nth_error (h_loc (hp s)) o) as [[|m|l]|]; try discriminate.
  - injection H as <-. apply visit_grp_other; congruence.
  - injection H as <-. apply visit_grp_other; congruence.
  - destruct (foldo (fun p => loc_dfs fuel (fst p)) l s) as [s1|] eqn:F; [|discriminate]. injection H as <-.
    rewrite visit_grp_other by congruence. revert s F. induction l as [|p l IHl]; intros s F; cbn in F.
    + congruence.
    + destruct (loc_dfs fuel (fst p) s) as [s2|] eqn:F2; [|discriminate]. rewrite (IHl _ F). eauto.
Qed.
Lemma visit_in c o s c' p : In p (grp (visit c o s) c') -> In p (grp s c') \/ (c' = c /\ p = o).
Proof.
  unfold visit. destruct (ids s c o); auto. cbn. destruct (cls_eqb_spec c' c); auto. subst.
  rewrite in_app_iff. cbn. intuition.
Qed.

Section Used.
Variable D T : cls -> nat -> Prop.
Definition used (s : st) : Prop :=
  forall c o, geo c -> In o (grp s c) -> exists p x, D SH p /\ get_shape s p = Some x /\ In (c, o) (shape_refs x).
Lemma used_ext s s' : ext s s' -> used s ->
  (forall c o, geo c -> In o (grp s' c) -> In o (grp s c) \/
      exists p x, D SH p /\ get_shape s' p = Some x /\ In (c, o) (shape_refs x)) -> used s'.
Proof.
  intros E U H c o Gc Ho. destruct (H c o Gc Ho) as [Q|Q]; auto.
  destruct (U c o Gc Q) as (p & x & Dp & X & R).
  destruct (ext_shape _ _ _ _ E X) as (x' & X' & XX). exists p, x'. split; auto. split; auto.
  unfold shape_refs in *. rewrite (xe_childs _ _ XX). destruct (xe_repr _ _ XX) as [e Q2].
  rewrite Q2, flat_map_app, !in_app_iff in *. tauto.
Qed.
Lemma loc_used o s s' : dfs_loc o s = Some s' -> ext s s' -> used s -> used s'.
Proof.
  intros H E U. eapply used_ext; eauto. intros c p [N1 N2] Hp. left. unfold dfs_loc in H.
  rewrite (loc_dfs_grps _ _ _ _ H) in Hp; auto.
Qed.
Lemma visit_used c o s : used s -> (geo c -> exists p x, D SH p /\ get_shape s p = Some x /\ In (c, o) (shape_refs x)) ->
  used (visit c o s).
Proof.
  intros U H. eapply used_ext; [apply visit_ext|eauto|]. intros c' p Gc Hp.
  apply visit_in in Hp. destruct Hp as [Hp|[-> ->]]; auto. right.
  destruct (H Gc) as (q & x & a & b & d). exists q, x. split; auto. split; auto.
  unfold get_shape in *. rewrite visit_hp. auto.
Qed.
Lemma reprs_used o x rs : forall s s', foldo repr_dfs rs s = Some s' -> ok D T s -> D SH o ->
  get_shape s o = Some x -> (forall r, In r rs -> In r (s_repr x)) -> used s -> used s'.
Proof.
  induction rs as [|r rs IH]; intros s s' H K Do X Hr U; cbn [foldo] in H; [injection H as <-; auto|].
  destruct (repr_dfs r s) as [s1|] eqn:R; [|discriminate].
  assert (Rr : In r (s_repr x)) by (apply Hr; cbn; auto).
  assert (RD : forall c p, In (c, p) (repr_refs r) -> D c p /\ p < size c (hp s)).
  { intros c p Hp. eapply repr_D; eauto. }
  assert (RU : forall c p t, hp t = hp s -> In (c, p) (repr_refs r) ->
     exists q x, D SH q /\ get_shape t q = Some x /\ In (c, p) (shape_refs x)).
  { intros c p t Ht Hp. exists o, x. split; auto. split; [unfold get_shape in *; rewrite Ht; auto|].
    unfold shape_refs. apply in_app_iff. right. apply in_flat_map. eauto. }
  destruct (repr_dfs_spec D T r s s1 (fun _ => True) R K) as (K1 & E1 & C1 & H1 & _); auto.
  { intros p _ N. exfalso; auto. }
  apply (IH s1 s'); auto.
  { unfold get_shape in *. rewrite H1; auto. }
  { intros q Hq. apply Hr. cbn; auto. }
  clear IH H. destruct r; cbn [repr_dfs] in R; cbn in RD, RU.
  - eapply loc_used; eauto.
    + eapply (dfs_loc_spec D T _ _ _ (fun _ => True) R).
      * apply visit_ok; auto; try (apply RD; auto). cbn; tauto.
      * apply RD; auto.
      * intros p _ N. exfalso; auto.
    + apply visit_used; auto.
  - eapply loc_used; eauto.
    + eapply (dfs_loc_spec D T _ _ _ (fun _ => True) R).
      * apply visit_ok; auto; try (apply RD; auto); try (cbn; tauto).
        -- apply visit_ok; auto; try (apply RD; auto). cbn; tauto.
        -- rewrite visit_hp. apply RD; auto.
      * apply RD; auto.
      * intros p _ N. exfalso; auto.
    + apply visit_used; auto; [apply visit_used; auto|]. intros _. apply RU; auto. apply visit_hp.
  - injection R as <-; auto.
  - discriminate.
Qed.
Definition uses (f : nat -> st -> option st) : Prop :=
  forall o s s', f o s = Some s' -> ok D T s -> D SH o -> used s -> used s'.
Lemma same_grps s s' : ext s s' -> grp s' = grp s -> used s -> used s'.
Proof. intros E G U. eapply used_ext; eauto. rewrite G. auto. Qed.
Lemma childs_used f l : uses f -> spec_dfs D T f -> forall s s1,
  foldo (fun r s => match dfs_loc (r_loc r) s with Some s => f (r_shape r) s | None => None end) l s = Some s1 ->
  ok D T s -> (forall r, In r l -> D SH (r_shape r) /\ D CL (r_loc r)) -> used s -> used s1.
Proof.
  intros Uf F. induction l as [|r l IH]; intros s s1 H K DC U.
  - cbn in H. injection H as <-; auto.
  - cbn [foldo] in H. destruct (dfs_loc (r_loc r) s) as [s3|] eqn:G3; [|discriminate].
    destruct (f (r_shape r) s3) as [s2|] eqn:G; [|discriminate].
    destruct (DC r) as [DC1 DC2]; [cbn; auto|].
    destruct (dfs_loc_spec D T _ _ _ (fun _ => True) G3 K DC2) as (K3 & E3 & C3' & _).
    { intros p _ N. exfalso; auto. }
    destruct (F _ _ _ (fun _ => True) G K3 DC1 C3') as (K2 & E2 & C2' & _).
    apply (IH s2 s1 H K2). { intros q Hq. apply DC. cbn; auto. }
    eapply Uf; eauto. eapply loc_used; eauto.
Qed.
Lemma edges_used f l : uses f -> spec_dfs D T f -> forall s s', foldo f l s = Some s' -> ok D T s ->
  (forall o, In o l -> D SH o) -> used s -> used s' /\ ok D T s' /\ ext s s'.
Proof.
  intros Uf F. induction l as [|o l IH]; intros s s' H K Dl U; cbn [foldo] in H.
  - injection H as <-. split; auto. split; auto. apply ext_refl.
  - destruct (f o s) as [s1|] eqn:G; [|discriminate].
    assert (Do : D SH o) by (apply Dl; cbn; auto).
    destruct (F _ _ _ (fun _ => True) G K Do) as (K1 & E1 & _). { intros p _ N. exfalso; auto. }
    destruct (IH s1 s' H K1) as (U2 & K2 & E2). { intros p Hp. apply Dl; cbn; auto. } { eauto. }
    split; auto. split; auto. eapply ext_trans; eauto.
Qed.
Lemma dfs_used fuel : uses (dfs fuel).
Proof.
  induction fuel as [|fuel IH]; intros o s s' H K Hd U; [discriminate|]. cbn [dfs] in H.
  destruct (get_shape s o) as [x|] eqn:X; [|discriminate].
  destruct (shape_dfs (dfs fuel) o s) as [s1|] eqn:S1; [|discriminate].
  assert (CT : comp (fun _ => True) s) by (intros p _ N; exfalso; auto).
  destruct (shape_dfs_spec D T _ o x s s1 (fun _ => True) (dfs_spec D T fuel) S1 K Hd X CT) as (K1 & E1 & C1 & D1).
  assert (U1 : used s1).
  { unfold shape_dfs in S1. destruct (ids s SH o); [injection S1 as <-; auto|]. pose proof X as X0.
    unfold get_shape in X0. rewrite X0 in S1.
    match type of S1 with match ?m with _ => _ end = _ => destruct m as [s2|] eqn:F; [|discriminate] end.
    injection S1 as <-. apply visit_used; [|intros [N _]; congruence].
    eapply childs_used; eauto; [apply dfs_spec|]. intros r Hr. eapply (child_D D T s); eauto.
    }
  destruct (ext_shape _ _ _ _ E1 X) as (x1 & X1 & XX).
  destruct (s_kind x) eqn:Kx; try (injection H as <-; auto; fail).
  - (* face *)
    unfold face_dfs in H. rewrite X1 in H.
    match type of H with match ?m with _ => _ end = _ => destruct m as [s2|] eqn:M; [|discriminate] end.
    assert (Kx1 : s_kind x1 = Fa) by (rewrite (xe_kind _ _ XX); auto).
    assert (A : used s2 /\ ok D T s2 /\ ext s1 s2).
    { destruct (s_repr x1) eqn:Rx.
      - destruct (implicit_surface_spec D T o x1 s1 s2 (fun _ => True) M K1 Hd X1 Kx1 Rx) as (K2 & E2 & _).
        { intros p _ N. exfalso; auto. }
        split; auto. eapply same_grps; eauto. eapply implicit_surface_grps; eauto.
      - injection M as <-. split; auto. split; auto. apply ext_refl. }
    destruct A as (U2 & K2 & E2). destruct (get_shape s2 o) as [x2|] eqn:X2; [|discriminate].
    destruct (s_repr x2) as [|[| | |sf l] [|]] eqn:R2; try discriminate.
    destruct (dfs_loc l (visit CS sf s2)) as [s3|] eqn:DL; [|discriminate].
    assert (Rs : D CS sf /\ sf < size CS (hp s2)).
    { eapply (repr_D D T s2 o x2 (RF sf l)); eauto; rewrite ?R2; cbn; auto. }
    assert (Rl : D CL l /\ l < size CL (hp s2)).
    { eapply (repr_D D T s2 o x2 (RF sf l)); eauto; rewrite ?R2; cbn; auto. }
    destruct Rs as [Rs1 Rs2], Rl as [Rl1 Rl2].
    assert (Kv : ok D T (visit CS sf s2)) by (apply visit_ok; auto; cbn; tauto).
    destruct (dfs_loc_spec D T _ _ _ (fun _ => True) DL Kv Rl1) as (K3 & E3 & _ & H3 & _).
    { intros p _ N. exfalso; auto. }
    rewrite visit_hp in H3.
    assert (U3 : used s3).
    { eapply loc_used; eauto. apply visit_used; auto. intros _. exists o, x2. split; auto. split; auto.
      unfold shape_refs. rewrite R2. cbn. rewrite in_app_iff. cbn. auto. }
    assert (W : forall w, In w (subshapes x2) -> D SH w).
    { intros w Hw. unfold subshapes in Hw. apply in_map_iff in Hw. destruct Hw as (r & <- & Hr).
      eapply (child_D D T s2 o x2 r); eauto. }
    match type of H with foldo ?g _ _ = _ => set (g0 := g) in * end.
    clear - W H K3 U3 IH. revert s3 K3 U3 H. induction (subshapes x2) as [|w ws IHw]; intros s3 K3 U3 H; cbn [foldo] in H.
    + injection H as <-; auto.
    + destruct (g0 w s3) as [s4|] eqn:G; [|discriminate]. unfold g0 in G.
      destruct (get_shape s3 w) as [y|] eqn:Y; [|discriminate].
      destruct (edges_used (dfs fuel) _ IH (dfs_spec D T fuel) _ _ G K3) as (U4 & K4 & E4); auto.
      { intros e He. unfold subshapes in He. apply in_map_iff in He. destruct He as (r & <- & Hr).
        eapply (child_D D T s3 w y r); eauto. apply W. cbn; auto. }
      apply (IHw (fun v Hv => W v (or_intror Hv)) s4); auto.
  - (* edge *)
    unfold edge_dfs in H. rewrite X1 in H.
    match type of H with match ?m with _ => _ end = _ => destruct m as [s2|] eqn:M; [|discriminate] end.
    assert (Kx1 : s_kind x1 = Ed) by (rewrite (xe_kind _ _ XX); auto).
    assert (A : used s2 /\ ok D T s2 /\ ext s1 s2).
    { destruct (s_repr x1) eqn:Rx.
      - destruct (implicit_curve_spec D T o x1 s1 s2 (fun _ => True) M K1 Hd X1 Kx1) as (K2 & E2 & _).
        { intros p _ N. exfalso; auto. }
        split; auto. eapply same_grps; eauto. eapply implicit_curve_grps; eauto.
      - injection M as <-. split; auto. split; auto. apply ext_refl. }
    destruct A as (U2 & K2 & E2). destruct (get_shape s2 o) as [x2|] eqn:X2; [|discriminate].
    eapply (reprs_used o x2); eauto.
  - (* vertex *)
    assert (R1 : s_repr x1 = s_repr x).
    { apply (xe_fixed _ _ XX); [|right]; congruence. }
    rewrite <- R1 in H. eapply (reprs_used o x1); eauto.
Qed.
End Used.

(** * The numbered objects are those of the model *)
Lemma refs_ext h h' c o p : hext h h' -> In p (refs h c o) -> In p (refs h' c o).
Proof.
  intros E. destruct c; cbn; auto.
  - rewrite (he_loc _ _ E). auto.
  - destruct (nth_error (h_sh h) o) as [x|] eqn:X; [|intros []].
    destruct (he_sh _ _ E _ _ X) as (x' & -> & XX). unfold shape_refs.
    rewrite (xe_childs _ _ XX). destruct (xe_repr _ _ XX) as [e Q2].
    rewrite Q2, flat_map_app, !in_app_iff. tauto.
Qed.
Lemma reach_ext h h' c0 o0 c o : hext h h' -> reach h c0 o0 c o -> reach h' c0 o0 c o.
Proof.
  intros E R. induction R; [constructor|]. econstructor; eauto. eapply refs_ext; eauto.
Qed.
Lemma part_ext h h' root l c o : hext h h' -> part h root l c o -> part h' root l c o.
Proof. intros E [R|R]; [left|right]; eapply reach_ext; eauto. Qed.

Lemma covered s root l s1 : good s -> unwritten s root l -> index_all root l s = Some s1 ->
  forall c o, part (hp s1) root l c o ->
    model_region s root l c o /\ done s1 c o /\
    (is_ident (hp s1) c o \/ In o (grp s1 c)).
Proof.
  intros G U H. destruct (index_model s root l s1 G U H) as (K & C & E & Dr & Dl & _).
  assert (Q : forall c o, model_region s root l c o -> done s1 c o -> is_ident (hp s1) c o \/ In o (grp s1 c)).
  { intros c o Dm Dn. destruct (done_pos _ _ s1 c o (o_inv _ _ _ K) Dm Dn) as [A|(k & _ & Hk)].
    - left. eapply model_ident; eauto. apply (e_heap _ _ E).
    - right. eapply nth_error_In; eauto. }
  assert (Step : forall c o c' o', model_region s root l c o /\ done s1 c o -> In (c', o') (refs (hp s1) c o) ->
            model_region s root l c' o' /\ done s1 c' o').
  { intros c o c' o' [Dm Dn] Hi. split. { eapply (d_closed _ _ (o_region _ _ _ K)); eauto. }
    destruct (Q c o Dm Dn) as [[-> A]|A].
    { cbn in Hi. rewrite A in Hi. destruct Hi. }
    apply In_nth_error in A. destruct A as [j Hj]. destruct c; cbn in Hi; try tauto.
    - destruct (nth_error (h_loc (hp s1)) o) as [[| |ps]|] eqn:X; cbn in Hi; try tauto.
      apply in_map_iff in Hi. destruct Hi as (p & Qp & Hp). injection Qp as <- <-.
      destruct (i_comp _ _ _ (o_inv _ _ _ K) j o ps p Hj X Hp) as [A|(k & _ & Hk)].
      + destruct A as [_ A]. red. rewrite (g_ident _ (o_good _ _ _ K)); [congruence|].
        rewrite (he_loc _ _ (e_heap _ _ E)). auto.
      + destruct (i_grp _ _ _ (o_inv _ _ _ K) CL k _ Hk) as (_ & B & _). red. congruence.
    - destruct (nth_error (h_sh (hp s1)) o) as [x|] eqn:X; [|destruct Hi].
      unfold shape_refs in Hi. apply in_app_or in Hi. destruct Hi as [Hi|Hi].
      + apply in_flat_map in Hi. destruct Hi as (r & Hr & Hi).
        destruct (i_child _ _ _ (o_inv _ _ _ K) j o x r Hj X Hr) as [A B].
        destruct Hi as [Hi|[Hi|[]]]; injection Hi as <- <-; auto.
        destruct A as [[A _]|(k & _ & Hk)]; [discriminate|].
        destruct (i_grp _ _ _ (o_inv _ _ _ K) SH k _ Hk) as (_ & B' & _). red. congruence.
      + apply in_flat_map in Hi. destruct Hi as (r & Hr & Hi).
        apply nth_error_In in Hj. destruct (C o Hj (fun F => F) x X) as (CR & _). eapply CR; eauto. }
  assert (P : forall c o, part (hp s1) root l c o -> model_region s root l c o /\ done s1 c o).
  { intros c o [R|R]; induction R; eauto; split; auto.
    - left; left; constructor. - left; right; constructor. }
  intros c o Hp. destruct (P c o Hp) as [A B]. auto.
Qed.
Lemma numbered_part s root l s1 : good s -> unwritten s root l -> index_all root l s = Some s1 ->
  forall c o, In o (grp s1 c) -> part (hp s1) root l c o /\ ~ is_ident (hp s1) c o.
Proof.
  intros G U H c o Ho. destruct (index_model s root l s1 G U H) as (K & C & E & Dr & Dl & _).
  pose proof Ho as Hi. apply In_nth_error in Hi. destruct Hi as [j Hj].
  destruct (i_grp _ _ _ (o_inv _ _ _ K) c j o Hj) as (Dm & Hid & Al). split.
  2:{ intros [-> Q]. rewrite (g_ident _ (o_good _ _ _ K)) in Hid by auto. injection Hid. lia. }
  assert (Old : forall c o, model_region s root l c o -> o < size c (hp s) ->
             ~ is_ident (hp s) c o -> part (hp s1) root l c o).
  { intros c' o' [A|[A|A]] L N; [|tauto|lia]. eapply part_ext; [apply (e_heap _ _ E)|auto]. }
  assert (Nid : ~ is_ident (hp s) c o).
  { intros Q. apply (model_ident s root l s1 (e_heap _ _ E)) in Q; auto.
    destruct Q as [-> Q]. rewrite (g_ident _ (o_good _ _ _ K)) in Hid by auto. injection Hid. lia. }
  assert (Gc : geo c \/ ~ geo c) by (unfold geo; destruct c; intuition congruence).
  destruct Gc as [Gc|Gc].
  - assert (Us : used (model_region s root l) s1).
    { unfold index_all in H. fold (restart s) in H.
      destruct (dfs 8 root (restart s)) as [s2|] eqn:F; [|discriminate].
      pose proof (start_model s root l G U) as K0.
      assert (Dr' : model_region s root l SH root) by (left; left; constructor).
      assert (Dl' : model_region s root l CL l) by (left; right; constructor).
      destruct (dfs_spec _ _ 8 root _ _ (fun _ => False) F K0 Dr' (start_comp _ s)) as (K1 & E1 & C1 & Dn).
      destruct (dfs_loc_spec _ _ _ _ _ _ H K1 Dl' C1) as (K2 & E2 & _).
      apply (loc_used _ (is_ident (hp s)) l s2 s1 H E2). 
 apply (dfs_used _ _ 8 root (restart s) s2 F K0 Dr'). intros c' o' _ []. }
    destruct (Us c o Gc Ho) as (p & x & Dp & X & R).
    assert (Pp : part (hp s1) root l SH p).
    { apply Old; auto.
      - pose proof (he_len _ _ (e_heap _ _ E)) as Q. change (hp (restart s)) with (hp s) in Q.
        cbn. rewrite <- Q. eapply nth_some_lt; eauto.
      - intros [Q _]; discriminate. }
    destruct Pp as [Pp|Pp]; [left|right]; (econstructor; [eauto|]); cbn; unfold get_shape in X; rewrite X; auto.
  - apply Old; auto. unfold geo in Gc. assert (E' := e_heap _ _ E). change (hp (restart s)) with (hp s) in E'. destruct c; try (exfalso; apply Gc; split; congruence).
    + cbn in *. rewrite (he_loc _ _ E') in Al. auto.
    + cbn in *. rewrite (he_len _ _ E') in Al. auto.
Qed.
Lemma grp_nodup D T s c : ok D T s -> NoDup (grp s c).
Proof.
  intros K. apply NoDup_nth_error. intros i j Hi Q. destruct (lt_nth_some _ _ Hi) as [o Ho].
  rewrite Ho in Q. symmetry in Q. apply (i_grp _ _ _ (o_inv _ _ _ K)) in Ho, Q.
  destruct Ho as (_ & A & _), Q as (_ & B & _). rewrite A in B. injection B. lia.
Qed.

(** * Numbering a numbered model changes nothing *)
Section Again.
Variable s : st.
Variable P : cls -> nat -> Prop.
Hypothesis G : good s.
Hypothesis PC : forall c o c' o', P c o -> In (c', o') (refs (hp s) c o) -> P c' o'.
Hypothesis PD : forall c o, P c o -> done s c o.
Hypothesis PX : forall o x, P SH o -> get_shape s o = Some x ->
  (s_kind x = Ed -> s_repr x <> []) /\ (s_kind x = Fa -> exists sf l, s_repr x = [RF sf l]).
Lemma P_alloc c o : P c o -> o < size c (hp s).
Proof.
  intros H. destruct (le_lt_dec (size c (hp s)) o) as [L|L]; auto. exfalso.
  apply PD in H. apply H. apply (g_un _ G); auto.
Qed.
Lemma visit_again c o : P c o -> visit c o s = s.
Proof. intros H. apply PD in H. unfold visit, done in *. destruct (ids s c o); congruence. Qed.
Lemma foldo_again {A} (f : A -> st -> option st) l : (forall x, In x l -> f x s = Some s) -> foldo f l s = Some s.
Proof.
  induction l as [|x l IH]; intros H; cbn; auto. rewrite H by (cbn; auto). apply IH. intros; apply H; cbn; auto.
Qed.
Lemma loc_again fuel : forall o, P CL o -> o < fuel -> loc_dfs fuel o s = Some s.
Proof.
  induction fuel as [|fuel IH]; intros o Ho L; [lia|]. cbn.
  pose proof (P_alloc CL o Ho) as A. destruct (lt_nth_some _ _ A) as [x X]. rewrite X.
  destruct x as [|m|l].
  - rewrite visit_again; auto.
  - rewrite visit_again; auto.
  - rewrite foldo_again; [rewrite visit_again; auto|]. intros p Hp. apply IH.
    + apply (PC CL o); auto. cbn. rewrite X. apply in_map_iff. eauto.
    + pose proof (w_comp _ (g_wf _ G) _ _ _ X Hp). lia.
Qed.
Lemma dfs_loc_again o : P CL o -> dfs_loc o s = Some s.
Proof. intros H. apply loc_again; auto. pose proof (P_alloc _ _ H). cbn in *. lia. Qed.
Lemma repr_again o x r : P SH o -> get_shape s o = Some x -> In r (s_repr x) -> (forall sf l, r <> RF sf l) ->
  repr_dfs r s = Some s.
Proof.
  intros Ho X Hr N.
  assert (Q : forall c p, In (c, p) (repr_refs r) -> P c p).
  { intros c p Hp. apply (PC SH o); auto. cbn. unfold get_shape in X. rewrite X. unfold shape_refs.
    apply in_app_iff. right. apply in_flat_map. eauto. }
  destruct r; cbn [repr_dfs]; cbn in Q.
  - rewrite visit_again by auto. apply dfs_loc_again; auto.
  - rewrite visit_again by auto. rewrite visit_again by auto. apply dfs_loc_again; auto.
  - auto.
  - exfalso. eapply N; eauto.
Qed.
Lemma child_P o x r : P SH o -> get_shape s o = Some x -> In r (s_childs x) -> P SH (r_shape r).
Proof.
  intros Ho X Hr. apply (PC SH o); auto. cbn. unfold get_shape in X. rewrite X. unfold shape_refs.
  apply in_app_iff. left. apply in_flat_map. exists r. cbn. auto.
Qed.
Lemma dfs_again fuel : forall o x, P SH o -> get_shape s o = Some x -> rank (s_kind x) <= fuel -> dfs fuel o s = Some s.
Proof.
  induction fuel as [|fuel IH]; intros o x Ho X L; [destruct (s_kind x); cbn in L; lia|].
  cbn [dfs]. rewrite X. unfold shape_dfs. destruct (ids s SH o) as [i|] eqn:Q; [|exfalso; eapply PD; eauto].
  destruct (PX o x Ho X) as [PE PF]. pose proof (w_sh _ (g_wf _ G) _ _ X) as W.
  destruct (s_kind x) eqn:Kx; auto.
  - destruct (PF eq_refl) as (sf & l & R). unfold face_dfs. rewrite X, R, X, R.
    assert (Q' : forall c p, In (c, p) (repr_refs (RF sf l)) -> P c p).
    { intros c p Hp. apply (PC SH o); auto. cbn. unfold get_shape in X. rewrite X. unfold shape_refs.
      rewrite R. apply in_app_iff. right. cbn. cbn in Hp. tauto. }
    cbn in Q'. rewrite visit_again by auto. rewrite dfs_loc_again by auto.
    apply foldo_again. intros w Hw. unfold subshapes in Hw. apply in_map_iff in Hw. destruct Hw as (r & <- & Hr).
    destruct (wx_child _ _ W r Hr) as (y & Y & Sy & _). unfold get_shape. rewrite Y.
    assert (Pw : P SH (r_shape r)) by (eapply child_P; eauto).
    apply foldo_again. intros e He. unfold subshapes in He. apply in_map_iff in He. destruct He as (q & <- & Hq).
    destruct (wx_child _ _ (w_sh _ (g_wf _ G) _ _ Y) q Hq) as (z & Z & Sz & _).
    apply (IH _ z); auto. + eapply child_P; eauto. + apply sub_rank in Sy, Sz. rewrite Kx in Sy. cbn in *. lia.
  - unfold edge_dfs. rewrite X. specialize (PE eq_refl). destruct (s_repr x) as [|r0 rs] eqn:R; [congruence|].
    rewrite X, R. apply foldo_again. intros r Hr. rewrite <- R in Hr. eapply repr_again; eauto.
    intros sf l ->. destruct (wx_repr _ _ W _ Hr) as [RK _]. rewrite Kx in RK. destruct RK.
  - apply foldo_again. intros r Hr. eapply repr_again; eauto.
    intros sf l ->. destruct (wx_repr _ _ W _ Hr) as [RK _]. rewrite Kx in RK. destruct RK.
Qed.
End Again.
