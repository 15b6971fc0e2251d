(** Default geometry after write_model and conditions for its success (brep_writer.py). *)
From Coq Require Import List Arith Bool ZArith QArith Lia.
From Verif Require Import Brep_Model Brep_Spec Brep_Proofs Brep_Read Brep_Run Brep_Write Brep_Default.
Import ListNotations.
Local Open Scope nat_scope.
Local Open Scope list_scope.

Section Pass.
Variable D T : cls -> nat -> Prop.
Hypothesis NT : forall o, D SH o -> ~ T SH o.
(** The heap before the call. *)
Variable h0 : heap.
Definition line_or (E : nat -> Prop) (s : st) (e : nat) : Prop :=
  forall x0 x, nth_error (h_sh h0) e = Some x0 -> get_shape s e = Some x -> s_kind x0 = Ed -> s_repr x0 = [] -> D SH e ->
    ((E e \/ ids s SH e = None) /\ s_repr x = []) \/ has_line (hp s) x.
Definition patch_or (s : st) (o : nat) : Prop :=
  forall x0 x, nth_error (h_sh h0) o = Some x0 -> get_shape s o = Some x -> s_kind x0 = Fa -> s_repr x0 = [] ->
    s_repr x = [] \/ has_patch (hp s) x.
Record dflt (E : nat -> Prop) (s : st) : Prop := {
  df_from : hext h0 (hp s);
  df_line : forall e, line_or E s e; df_patch : forall o, patch_or s o }.

Lemma dflt_weaken (E F : nat -> Prop) s : (forall o, E o -> F o) -> dflt E s -> dflt F s.
Proof.
  intros H [a b c]. constructor; auto. intros e x0 x X0 X K R De.
  destruct (b e x0 x X0 X K R De) as [[[Q|Q] P]|Q]; auto.
Qed.
Lemma dflt_same E s s' : hp s' = hp s -> (forall o, ids s' SH o = ids s SH o) -> dflt E s -> dflt E s'.
Proof.
  intros H I [a b c]. constructor; [rewrite H; auto| |].
  - intros e x0 x X0 X K R De. unfold get_shape in X. rewrite H in *. rewrite I. eapply (b e); eauto.
  - intros e x0 x X0 X K R. unfold get_shape in X. rewrite H in *. eapply (c e); eauto.
Qed.
Lemma visit_ids_other c o s p : c <> SH -> ids (visit c o s) SH p = ids s SH p.
Proof.
  intros N. unfold visit. destruct (ids s c o); auto. cbn. destruct (cls_eqb_spec SH c); [congruence|auto].
Qed.
Lemma visit_dflt c o s E : c <> SH -> dflt E s -> dflt E (visit c o s).
Proof. intros N. apply dflt_same; [apply visit_hp|]. intros p. apply visit_ids_other; auto. Qed.
Lemma visit_sh_dflt o s : dflt (fun _ => False) s -> dflt (fun p => p = o) (visit SH o s).
Proof.
  intros [a b c]. constructor; [rewrite visit_hp; auto| |].
  - intros e x0 x X0 X K R De. unfold get_shape in X. rewrite visit_hp in *.
    destruct (b e x0 x X0 X K R De) as [[[[]|Q] P]|Q]; auto. left. split; auto.
    destruct (Nat.eq_dec e o) as [->|N]; auto. right. unfold visit. destruct (ids s SH o); auto. cbn.
    destruct (Nat.eqb_spec e o); [congruence|]. rewrite andb_false_r. auto.
  - intros e x0 x X0 X K R. unfold get_shape in X. rewrite visit_hp in *. eapply (c e); eauto.
Qed.
Lemma loc_ids fuel : forall o s s', loc_dfs fuel o s = Some s' -> hp s' = hp s /\ forall p, ids s' SH p = ids s SH p.
Proof.
  induction fuel as [|fuel IH]; intros o s s' H; [discriminate|]. cbn in H.
  destruct (nth_error (h_loc (hp s)) o) as [[|m|l]|]; try discriminate.
  - injection H as <-. split; [apply visit_hp|]. intros p. apply visit_ids_other; congruence.
  - injection H as <-. split; [apply visit_hp|]. intros p. apply visit_ids_other; congruence.
  - destruct (foldo (fun p => loc_dfs fuel (fst p)) l s) as [s1|] eqn:F; [|discriminate]. injection H as <-.
    assert (A : hp s1 = hp s /\ forall p, ids s1 SH p = ids s SH p).
    { revert s F. induction l as [|p l IHl]; intros s F; cbn in F.
      - injection F as <-. auto.
      - destruct (loc_dfs fuel (fst p) s) as [s2|] eqn:F2; [|discriminate].
        destruct (IHl _ F) as [a b]. destruct (IH _ _ _ F2) as [c d]. split; [congruence|].
        intros q. rewrite b, d. auto. }
    destruct A as [A B]. rewrite visit_hp. split; auto. intros p. rewrite visit_ids_other by congruence. auto.
Qed.
Lemma loc_dflt E o s s' : dfs_loc o s = Some s' -> dflt E s -> dflt E s'.
Proof. intros H. apply loc_ids in H. destruct H. apply dflt_same; auto. Qed.
Lemma repr_dflt E r s s' : repr_dfs r s = Some s' -> dflt E s -> dflt E s'.
Proof.
  destruct r; cbn [repr_dfs]; intros H K.
  - eapply loc_dflt; eauto. apply visit_dflt; auto; congruence.
  - eapply loc_dflt; eauto. apply visit_dflt; [congruence|]. apply visit_dflt; auto; congruence.
  - injection H as <-; auto.
  - discriminate.
Qed.
Lemma reprs_dflt E rs : forall s s', foldo repr_dfs rs s = Some s' -> dflt E s -> dflt E s'.
Proof.
  induction rs as [|r rs IH]; intros s s' H K; cbn [foldo] in H; [injection H as <-; auto|].
  destruct (repr_dfs r s) as [s1|] eqn:R; [|discriminate]. eapply IH; eauto. eapply repr_dflt; eauto.
Qed.

Lemma implicit_curve_dflt o x s s' : implicit_curve o s = Some s' -> ok D T s -> D SH o ->
  get_shape s o = Some x -> s_kind x = Ed -> dflt (fun p => p = o) s -> dflt (fun _ => False) s'.
Proof.
  intros H K Hd X Kx [a b c].
  destruct (implicit_curve_spec D T o x s s' (fun _ => True) H K Hd X Kx) as (K1 & E1 & _).
  { intros p _ N; exfalso; auto. }
  unfold implicit_curve in H. rewrite X in H.
  destruct (subshapes x) as [|va [|vb [|]]] eqn:Sx; try discriminate.
  destruct (point_of s va) as [pa|] eqn:PA; [|discriminate]. destruct (point_of s vb) as [pb|] eqn:PB; [|discriminate].
  unfold add_repr in H.
  change (get_shape (new_c3 (Line3 pa pb) s) o) with (get_shape s o) in H. rewrite X in H. injection H as H.
  assert (L : o < length (h_sh (hp s))) by (eapply nth_some_lt; eauto).
  assert (Xo : get_shape s' o = Some (with_repr (s_repr x ++ [R3 0 1 (length (h_c3 (hp s))) 0]) x)).
  { rewrite <- H. unfold get_shape. cbn. apply update_same; auto. }
  assert (Xp : forall p, p <> o -> get_shape s' p = get_shape s p).
  { intros p Np. rewrite <- H. unfold get_shape. cbn. apply update_other; auto. }
  assert (I : ids s' = ids s) by (rewrite <- H; auto).
  assert (P : forall v p, point_of s v = Some p -> point_at (hp s) v p).
  { intros v p Hp. unfold point_of, get_shape in Hp. destruct (nth_error (h_sh (hp s)) v) as [y|] eqn:Y; [|discriminate].
    exists y. destruct (s_kind y) eqn:Ky; try discriminate. injection Hp as <-. auto. }
  assert (EH := e_heap _ _ E1).
  constructor.
  - eapply hext_trans; eauto.
  - intros e x0 x1 X0 X1 Ke Re De. destruct (Nat.eq_dec e o) as [->|N].
    + right. rewrite Xo in X1. injection X1 as <-. exists va, vb, pa, pb, (length (h_c3 (hp s))).
      split; auto. split; [eapply point_at_ext; eauto|]. split; [eapply point_at_ext; eauto|].
      split; [cbn; apply in_or_app; cbn; auto|]. rewrite <- H. cbn. apply nth_snoc_new.
    + rewrite Xp in X1 by auto. rewrite I.
      destruct (b e x0 x1 X0 X1 Ke Re De) as [[[Q|Q] P']|Q]; [congruence|auto|].
      right. eapply has_line_ext; eauto. apply xext_refl.
  - intros p x0 x1 X0 X1 Ke Re. destruct (Nat.eq_dec p o) as [->|N].
    + exfalso. destruct (he_sh _ _ a _ _ X0) as (x2 & X2 & XX). unfold get_shape in X.
      assert (x2 = x) by congruence. subst. pose proof (xe_kind _ _ XX). congruence.
    + rewrite Xp in X1 by auto.
      destruct (c p x0 x1 X0 X1 Ke Re) as [Q|Q]; [auto|].
      right. apply (has_patch_ext (hp s) _ x1 x1); auto; [apply xext_refl|].
      destruct (he_sh _ _ a _ _ X0) as (x2 & X2 & XX). unfold get_shape in X1.
      assert (x2 = x1) by congruence. subst. pose proof (xe_kind _ _ XX). congruence.
Qed.
Lemma implicit_surface_dflt o x s s' : implicit_surface o s = Some s' -> ok D T s -> D SH o ->
  get_shape s o = Some x -> s_kind x = Fa -> s_repr x = [] -> dflt (fun _ => False) s -> dflt (fun _ => False) s'.
Proof.
  intros H K Hd X Kx Rx [a b c].
  destruct (implicit_surface_spec D T o x s s' (fun _ => True) H K Hd X Kx Rx) as (K1 & E1 & _).
  { intros p _ N; exfalso; auto. }
  destruct (implicit_surface_l D T NT o x s s' H K Hd X Kx) as (sf & es & L).
  destruct (L Rx) as (I & EO & ED & Xo & Xp & HP). assert (EH := e_heap _ _ E1).
  constructor.
  - eapply hext_trans; eauto.
  - intros e x0 x1 X0 X1 Ke Re De. rewrite I.
    destruct (he_sh _ _ a _ _ X0) as (x2 & X2 & XX).
    destruct (he_sh _ _ EH _ _ X2) as (x3 & X3 & XX2). unfold get_shape in X1.
    assert (x3 = x1) by congruence. subst x3.
    destruct (b e x0 x2 X0 X2 Ke Re De) as [[[[]|Q] P']|Q]; [|right; eapply has_line_ext; eauto].
    left. split; auto. assert (e <> o).
    { intros ->. unfold get_shape in X. assert (x2 = x) by congruence. subst. pose proof (xe_kind _ _ XX). congruence. }
    assert (Ne : ~ In e (map r_shape es)).
    { intros He. apply in_map_iff in He. destruct He as (r & <- & Hr). apply ED in Hr. congruence. }
    specialize (Xp e H0 Ne). unfold get_shape in Xp. congruence.
  - intros p x0 x1 X0 X1 Ke Re. destruct (Nat.eq_dec p o) as [->|N].
    + right. rewrite Xo in X1. injection X1 as <-. auto.
    + destruct (he_sh _ _ a _ _ X0) as (x2 & X2 & XX).
      destruct (he_sh _ _ EH _ _ X2) as (x3 & X3 & XX2). unfold get_shape in X1.
      assert (x3 = x1) by congruence. subst x3.
      assert (Kf : s_kind x2 = Fa) by (rewrite (xe_kind _ _ XX); auto).
      destruct (c p x0 x2 X0 X2 Ke Re) as [Q|Q]; [|right; eapply has_patch_ext; eauto].
      left. assert (Ne : ~ In p (map r_shape es)).
      { intros He. destruct EO as (ws & F & ->). apply in_map_iff in He. destruct He as (r & <- & Hr).
        apply in_flat_map in Hr. destruct Hr as (w & Hw & Hr).
        apply In_nth_error in Hw. destruct Hw as [i Hi]. destruct (Forall2_nth' _ _ _ F i w Hi) as (q & Hq & W).
        apply nth_error_In in Hq.
        pose proof (g_wf _ (o_good _ _ _ K)) as WF.
        destruct (wx_child _ _ (w_sh _ WF _ _ X) q Hq) as (w' & W' & Sw & _).
        assert (w' = w) by congruence. subst w'.
        destruct (wx_child _ _ (w_sh _ WF _ _ W) r Hr) as (y & Y & Sy & _).
        assert (y = x2) by congruence. subst y. rewrite Kx in Sw. rewrite Kf in Sy.
        destruct (s_kind w); discriminate. }
      specialize (Xp p N Ne). unfold get_shape in Xp. congruence.
Qed.

Definition passes (f : nat -> st -> option st) : Prop :=
  forall o s s', f o s = Some s' -> ok D T s -> D SH o -> dflt (fun _ => False) s -> dflt (fun _ => False) s'.
Lemma childs_dflt f l : passes f -> spec_dfs D T f -> forall s s1,
  foldo (fun r s => match dfs_loc (r_loc r) s with Some s => f (r_shape r) s | None => None end) l s = Some s1 ->
  ok D T s -> (forall r, In r l -> D SH (r_shape r) /\ D CL (r_loc r)) -> dflt (fun _ => False) s -> dflt (fun _ => False) s1.
Proof.
  intros Uf F. induction l as [|r l IH]; intros s s1 H K DC U.
  - cbn in H. injection H as <-; auto.
  - cbn [foldo] in H. destruct (dfs_loc (r_loc r) s) as [s3|] eqn:G3; [|discriminate].
    destruct (f (r_shape r) s3) as [s2|] eqn:G; [|discriminate].
    destruct (DC r) as [DC1 DC2]; [cbn; auto|].
    destruct (dfs_loc_spec D T _ _ _ (fun _ => True) G3 K DC2) as (K3 & E3 & C3' & _).
    { intros p _ N. exfalso; auto. }
    destruct (F _ _ _ (fun _ => True) G K3 DC1 C3') as (K2 & E2 & C2' & _).
    apply (IH s2 s1 H K2). { intros q Hq. apply DC. cbn; auto. }
    eapply Uf; eauto. eapply loc_dflt; eauto.
Qed.
Lemma edges_dflt f l : passes f -> spec_dfs D T f -> forall s s', foldo f l s = Some s' -> ok D T s ->
  (forall o, In o l -> D SH o) -> dflt (fun _ => False) s -> dflt (fun _ => False) s' /\ ok D T s' /\ ext s s'.
Proof.
  intros Uf F. induction l as [|o l IH]; intros s s' H K Dl U; cbn [foldo] in H.
  - injection H as <-. split; auto. split; auto. apply ext_refl.
  - destruct (f o s) as [s1|] eqn:G; [|discriminate].
    assert (Do : D SH o) by (apply Dl; cbn; auto).
    destruct (F _ _ _ (fun _ => True) G K Do) as (K1 & E1 & _). { intros p _ N. exfalso; auto. }
    destruct (IH s1 s' H K1) as (U2 & K2 & E2). { intros p Hp. apply Dl; cbn; auto. } { eauto. }
    split; auto. split; auto. eapply ext_trans; eauto.
Qed.
Lemma dfs_dflt fuel : passes (dfs fuel).
Proof.
  induction fuel as [|fuel IH]; intros o s s' H K Hd U; [discriminate|]. cbn [dfs] in H.
  destruct (get_shape s o) as [x|] eqn:X; [|discriminate].
  destruct (shape_dfs (dfs fuel) o s) as [s1|] eqn:S1; [|discriminate].
  assert (CT : comp (fun _ => True) s) by (intros p _ N; exfalso; auto).
  destruct (shape_dfs_spec D T _ o x s s1 (fun _ => True) (dfs_spec D T fuel) S1 K Hd X CT) as (K1 & E1 & C1 & D1).
  assert (U1 : dflt (fun p => p = o) s1).
  { unfold shape_dfs in S1. destruct (ids s SH o).
    { injection S1 as <-; auto. eapply dflt_weaken; [|eauto]. cbn; tauto. }
    pose proof X as X0.
    unfold get_shape in X0. rewrite X0 in S1.
    match type of S1 with match ?m with _ => _ end = _ => destruct m as [s2|] eqn:F; [|discriminate] end.
    injection S1 as <-. apply visit_sh_dflt.
    eapply childs_dflt; eauto; [apply dfs_spec|]. intros r Hr. eapply (child_D D T s); eauto. }
  destruct (ext_shape _ _ _ _ E1 X) as (x1 & X1 & XX).
  assert (U2 : s_kind x <> Ed \/ s_repr x1 <> [] -> dflt (fun _ => False) s1).
  { intros N. destruct U1 as [a b c]. constructor; auto. intros e x0 x2 X0 X2 Ke Re De.
    destruct (b e x0 x2 X0 X2 Ke Re De) as [[[Q|Q] P']|Q]; auto. exfalso. subst e.
    assert (x2 = x1) by congruence. subst x2. destruct N as [N|N]; [|congruence].
    destruct (he_sh _ _ a _ _ X0) as (x2 & X2' & XX2). unfold get_shape in X1. assert (x2 = x1) by congruence. subst.
    rewrite <- (xe_kind _ _ XX), (xe_kind _ _ XX2) in N. congruence. }
  destruct (s_kind x) eqn:Kx; try (injection H as <-; apply U2; left; congruence).
  - (* face *)
    specialize (U2 (or_introl (fun Q : Fa = Ed => match Q with end))).
    unfold face_dfs in H. rewrite X1 in H.
    match type of H with match ?m with _ => _ end = _ => destruct m as [s2|] eqn:M; [|discriminate] end.
    assert (Kx1 : s_kind x1 = Fa) by (rewrite (xe_kind _ _ XX); auto).
    assert (A : dflt (fun _ => False) s2 /\ ok D T s2 /\ ext s1 s2).
    { destruct (s_repr x1) eqn:Rx.
      - destruct (implicit_surface_spec D T o x1 s1 s2 (fun _ => True) M K1 Hd X1 Kx1 Rx) as (K2 & E2 & _).
        { intros p _ N. exfalso; auto. }
        split; auto. eapply implicit_surface_dflt; eauto.
      - injection M as <-. split; auto. split; auto. apply ext_refl. }
    destruct A as (U3 & K2 & E2). destruct (get_shape s2 o) as [x2|] eqn:X2; [|discriminate].
    destruct (s_repr x2) as [|[| | |sf l] [|]] eqn:R2; try discriminate.
    destruct (dfs_loc l (visit CS sf s2)) as [s3|] eqn:DL; [|discriminate].
    assert (Rs : D CS sf /\ sf < size CS (hp s2)).
    { eapply (repr_D D T s2 o x2 (RF sf l)); eauto; rewrite ?R2; cbn; auto. }
    assert (Rl : D CL l /\ l < size CL (hp s2)).
    { eapply (repr_D D T s2 o x2 (RF sf l)); eauto; rewrite ?R2; cbn; auto. }
    destruct Rs as [Rs1 Rs2], Rl as [Rl1 Rl2].
    assert (Kv : ok D T (visit CS sf s2)) by (apply visit_ok; auto; cbn; tauto).
    destruct (dfs_loc_spec D T _ _ _ (fun _ => True) DL Kv Rl1) as (K3 & E3 & _ & H3 & _).
    { intros p _ N. exfalso; auto. }
    rewrite visit_hp in H3.
    assert (U4 : dflt (fun _ => False) s3).
    { eapply loc_dflt; eauto. apply visit_dflt; auto; congruence. }
    assert (W : forall w, In w (subshapes x2) -> D SH w).
    { intros w Hw. unfold subshapes in Hw. apply in_map_iff in Hw. destruct Hw as (r & <- & Hr).
      eapply (child_D D T s2 o x2 r); eauto. }
    match type of H with foldo ?g _ _ = _ => set (g0 := g) in * end.
    clear - W H K3 U4 IH. revert s3 K3 U4 H. induction (subshapes x2) as [|w ws IHw]; intros s3 K3 U4 H; cbn [foldo] in H.
    + injection H as <-; auto.
    + destruct (g0 w s3) as [s4|] eqn:G; [|discriminate]. unfold g0 in G.
      destruct (get_shape s3 w) as [y|] eqn:Y; [|discriminate].
      destruct (edges_dflt (dfs fuel) _ IH (dfs_spec D T fuel) _ _ G K3) as (U5 & K4 & E4); auto.
      { intros e He. unfold subshapes in He. apply in_map_iff in He. destruct He as (r & <- & Hr).
        eapply (child_D D T s3 w y r); eauto. apply W. cbn; auto. }
      apply (IHw (fun v Hv => W v (or_intror Hv)) s4); auto.
  - (* edge *)
    unfold edge_dfs in H. rewrite X1 in H.
    match type of H with match ?m with _ => _ end = _ => destruct m as [s2|] eqn:M; [|discriminate] end.
    assert (Kx1 : s_kind x1 = Ed) by (rewrite (xe_kind _ _ XX); auto).
    assert (A : dflt (fun _ => False) s2).
    { destruct (s_repr x1) eqn:Rx.
      - eapply implicit_curve_dflt; eauto.
      - injection M as <-. apply U2. right. congruence. }
    destruct (get_shape s2 o) as [x2|] eqn:X2; [|discriminate].
    eapply reprs_dflt; eauto.
  - (* vertex *)
    eapply reprs_dflt; eauto. apply U2. left. congruence.
Qed.
End Pass.
