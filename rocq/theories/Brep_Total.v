(** write_model succeeds when the missing geometry can be made (brep_writer.py). *)
From Coq Require Import List Arith Bool ZArith QArith Lia.
From Verif Require Import Brep_Model Brep_Spec Brep_Proofs Brep_Read Brep_Run Brep_Write Brep_Default Brep_Pass.
Import ListNotations.
Local Open Scope nat_scope.
Local Open Scope list_scope.

Lemma foldo_total {A} (f : A -> st -> option st) (I : st -> Prop) l : forall s, I s ->
  (forall x s, In x l -> I s -> exists s', f x s = Some s' /\ I s') -> exists s', foldo f l s = Some s' /\ I s'.
Proof.
  induction l as [|x l IH]; intros s Hs H; cbn [foldo]; eauto.
  destruct (H x s) as (s1 & -> & I1); [cbn; auto|auto|]. apply IH; auto. intros y t Hy. apply H. cbn; auto.
Qed.
Lemma loc_total fuel : forall o s, wfh (hp s) -> o < length (h_loc (hp s)) -> o < fuel ->
  exists s', loc_dfs fuel o s = Some s' /\ hp s' = hp s.
Proof.
  induction fuel as [|fuel IH]; intros o s W L F; [lia|]. cbn.
  destruct (lt_nth_some _ _ L) as [x X]. rewrite X. destruct x as [|m|l].
  - eexists. split; [reflexivity|]. apply visit_hp.
  - eexists. split; [reflexivity|]. apply visit_hp.
  - destruct (foldo_total (fun p => loc_dfs fuel (fst p)) (fun t => hp t = hp s) l s eq_refl) as (s1 & -> & H1).
    { intros p t Hp Ht. pose proof (w_comp _ W _ _ _ X Hp).
      destruct (IH (fst p) t) as (t' & H2 & H3); try rewrite Ht; auto; try lia. exists t'. split; auto. congruence. }
    eexists. split; [reflexivity|]. rewrite visit_hp. auto.
Qed.
Lemma dfs_loc_total o s : good s -> o < length (h_loc (hp s)) -> exists s', dfs_loc o s = Some s'.
Proof.
  intros G L. destruct (loc_total (S (length (h_loc (hp s)))) o s (g_wf _ G) L) as (s' & H & _); [lia|]. eauto.
Qed.

Definition preparable (s : st) (x : shape) : Prop :=
  s_repr x = [] ->
  (s_kind x = Ed -> length (s_childs x) = 2) /\
  (s_kind x = Fa -> exists es vs, edges_of (hp s) x es /\ closed_walk (hp s) es vs /\ (length vs = 3 \/ length vs = 4)).

Lemma nth_ext_lt {A} (l m : list A) : length l = length m -> (forall i, i < length l -> nth_error l i = nth_error m i) -> l = m.
Proof.
  revert m. induction l as [|x l IH]; intros [|y m] L H; cbn in L; try lia; auto.
  pose proof (H 0 ltac:(cbn; lia)) as Q. injection Q as ->. f_equal. apply IH; [lia|].
  intros i Hi. apply (H (S i)). cbn. lia.
Qed.
(** ** The walk gives equal lists *)
Lemma walk_chain {A} (l : list (A * A)) :
  (forall i p q, nth_error l i = Some p -> nth_error l (S i mod length l) = Some q -> fst q = snd p) ->
  odds (rotate (concat (map (fun p => [fst p; snd p]) l))) =
  evens (rotate (concat (map (fun p => [fst p; snd p]) l))).
Proof.
  destruct l as [|p0 l]; auto. intros H. rewrite odds_rot, evens_rot'.
  apply nth_ext_lt.
  - rewrite !map_length, app_length. cbn. lia.
  - intros i Hi. rewrite !map_length in Hi. rewrite app_length in Hi; cbn in Hi.
    rewrite !nth_error_map. set (n := length (p0 :: l)) in *.
    destruct (lt_nth_some (p0 :: l) i) as [p Hp]. { cbn. lia. }
    rewrite Hp. cbn [option_map].
    assert (Q : exists q, nth_error (l ++ [p0]) i = Some q /\ nth_error (p0 :: l) (S i mod n) = Some q).
    { destruct (Nat.eq_dec i (length l)) as [->|N].
      - exists p0. split; [apply nth_snoc_new|]. replace (S (length l)) with n by reflexivity.
        rewrite Nat.mod_same by (unfold n; cbn; lia). auto.
      - rewrite Nat.mod_small by (unfold n; cbn; lia). cbn [nth_error].
        rewrite nth_error_app1 by lia. destruct (lt_nth_some l i) as [q Hq]; [lia|]. eauto. }
    destruct Q as (q & Q1 & Q2). rewrite Q1. cbn. f_equal. eapply H; eauto.
Qed.
Lemma edges_refs s x es : edges_of (hp s) x es -> face_refs s x = Some es.
Proof.
  intros (ws & F & ->). unfold face_refs, subshapes. induction F as [|r w l ws H F IH]; auto.
  cbn. unfold get_shape at 1. rewrite H. cbn in IH. rewrite IH. auto.
Qed.
Lemma in_combine_some {A B} (l : list A) (m : list B) i x : length l = length m -> nth_error l i = Some x ->
  exists y, In (x, y) (combine l m).
Proof.
  revert m i. induction l as [|a l IH]; intros [|b m] [|i] L H; cbn in *; try discriminate; try lia.
  - injection H as ->. eauto.
  - destruct (IH m i) as [y Y]; auto. eauto.
Qed.

Section Total.
Variable D T : cls -> nat -> Prop.
Hypothesis NT : forall o, D SH o -> ~ T SH o.

Lemma implicit_surface_total o x s es vs : ok D T s -> D SH o -> done s SH o ->
  get_shape s o = Some x -> s_kind x = Fa -> edges_of (hp s) x es -> closed_walk (hp s) es vs ->
  length vs = 3 \/ length vs = 4 -> exists s', implicit_surface o s = Some s'.
Proof.
  intros K Hd Dn X Kx EO [CL CW] L34. pose proof (g_wf _ (o_good _ _ _ K)) as WF.
  assert (RD : forall r, In r es -> exists y, get_shape s (r_shape r) = Some y /\ D SH (r_shape r) /\
                 done s SH (r_shape r) /\ (s_kind y = Ed \/ s_kind y = Ve)).
  { intros r Hr. destruct EO as (ws & F & ->). apply in_flat_map in Hr. destruct Hr as (w & Hw & Hr).
    apply In_nth_error in Hw. destruct Hw as [i Hi]. destruct (Forall2_nth' _ _ _ F i w Hi) as (q & Hq & W).
    apply nth_error_In in Hq.
    destruct (wx_child _ _ (w_sh _ WF _ _ X) q Hq) as (w' & W' & Sw & _).
    assert (w' = w) by congruence. subst w'.
    destruct (wx_child _ _ (w_sh _ WF _ _ W) r Hr) as (y & Y & Sy & _).
    assert (Dq : D SH (r_shape q)) by (apply (child_D D T s o x q); auto).
    assert (Nq : done s SH (r_shape q)) by (apply (child_done D T NT s o x q); auto).
    exists y. split; auto. split; [apply (child_D D T s (r_shape q) w r); auto|].
    split; [apply (child_done D T NT s (r_shape q) w r); auto|].
    rewrite Kx in Sw. destruct (s_kind w); try discriminate; destruct (s_kind y); try discriminate; auto. }
  assert (RE : forall i r, nth_error es i = Some r -> exists y, get_shape s (r_shape r) = Some y /\
      let a := nth ((i + length vs - 1) mod length vs) vs 0 in let b := nth i vs 0 in
      subshapes y = (if is_rev (r_or r) then [b; a] else [a; b]) /\
      forall v, In v (subshapes y) -> done s SH v /\ exists p, point_of s v = Some p).
  { intros i r Hi. destruct (CW i r Hi) as (y & Y & Q). exists y. split; auto. split; auto.
    intros v Hv. unfold subshapes in Hv. apply in_map_iff in Hv. destruct Hv as (q & <- & Hq).
    destruct (RD r) as (y' & Y' & Dr & Nr & Ky); [eapply nth_error_In; eauto|].
    unfold get_shape in Y'. assert (y' = y) by congruence. subst y'.
    split; [apply (child_done D T NT s (r_shape r) y q); auto|].
    destruct (wx_child _ _ (w_sh _ WF _ _ Y) q Hq) as (z & Z & Sz & _).
    unfold point_of, get_shape. rewrite Z. destruct Ky as [Ky|Ky]; rewrite Ky in Sz; destruct (s_kind z); try discriminate; eauto. }
  unfold implicit_surface. rewrite X, (edges_refs s x es EO).
  match goal with |- context [mapo ?f es] => destruct (mapo_total f es) as [keyed KE] end.
  { intros r Hr. destruct (RD r Hr) as (y & _ & _ & Nr & _). red in Nr. destruct (ids s SH (r_shape r)); [eauto|congruence]. }
  rewrite KE.
  assert (PS : exists ps : list (nat * nat), length ps = length vs /\
     mapo (edge_walk s) es = Some (map (fun p => [fst p; snd p]) ps) /\
     (forall i p, nth_error ps i = Some p -> fst p = nth ((i + length vs - 1) mod length vs) vs 0 /\ snd p = nth i vs 0 /\
        forall v, v = fst p \/ v = snd p -> done s SH v /\ exists q, point_of s v = Some q)).
  { exists (map (fun i => (nth ((i + length vs - 1) mod length vs) vs 0, nth i vs 0)) (seq 0 (length vs))).
    split; [rewrite map_length, seq_length; auto|]. split.
    - clear - RE CL.
      assert (G : forall k m, (forall i r, nth_error m i = Some r -> nth_error es (k + i) = Some r) ->
        mapo (edge_walk s) m = Some (map (fun p => [fst p; snd p])
          (map (fun i => (nth ((i + length vs - 1) mod length vs) vs 0, nth i vs 0)) (seq k (length m))))).
      { intros k m. revert k. induction m as [|r m IH]; intros k Hm; auto.
        cbn [mapo length seq map fst snd]. rewrite (IH (S k)).
        2:{ intros i q Hi. replace (S k + i) with (k + S i) by lia. apply Hm. auto. }
        destruct (RE k r) as (y & Y & Sy & _). { rewrite <- (Nat.add_0_r k). apply Hm. auto. }
        unfold edge_walk. rewrite Y. f_equal. f_equal. cbv zeta in Sy. rewrite Sy. destruct (is_rev (r_or r)); auto. }
      rewrite (G 0 es); auto. rewrite CL. auto.
    - intros i p Hp. rewrite nth_error_map in Hp.
      destruct (nth_error (seq 0 (length vs)) i) as [j|] eqn:J; [|discriminate]. cbn in Hp.
      assert (Li : i < length vs) by (apply nth_some_lt in J; rewrite seq_length in J; auto).
      assert (j = i). { apply nth_error_nth with (d := 0) in J. rewrite seq_nth in J; lia. }
      subst j. injection Hp as <-. cbn [fst snd]. split; auto. split; auto.
      intros v Hv. destruct (lt_nth_some es i) as [r Hr]; [lia|]. destruct (RE i r Hr) as (y & Y & Sy & Hall).
      apply Hall. cbv zeta in Sy. rewrite Sy. destruct (is_rev (r_or r)); cbn; intuition. }
  destruct PS as (ps & Lp & WK & PN). rewrite WK.
  set (cat := concat (map (fun p => [fst p; snd p]) ps)).
  assert (QS : exists qs : list ((nat * nat) * (nat * nat)), length qs = length ps /\
     mapo (with_id s) cat = Some (concat (map (fun p => [fst p; snd p]) qs)) /\
     (forall i q, nth_error qs i = Some q -> exists p, nth_error ps i = Some p /\ with_id s (fst p) = Some (fst q) /\
                                                       with_id s (snd p) = Some (snd q))).
  { unfold cat. clear - PN. assert (PN' : forall p, In p ps -> done s SH (fst p) /\ done s SH (snd p)).
    { intros p Hp. apply In_nth_error in Hp. destruct Hp as [i Hi]. destruct (PN i p Hi) as (_ & _ & H). split; apply H; auto. }
    clear PN. induction ps as [|[a b] ps IH].
    - exists []. split; auto. split; auto. intros [|i] q; discriminate.
    - destruct IH as (qs & A & B & C). { intros p Hp. apply PN'. cbn; auto. }
      destruct (PN' (a, b)) as [Da Db]; [cbn; auto|]. cbn in Da, Db. red in Da, Db.
      destruct (ids s SH a) as [ia|] eqn:Ia; [|congruence]. destruct (ids s SH b) as [ib|] eqn:Ib; [|congruence].
      exists (((ia, a), (ib, b)) :: qs). split; [cbn; auto|].
      assert (Wa : with_id s a = Some (ia, a)) by (unfold with_id; rewrite Ia; auto).
      assert (Wb : with_id s b = Some (ib, b)) by (unfold with_id; rewrite Ib; auto). split.
      + cbn [map concat app fst snd mapo]. rewrite Wa, Wb, B. auto.
      + intros [|i] q Hq; cbn in Hq; [injection Hq as <-; exists (a, b); auto|]. apply C; auto. }
  destruct QS as (qs & Lq & VS & QN). rewrite VS. cbv zeta.
  set (vv := concat (map (fun p => [fst p; snd p]) qs)) in *.
  assert (CH : odds (rotate vv) = evens (rotate vv)).
  { apply walk_chain. intros i p q Hp Hq.
    assert (Li : i < length qs) by (eapply nth_some_lt; eauto).
    destruct (QN _ _ Hp) as (p0 & P0 & _ & W1). destruct (QN _ _ Hq) as (q0 & Q0 & W2 & _).
    destruct (PN _ _ P0) as (_ & P2 & _). destruct (PN _ _ Q0) as (Q1 & _ & _).
    assert (snd p0 = fst q0).
    { rewrite P2, Q1, Lq, Lp. f_equal. set (n := length vs) in *. assert (0 < n) by lia.
      destruct (Nat.eq_dec (S i) n) as [E|N].
      - rewrite E, Nat.mod_same by lia. rewrite Nat.mod_small by lia. lia.
      - rewrite (Nat.mod_small (S i)) by lia. replace (S i + n - 1) with (i + 1 * n) by lia.
        rewrite Nat.mod_add, Nat.mod_small by lia. auto. }
    rewrite H in W1. congruence. }
  rewrite (proj2 (pairs_eqb_eq _ _) CH). cbn [negb].
  assert (NE : qs <> []) by (intros ->; cbn in *; lia).
  destruct (chain_walk qs (0, 0) NE CH) as [CV _]. fold vv in CV. rewrite CV.
  match goal with |- context [mapo ?f (map snd qs)] => destruct (mapo_total f (map snd qs)) as [pts PT] end.
  { intros q Hq. apply in_map_iff in Hq. destruct Hq as (q2 & <- & Hq). apply In_nth_error in Hq. destruct Hq as [i Hi].
    destruct (QN _ _ Hi) as (p0 & P0 & _ & W1). destruct (PN _ _ P0) as (_ & _ & H).
    unfold with_id in W1. destruct (ids s SH (snd p0)); [|discriminate]. injection W1 as <-. apply H. auto. }
  rewrite PT.
  assert (Lpts : length pts = length vs).
  { apply mapo_spec in PT. rewrite <- (Forall2_len _ _ _ PT), map_length. lia. }
  assert (GU : exists g uvs, patch pts = Some (g, uvs)).
  { destruct pts as [|? [|? [|? [|? [|]]]]]; cbn in Lpts; try lia; cbn; eauto. }
  destruct GU as (g & uvs & GU). rewrite GU. destruct (patch_at _ _ _ GU) as (_ & LU & _).
  set (sf := length (h_s (hp s))). set (s2 := set_shape o (with_repr [RF sf 0] x) (new_s g s)).
  match goal with |- context [attach_edge sf ?d] => set (dd := d) end.
  assert (IV : forall i, i < length vs -> exists k u, ids s SH (nth i vs 0) = Some k /\ dict_get k dd = Some u).
  { intros i Hi. destruct (lt_nth_some qs i) as [q Hq]; [lia|]. destruct (QN _ _ Hq) as (p0 & P0 & _ & W1).
    destruct (PN _ _ P0) as (_ & P2 & _). rewrite <- P2. unfold with_id in W1.
    destruct (ids s SH (snd p0)) as [k|]; [|discriminate]. injection W1 as W1. exists k.
    destruct (dict_get_total k dd) as [u U]; [|eauto]. apply dict_fold_keys. left.
    apply (in_combine_some _ _ i). { rewrite !map_length. lia. }
    rewrite !nth_error_map, Hq. cbn. rewrite <- W1. auto. }
  assert (EI : forall p, In p (dict_of keyed) -> In (snd p) (map r_shape es)).
  { intros p Hp. destruct (dict_fold_pair keyed [] p Hp) as [[]|Q]. apply mapo_spec in KE. clear - KE Q.
    induction KE as [|r' k l m F _ IH]; [destruct Q|]. destruct Q as [->|Q]; [|cbn; auto].
    destruct (ids s SH (r_shape r')); [|discriminate]. injection F as <-. cbn; auto. }
  set (I := fun t : st => ids t = ids s /\
    forall e y, get_shape s e = Some y -> s_kind y <> Fa -> exists y', get_shape t e = Some y' /\ subshapes y' = subshapes y).
  destruct (foldo_total (attach_edge sf dd) I (dict_of keyed) s2) as (s' & -> & _); eauto.
  { split; auto. intros e y Y Ky. exists y. split; auto. unfold get_shape, s2. cbn. rewrite update_other; auto.
    intros ->. unfold get_shape in *. congruence. }
  intros p t Hp [It Yt]. specialize (EI p Hp). apply in_map_iff in EI. destruct EI as (r & Qr & Hr).
  apply In_nth_error in Hr. destruct Hr as [i Hi]. destruct (RE i r Hi) as (y & Y & Sy & _). cbv zeta in Sy.
  destruct (RD r) as (y2 & Y2 & _ & _ & Ky). { eapply nth_error_In; eauto. }
  assert (y2 = y) by congruence. subst y2.
  destruct (Yt _ _ Y) as (y' & Y' & Sy'). { destruct Ky; congruence. }
  assert (Li : i < length vs) by (rewrite <- CL; eapply nth_some_lt; eauto).
  set (j := (i + length vs - 1) mod length vs) in *.
  assert (Lj : j < length vs) by (apply Nat.mod_upper_bound; lia).
  destruct (IV i Li) as (k1 & u1 & I1 & U1). destruct (IV j Lj) as (k2 & u2 & I2 & U2).
  assert (AE : exists t', attach_edge sf dd p t = Some t').
  { unfold attach_edge. rewrite <- Qr, Y', Sy', Sy, It.
    destruct (is_rev (r_or r)); rewrite I1, I2, U1, U2; unfold attach_to_plane, add_repr;
    match goal with |- context [get_shape (new_c2 ?a ?b) ?c] => change (get_shape (new_c2 a b) c) with (get_shape b c) end;
    rewrite Y'; eauto. }
  destruct AE as [t' AE]. exists t'. split; auto. destruct (attach_edge_l _ _ _ _ _ AE) as [[a1 _ _ _ _ a6] _].
  split; [congruence|]. intros e z Z Kz. destruct (Yt e z Z Kz) as (z' & Z' & Sz'). destruct (a6 _ _ Z') as [e' Z2].
  eexists. split; [eauto|]. unfold subshapes in *. cbn. auto.
Qed.
Lemma implicit_curve_total o x s : ok D T s -> get_shape s o = Some x -> s_kind x = Ed -> length (s_childs x) = 2 ->
  exists s', implicit_curve o s = Some s'.
Proof.
  intros K X Kx L. unfold implicit_curve. rewrite X. unfold subshapes.
  pose proof (w_sh _ (g_wf _ (o_good _ _ _ K)) _ _ X) as W.
  assert (P : forall r, In r (s_childs x) -> exists p, point_of s (r_shape r) = Some p).
  { intros r Hr. destruct (wx_child _ _ W r Hr) as (y & Y & Sy & _). unfold point_of, get_shape. rewrite Y.
    rewrite Kx in Sy. destruct (s_kind y); try discriminate; eauto. }
  destruct (s_childs x) as [|a [|b [|]]]; cbn in L; try lia. cbn [map].
  destruct (P a) as [p ->]; [cbn; auto|]. destruct (P b) as [q ->]; [cbn; auto|].
  unfold add_repr. match goal with |- context [get_shape (new_c3 ?a ?b) ?c] => change (get_shape (new_c3 a b) c) with (get_shape b c) end.
  rewrite X. eauto.
Qed.

Definition prep (s : st) : Prop := forall o x, D SH o -> get_shape s o = Some x -> preparable s x.
Lemma prep_ext s s' : ext s s' -> prep s -> prep s'.
Proof.
  intros E P o x' Do X' R. assert (EH := e_heap _ _ E).
  assert (L : o < length (h_sh (hp s))) by (rewrite <- (he_len _ _ EH); eapply nth_some_lt; eauto).
  destruct (lt_nth_some _ _ L) as [x X]. destruct (he_sh _ _ EH _ _ X) as (x2 & X2 & XX).
  unfold get_shape in X'. assert (x2 = x') by congruence. subst x2.
  assert (R0 : s_repr x = []).
  { destruct (xe_repr _ _ XX) as [e Q]. rewrite R in Q. symmetry in Q. apply app_eq_nil in Q. tauto. }
  destruct (P o x Do X R0) as [A B]. rewrite (xe_kind _ _ XX), (xe_childs _ _ XX). split; auto.
  intros Kx. destruct (B Kx) as (es & vs & E1 & [C1 C2] & L34). exists es, vs.
  split; [eapply edges_of_ext; eauto|]. split; auto. split; auto. intros i r Hi. eapply ends_ext; eauto.
Qed.
Lemma repr_total o x r s : ok D T s -> D SH o -> get_shape s o = Some x -> In r (s_repr x) -> s_kind x <> Fa ->
  exists s', repr_dfs r s = Some s'.
Proof.
  intros K Do X Hr N. destruct (wx_repr _ _ (w_sh _ (g_wf _ (o_good _ _ _ K)) _ _ X) r Hr) as [RK _].
  assert (RA : forall c p, In (c, p) (repr_refs r) -> D c p /\ p < size c (hp s)).
  { intros c p Hp. eapply repr_D; eauto. }
  destruct r; cbn [repr_dfs]; cbn in RA.
  - destruct (RA C3 curve) as [A1 A2]; auto. destruct (RA CL l) as [B1 B2]; auto.
    assert (K1 : ok D T (visit C3 curve s)) by (apply visit_ok; auto; cbn; tauto).
    apply dfs_loc_total; [apply (o_good _ _ _ K1)|]. rewrite visit_hp. auto.
  - destruct (RA C2 curve) as [A1 A2]; auto. destruct (RA CL l) as [B1 B2]; auto. destruct (RA CS surf) as [E1 E2]; auto.
    assert (K1 : ok D T (visit C2 curve s)) by (apply visit_ok; auto; cbn; tauto).
    assert (K2 : ok D T (visit CS surf (visit C2 curve s))) by (apply visit_ok; rewrite ?visit_hp; auto; cbn; tauto).
    apply dfs_loc_total; [apply (o_good _ _ _ K2)|]. rewrite !visit_hp. auto.
  - eauto.
  - destruct (s_kind x); cbn in RK; tauto || congruence.
Qed.
Lemma reprs_total o x rs : forall s, ok D T s -> D SH o -> get_shape s o = Some x -> s_kind x <> Fa ->
  (forall r, In r rs -> In r (s_repr x)) -> exists s', foldo repr_dfs rs s = Some s'.
Proof.
  intros s K Do X N Hr.
  destruct (foldo_total repr_dfs (fun t => ok D T t /\ hp t = hp s) rs s) as (s' & H & _); eauto.
  intros r t Hi [Kt Ht]. assert (Xt : get_shape t o = Some x) by (unfold get_shape in *; rewrite Ht; auto).
  destruct (repr_total o x r t Kt Do Xt (Hr r Hi) N) as [t' H]. exists t'. split; auto.
  destruct (repr_dfs_spec D T r t t' (fun _ => True) H Kt) as (K1 & E1 & C1 & H1 & _).
  { intros p _ Q. destruct Q. exact I. }
  { intros c p Hp. apply (repr_D D T t o x r); auto. }
  split; auto. congruence.
Qed.

Lemma dfs_total fuel : forall o x s, ok D T s -> D SH o -> get_shape s o = Some x -> rank (s_kind x) <= fuel ->
  prep s -> exists s', dfs fuel o s = Some s'.
Proof.
  induction fuel as [|fuel IH]; intros o x s K Do X R P; [destruct (s_kind x); cbn in R; lia|].
  cbn [dfs]. rewrite X.
  assert (CT : forall t, comp (fun _ => True) t) by (intros t p _ N; exfalso; auto).
  assert (S1 : exists s1, shape_dfs (dfs fuel) o s = Some s1).
  { unfold shape_dfs. destruct (ids s SH o); eauto. unfold get_shape in X. rewrite X.
    match goal with |- context [foldo ?g _ _] => set (g0 := g) end.
    destruct (foldo_total g0 (fun t => ok D T t /\ ext s t) (s_childs x) s) as (s1 & -> & _); eauto.
    - split; auto. apply ext_refl.
    - intros r t Hr [Kt Et]. unfold g0.
      destruct (child_D D T s o x r K Do X Hr) as [D1 D2].
      destruct (wx_child _ _ (w_sh _ (g_wf _ (o_good _ _ _ K)) _ _ X) r Hr) as (y & Y & Sy & Lr).
      destruct (dfs_loc_total (r_loc r) t (o_good _ _ _ Kt)) as [t1 L1].
      { rewrite (he_loc _ _ (e_heap _ _ Et)). auto. }
      rewrite L1. destruct (dfs_loc_spec D T _ _ _ _ L1 Kt D2 (CT t)) as (K1 & E1 & _).
      assert (Et1 : ext s t1) by (eapply ext_trans; eauto).
      destruct (ext_shape _ _ _ _ Et1 Y) as (y1 & Y1 & XX).
      destruct (IH (r_shape r) y1 t1 K1 D1 Y1) as [t2 H2].
      { rewrite (xe_kind _ _ XX). apply sub_rank in Sy. lia. }
      { eapply prep_ext; eauto. }
      exists t2. split; auto. destruct (dfs_spec D T fuel _ _ _ _ H2 K1 D1 (CT t1)) as (K2 & E2 & _).
      split; auto. eapply ext_trans; eauto. }
  destruct S1 as [s1 S1]. rewrite S1.
  destruct (shape_dfs_spec D T _ o x s s1 _ (dfs_spec D T fuel) S1 K Do X (CT s)) as (K1 & E1 & _ & Dn).
  destruct (ext_shape _ _ _ _ E1 X) as (x1 & X1 & XX).
  assert (P1 : prep s1) by (eapply prep_ext; eauto).
  destruct (s_kind x) eqn:Kx; eauto.
  - assert (Kx1 : s_kind x1 = Fa) by (rewrite (xe_kind _ _ XX); auto).
    unfold face_dfs. rewrite X1.
    assert (M : exists s2, (match s_repr x1 with [] => implicit_surface o s1 | _ :: _ => Some s1 end) = Some s2 /\
                ok D T s2 /\ ext s1 s2 /\ exists x2 sf l, get_shape s2 o = Some x2 /\ s_repr x2 = [RF sf l]).
    { destruct (s_repr x1) eqn:Rx.
      - destruct (P1 o x1 Do X1 Rx) as [_ PF]. destruct (PF Kx1) as (es & vs & EO & CW & L34).
        destruct (implicit_surface_total o x1 s1 es vs K1 Do Dn X1 Kx1 EO CW L34) as [s2 H2].
        destruct (implicit_surface_spec D T o x1 s1 s2 _ H2 K1 Do X1 Kx1 Rx (CT s1)) as (K2 & E2 & _ & sf & l & Q).
        exists s2. split; auto. split; auto. split; auto. eexists _, sf, l. split; eauto.
      - exists s1. split; auto. split; auto. split; [apply ext_refl|].
        destruct (wx_face _ _ (w_sh _ (g_wf _ (o_good _ _ _ K1)) _ _ X1) Kx1) as [Q|(sf & l' & Q)]; [congruence|].
        exists x1, sf, l'. auto. }
    destruct M as (s2 & -> & K2 & E2 & x2 & sf & l & X2 & R2). rewrite X2, R2.
    assert (Rs : D CS sf /\ sf < size CS (hp s2)).
    { eapply (repr_D D T s2 o x2 (RF sf l)); eauto; rewrite ?R2; cbn; auto. }
    assert (Rl : D CL l /\ l < size CL (hp s2)).
    { eapply (repr_D D T s2 o x2 (RF sf l)); eauto; rewrite ?R2; cbn; auto. }
    destruct Rs as [Rs1 Rs2], Rl as [Rl1 Rl2].
    assert (Kv : ok D T (visit CS sf s2)) by (apply visit_ok; auto; cbn; tauto).
    destruct (dfs_loc_total l (visit CS sf s2) (o_good _ _ _ Kv)) as [s3 DL]. { rewrite visit_hp. auto. }
    rewrite DL. destruct (dfs_loc_spec D T _ _ _ _ DL Kv Rl1 (CT _)) as (K3 & E3 & _ & H3 & _).
    assert (E23 : ext s2 s3) by (eapply ext_trans; [apply visit_ext|eauto]).
    assert (Ex : ext s s2) by (eapply ext_trans; eauto).
    destruct (ext_shape _ _ _ _ Ex X) as (x2' & X2' & XX2). assert (x2' = x2) by congruence. subst x2'.
    match goal with |- exists _, foldo ?g _ _ = _ => set (g0 := g) end.
    destruct (foldo_total g0 (fun t => ok D T t /\ ext s2 t) (subshapes x2) s3) as (s4 & H4 & _); eauto.
    intros w t Hw [Kt Et]. unfold g0. unfold subshapes in Hw. apply in_map_iff in Hw. destruct Hw as (r & <- & Hr).
    destruct (wx_child _ _ (w_sh _ (g_wf _ (o_good _ _ _ K2)) _ _ X2) r Hr) as (y & Y & Sy & _).
    assert (Dw : D SH (r_shape r)) by (eapply (child_D D T s2 o x2 r); eauto).
    destruct (ext_shape _ _ _ _ Et Y) as (y1 & Y1 & XY). rewrite Y1.
    destruct (foldo_total (dfs fuel) (fun t => ok D T t /\ ext s2 t) (subshapes y1) t) as (t' & H' & I'); eauto.
    intros e u He [Ku Eu]. unfold subshapes in He. apply in_map_iff in He. destruct He as (q & <- & Hq).
    rewrite (xe_childs _ _ XY) in Hq.
    destruct (wx_child _ _ (w_sh _ (g_wf _ (o_good _ _ _ K2)) _ _ Y) q Hq) as (z & Z & Sz & _).
    assert (De : D SH (r_shape q)) by (eapply (child_D D T s2 (r_shape r) y q); eauto).
    destruct (ext_shape _ _ _ _ Eu Z) as (z1 & Z1 & XZ).
    destruct (IH (r_shape q) z1 u Ku De Z1) as [u' Hu].
    { rewrite (xe_kind _ _ XZ). apply sub_rank in Sy, Sz. rewrite (xe_kind _ _ XX2), Kx in Sy. cbn in Sy, R. lia. }
    { eapply prep_ext; [|exact P1]. eapply ext_trans; eauto. }
    exists u'. split; auto. destruct (dfs_spec D T fuel _ _ _ _ Hu Ku De (CT u)) as (K5 & E5 & _).
    split; auto. eapply ext_trans; eauto.
  - assert (Kx1 : s_kind x1 = Ed) by (rewrite (xe_kind _ _ XX); auto).
    unfold edge_dfs. rewrite X1.
    assert (M : exists s2, (match s_repr x1 with [] => implicit_curve o s1 | _ :: _ => Some s1 end) = Some s2 /\
                ok D T s2 /\ ext s1 s2).
    { destruct (s_repr x1) eqn:Rx.
      - destruct (P1 o x1 Do X1 Rx) as [PE _].
        destruct (implicit_curve_total o x1 s1 K1 X1 Kx1 (PE Kx1)) as [s2 H2]. exists s2. split; auto.
        destruct (implicit_curve_spec D T o x1 s1 s2 _ H2 K1 Do X1 Kx1 (CT s1)) as (K2 & E2 & _). auto.
      - exists s1. split; auto. split; auto. apply ext_refl. }
    destruct M as (s2 & -> & K2 & E2). destruct (ext_shape _ _ _ _ E2 X1) as (x2 & X2 & XX2). rewrite X2.
    eapply (reprs_total o x2); eauto. rewrite (xe_kind _ _ XX2). congruence.
  - assert (R1 : s_repr x1 = s_repr x).
    { apply (xe_fixed _ _ XX); [|right]; congruence. }
    rewrite <- R1. eapply (reprs_total o x1); eauto. rewrite (xe_kind _ _ XX). congruence.
Qed.
End Total.

Lemma reach_cl h l c o : reach h CL l c o -> c = CL.
Proof.
  intros R. induction R as [|c o c' o' R IH Hi]; auto. subst c. cbn in Hi.
  destruct (nth_error (h_loc h) o) as [[| |ps]|]; cbn in Hi; try tauto.
  apply in_map_iff in Hi. destruct Hi as (p & Q & _). congruence.
Qed.
Lemma index_total s root l : good s -> unwritten s root l -> ready (hp s) root ->
  root < length (h_sh (hp s)) -> l < length (h_loc (hp s)) -> exists s1, index_all root l s = Some s1.
Proof.
  intros G U R Lr Ll. pose proof (start_model s root l G U) as K0. unfold index_all. fold (restart s).
  assert (NT : forall o, model_region s root l SH o -> ~ is_ident (hp s) SH o).
  { intros o _ [Q _]. discriminate. }
  assert (Dr : model_region s root l SH root) by (left; left; constructor).
  assert (Dl : model_region s root l CL l) by (left; right; constructor).
  destruct (lt_nth_some _ _ Lr) as [x X].
  destruct (dfs_total _ _ NT 8 root x (restart s) K0 Dr X) as [s1 H1].
  - destruct (s_kind x); cbn; lia.
  - intros o y Do Y RY. unfold get_shape in Y. cbn in Y.
    destruct Do as [[Q|Q]|[[Q _]|Q]]; [|apply reach_cl in Q; discriminate|discriminate|apply nth_some_lt in Y; cbn in Q; lia].
    apply (R o y Q Y RY).
  - rewrite H1. destruct (dfs_spec _ _ 8 root _ _ (fun _ => False) H1 K0 Dr (start_comp _ s)) as (K1 & E1 & _).
    apply dfs_loc_total; [apply (o_good _ _ _ K1)|].
    assert (Q := he_loc _ _ (e_heap _ _ E1)). change (hp (restart s)) with (hp s) in Q. rewrite Q. auto.
Qed.
