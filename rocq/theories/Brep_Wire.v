(** The closed flag of wires (brep_writer.py, Wire._set_closed). *)
From Coq Require Import List Arith Bool ZArith QArith Lia.
From Verif Require Import Brep_Model Brep_Spec Brep_Proofs Brep_Read Brep_Run.
Import ListNotations.
Local Open Scope nat_scope.
Local Open Scope list_scope.

(** [s] is [s0] with counters [n]. *)
Record counted (s0 : st) (n : nat -> nat) (s : st) : Prop := {
  c_ids : ids s = ids s0; c_grp : grp s = grp s0;
  c_loc : h_loc (hp s) = h_loc (hp s0); c_c2 : h_c2 (hp s) = h_c2 (hp s0);
  c_c3 : h_c3 (hp s) = h_c3 (hp s0); c_s : h_s (hp s) = h_s (hp s0);
  c_sh : forall o, nth_error (h_sh (hp s)) o = option_map (with_nedges (n o)) (nth_error (h_sh (hp s0)) o) }.
Lemma counted_self s : (forall o x, get_shape s o = Some x -> s_nedges x = 0) -> counted s (fun _ => 0) s.
Proof.
  intros Z. constructor; auto. intros o. destruct (nth_error (h_sh (hp s)) o) as [x|] eqn:X; auto.
  cbn. specialize (Z _ _ X). destruct x; cbn in *. rewrite Z. auto.
Qed.
Lemma nth_ext {A} (l m : list A) : (forall o, nth_error l o = nth_error m o) -> l = m.
Proof.
  revert m. induction l as [|x l IH]; intros [|y m] H; auto.
  - specialize (H 0). discriminate.
  - specialize (H 0). discriminate.
  - pose proof (H 0) as Q. injection Q as ->. f_equal. apply IH. intros o. apply (H (S o)).
Qed.
Lemma counted_zero s0 n s : counted s0 n s -> (forall o, n o = 0) ->
  (forall o x, get_shape s0 o = Some x -> s_nedges x = 0) -> s = s0.
Proof.
  intros [a b c d e f g] Z Z0. destruct s as [h i r], s0 as [h0 i0 r0]. cbn in *. subst i r. f_equal.
  destruct h as [h1 h2 h3 h4 h5], h0 as [k1 k2 k3 k4 k5]. cbn in *. subst. f_equal.
  apply nth_ext. intros o. rewrite g, Z. specialize (Z0 o). unfold get_shape in Z0. cbn in Z0.
  destruct (nth_error k5 o) as [x|] eqn:X; auto. specialize (Z0 _ eq_refl).
  destruct x; cbn in *; subst; auto.
Qed.
Lemma put_counted s0 n s f v : counted s0 n s -> counted s0 (fun o => if o =? v then f (n o) else n o) (put_nedges f v s).
Proof.
  intros [a b c d e g h]. unfold put_nedges, get_shape. rewrite h.
  destruct (nth_error (h_sh (hp s0)) v) as [x|] eqn:X; cbn [option_map].
  - constructor; auto. intros o. cbn. destruct (Nat.eqb_spec o v) as [->|N].
    + rewrite update_same.
      * rewrite X. destruct x; auto.
      * apply nth_error_Some. rewrite h, X. discriminate.
    + rewrite update_other by auto. apply h.
  - constructor; auto. intros o. rewrite h. destruct (Nat.eqb_spec o v) as [->|N]; auto. rewrite X. auto.
Qed.
Lemma nedges_counted s0 n s v x : counted s0 n s -> get_shape s0 v = Some x -> nedges s v = n v.
Proof. intros C X. unfold nedges, get_shape in *. rewrite (c_sh _ _ _ C), X. destruct x; auto. Qed.

Lemma count_counted s0 : forall vs n s, counted s0 n s ->
  counted s0 (fun o => count_occ Nat.eq_dec vs o + n o) (fold_left (fun s v => put_nedges S v s) vs s).
Proof.
  induction vs as [|v vs IH]; intros n s C.
  - destruct C; constructor; auto.
  - cbn [fold_left]. pose proof (IH _ _ (put_counted _ _ _ S v C)) as Q.
    destruct Q as [a b c d e f g]. constructor; auto. intros o. rewrite g. f_equal. f_equal.
    cbn [count_occ]. destruct (Nat.eq_dec v o), (Nat.eqb_spec o v); try congruence; lia.
Qed.
Lemma keys_spec l : forall seen, NoDup seen ->
  NoDup (keys l seen) /\ forall v, In v (keys l seen) <-> In v l \/ In v seen.
Proof.
  induction l as [|v l IH]; intros seen N; cbn [keys].
  - split. { apply NoDup_rev; auto. } intros w. rewrite <- in_rev. cbn. tauto.
  - destruct (existsb (Nat.eqb v) seen) eqn:Q.
    + destruct (IH seen N) as [A B]. split; auto. intros w. rewrite B.
      apply existsb_exists in Q. destruct Q as (u & Hu & Q). apply Nat.eqb_eq in Q. subst u.
      cbn. intuition subst; auto.
    + destruct (IH (v :: seen)) as [A B].
      { constructor; auto. intros Hv. assert (existsb (Nat.eqb v) seen = true).
        { apply existsb_exists. exists v. split; auto. apply Nat.eqb_refl. } congruence. }
      split; auto. intros w. rewrite B. cbn. tauto.
Qed.
Lemma clear_counted s0 : forall ks b n s, counted s0 n s -> NoDup ks ->
  (forall v, In v ks -> get_shape s0 v <> None) ->
  let r := fold_left (fun (acc : bool * st) v =>
             (fst acc && Nat.even (nedges (snd acc) v), put_nedges (fun _ => 0) v (snd acc))) ks (b, s) in
  fst r = b && forallb (fun v => Nat.even (n v)) ks /\
  counted s0 (fun o => if existsb (Nat.eqb o) ks then 0 else n o) (snd r).
Proof.
  induction ks as [|v ks IH]; intros b n s C N Al r.
  - cbn. rewrite andb_true_r. auto.
  - inversion N as [|? ? Nv N']; subst. unfold r. cbn [fold_left fst snd].
    destruct (IH (b && Nat.even (nedges s v)) _ _ (put_counted _ _ _ (fun _ => 0) v C) N') as [A B].
    { intros w Hw. apply Al. cbn; auto. }
    rewrite A. split.
    + destruct (get_shape s0 v) as [x|] eqn:X; [|exfalso; apply (Al v); cbn; auto].
      rewrite (nedges_counted _ _ _ _ _ C X). cbn [forallb]. rewrite <- andb_assoc. f_equal. f_equal.
      clear - Nv. induction ks as [|w ks IH]; auto. cbn [forallb]. cbn in Nv.
      rewrite IH by tauto. f_equal. destruct (Nat.eqb_spec w v); [subst; tauto|auto].
    + destruct B as [b1 b2 b3 b4 b5 b6 b7]. constructor; auto. intros o. rewrite b7. f_equal. f_equal.
      cbn [existsb]. destruct (Nat.eqb_spec o v); cbn; destruct (existsb (Nat.eqb o) ks); auto.
Qed.
Lemma wire_ends s cs : wire_vertices s cs = edge_ends (hp s) cs.
Proof. unfold wire_vertices, edge_ends, get_shape, subshapes. rewrite flat_map_concat_map. auto. Qed.

Definition calm (s : st) : Prop := forall o x, get_shape s o = Some x -> s_nedges x = 0.
Lemma ends_alloc s cs v : good s -> In v (edge_ends (hp s) cs) -> get_shape s v <> None.
Proof.
  intros G H. unfold edge_ends in H. apply in_flat_map in H. destruct H as (r & _ & H).
  destruct (nth_error (h_sh (hp s)) (r_shape r)) as [y|] eqn:Y; [|destruct H].
  apply in_map_iff in H. destruct H as (q & <- & Hq).
  destruct (wx_child _ _ (w_sh _ (g_wf _ G) _ _ Y) q Hq) as (z & Z & _). unfold get_shape. congruence.
Qed.
Lemma set_closed_l cs s : good s -> calm s ->
  exists b, set_closed cs s = (b, s) /\ (b = true <-> evenly_used (hp s) cs).
Proof.
  intros G Z. unfold set_closed. rewrite wire_ends. set (vs := edge_ends (hp s) cs).
  pose proof (count_counted s vs _ _ (counted_self s Z)) as C.
  destruct (keys_spec vs [] (NoDup_nil _)) as [N I].
  destruct (clear_counted s (keys vs []) true _ _ C N) as [A B].
  { intros v Hv. apply I in Hv. destruct Hv as [Hv|[]]. eapply ends_alloc; eauto. }
  cbv zeta. match goal with |- exists _, ?r = _ /\ _ => destruct r as [b s'] eqn:R end.
  cbv zeta in A, B. cbn [fst snd] in A, B.
  exists b. split.
  - f_equal. eapply counted_zero; eauto. intros o. cbn.
    destruct (existsb (Nat.eqb o) (keys vs [])) eqn:Q; auto.
    destruct (count_occ Nat.eq_dec vs o) eqn:Qc; auto. exfalso.
    assert (In o vs) by (apply (count_occ_In Nat.eq_dec); lia).
    assert (existsb (Nat.eqb o) (keys vs []) = true).
    { apply existsb_exists. exists o. split; [apply I; auto|apply Nat.eqb_refl]. }
    congruence.
  - rewrite A. cbn [andb]. rewrite forallb_forall. unfold evenly_used, uses. fold vs. split.
    + intros H v. destruct (in_dec Nat.eq_dec v vs) as [Hv|Hv].
      * apply Nat.even_spec. specialize (H v (proj2 (I v) (or_introl Hv))). rewrite Nat.add_0_r in H. auto.
      * assert (Q0 : count_occ Nat.eq_dec vs v = 0) by (apply (count_occ_not_In Nat.eq_dec vs v); auto).
        rewrite Q0. exists 0. lia.
    + intros H v _. rewrite Nat.add_0_r. apply Nat.even_spec, H.
Qed.

(** * The counters are 0 between the calls *)
Lemma calm_hext s s' : hext (hp s) (hp s') -> calm s -> calm s'.
Proof.
  intros E Z o x X. unfold get_shape in *.
  assert (L : o < length (h_sh (hp s))) by (rewrite <- (he_len _ _ E); eapply nth_some_lt; eauto).
  destruct (lt_nth_some _ _ L) as [y Y]. destruct (he_sh _ _ E _ _ Y) as (y' & Y' & XX).
  assert (y' = x) by congruence. subst. rewrite (xe_nedges _ _ XX). eapply Z; eauto.
Qed.
Lemma calm_new x s : calm s -> s_nedges x = 0 -> calm (new_shape x s).
Proof.
  intros Z N o y Y. unfold get_shape in *. cbn in Y. apply nth_snoc in Y. destruct Y as [Y|[_ ->]]; eauto.
Qed.
Lemma calm_set o x s : calm s -> s_nedges x = 0 -> calm (set_shape o x s).
Proof.
  intros Z N p y Y. unfold get_shape in *. cbn in Y. destruct (Nat.eq_dec p o) as [->|NE].
  - destruct (le_lt_dec (length (h_sh (hp s))) o) as [L|L].
    + assert (o < length (update (h_sh (hp s)) o x)) by (eapply nth_some_lt; eauto). rewrite update_length in H. lia.
    + rewrite update_same in Y by auto. congruence.
  - rewrite update_other in Y by auto. eauto.
Qed.
Lemma calm_sh s s' : h_sh (hp s') = h_sh (hp s) -> calm s -> calm s'.
Proof. intros Q Z o x X. unfold get_shape in *. rewrite Q in X. eauto. Qed.
Lemma make_shape_calm k cs tol p s x : make_shape k cs tol p s = Some x -> s_nedges x = 0.
Proof. unfold make_shape. destruct (forallb _ _); [|discriminate]. intros H. injection H as <-. auto. Qed.
Lemma make_wire_l cs s s' : make_wire cs s = Some s' -> good s -> calm s ->
  exists x, h_sh (hp s') = h_sh (hp s) ++ [x] /\ s_kind x = Wi /\ s_childs x = cs /\ s_nedges x = 0 /\
    (nth 4 (s_flags x) false = true <-> evenly_used (hp s) cs).
Proof.
  intros H G Z. unfold make_wire in H. destruct (make_shape Wi cs 0 (0, 0, 0)%Q s) as [x|] eqn:M; [|discriminate].
  destruct (set_closed_l cs s G Z) as (b & Q & B). rewrite Q in H. injection H as <-.
  unfold make_shape in M. destruct (forallb _ _); [|discriminate]. injection M as <-.
  eexists. split; [reflexivity|]. cbn. auto.
Qed.
Lemma step_calm c s s' : step c s = Some s' -> good s -> calm s -> calm s'.
Proof.
  intros H G Z. destruct c as [m|l|k|k|k|p tol|a b tol|cs|cs surf l tol|k cs|o r|o f|o f|n o t0 t1 c l|n o t0 t1 c sf l
    |n o u v sf l|root l|root]; unfold step in H; cbv zeta in H.
  - destruct m as [m|]; [destruct (matrix34 m); [|discriminate]|]; injection H as <-; apply (calm_sh s); auto.
  - destruct (_ && _); [|discriminate]. injection H as <-. apply (calm_sh s); auto.
  - injection H as <-. apply (calm_sh s); auto.
  - injection H as <-. apply (calm_sh s); auto.
  - injection H as <-. apply (calm_sh s); auto.
  - destruct (make_shape _ _ _ _ _) as [x|] eqn:M; [|discriminate]. injection H as <-.
    apply calm_new; auto. eapply make_shape_calm; eauto.
  - destruct (make_shape _ _ _ _ _) as [x|] eqn:M; [|discriminate]. injection H as <-.
    apply calm_new; auto. eapply make_shape_calm; eauto.
  - destruct (make_wire_l cs s s' H G Z) as (x & Q & _ & _ & N & _).
    intros o y Y. unfold get_shape in Y. rewrite Q in Y. apply nth_snoc in Y. destruct Y as [Y|[_ ->]]; eauto.
  - unfold make_face in H. destruct cs as [|r0 cs]; [discriminate|].
    destruct (make_shape Fa (r0 :: cs) tol (0, 0, 0)%Q s) as [x|] eqn:M; [|discriminate].
    destruct (get_shape s (r_shape r0)) as [y0|]; [|discriminate].
    destruct (negb _); [discriminate|].
    match type of H with match ?m with _ => _ end = _ => destruct m as [[s1 cs1]|] eqn:W; [|discriminate] end.
    assert (Z1 : calm s1).
    { destruct (s_kind y0); try (injection W as <- _; auto; fail).
      destruct (make_wire (r0 :: cs) s) as [s2|] eqn:MW; [|discriminate]. injection W as <- _.
      destruct (make_wire_l _ _ _ MW G Z) as (x' & Q & _ & _ & N & _).
      intros o y Y. unfold get_shape in Y. rewrite Q in Y. apply nth_snoc in Y. destruct Y as [Y|[_ ->]]; eauto. }
    apply make_shape_calm in M. destruct (negb _); [discriminate|].
    destruct surf as [sf|]; [destruct (_ && _); [|discriminate]|]; injection H as <-; apply calm_new; auto.
  - destruct k; try discriminate; (destruct (make_shape _ _ _ _ _) as [x|] eqn:M; [|discriminate]; injection H as <-;
    apply calm_new; auto; eapply make_shape_calm; eauto).
  - destruct (get_shape s o) as [x|] eqn:X; [|discriminate]. destruct (ref_ok _ _ _); [|discriminate].
    injection H as <-. apply calm_set; auto. cbn. eapply Z; eauto.
  - destruct (get_shape s o) as [x|] eqn:X; [|discriminate]. destruct (_ =? _); [|discriminate].
    injection H as <-. apply calm_set; auto. cbn. eapply Z; eauto.
  - destruct (get_shape s o) as [x|] eqn:X; [|discriminate]. destruct (s_kind x); try discriminate.
    injection H as <-. apply calm_set; auto. cbn. eapply Z; eauto.
  - destruct (get_shape s o) as [x|] eqn:X; [|discriminate]. destruct (s_kind x); try discriminate;
    (destruct (_ && _); [|discriminate]; unfold add_repr in H; rewrite X in H; injection H as <-;
     apply calm_set; auto; cbn; eapply Z; eauto).
  - destruct (get_shape s o) as [x|] eqn:X; [|discriminate]. destruct (s_kind x); try discriminate;
    (destruct (_ && _); [|discriminate]; unfold add_repr in H; rewrite X in H; injection H as <-;
     apply calm_set; auto; cbn; eapply Z; eauto).
  - destruct (get_shape s o) as [x|] eqn:X; [|discriminate]. destruct (s_kind x); try discriminate;
    (destruct (_ && _); [|discriminate]; unfold add_repr in H; rewrite X in H; injection H as <-;
     apply calm_set; auto; cbn; eapply Z; eauto).
  - destruct (write_model root l s) as [[f s2]|] eqn:W; [|discriminate]. injection H as <-.
    unfold write_model in W. destruct (index_all root l s) as [s1|] eqn:I; [|discriminate].
    destruct (index_all_good _ _ _ _ I G) as (_ & E & _). cbv zeta in W.
    destruct (mapo _ _); [|discriminate]. destruct (mapo _ _); [|discriminate]. destruct (mapo _ _); [|discriminate].
    destruct (mapo _ _); [|discriminate]. destruct (mapo _ _); [|discriminate]. injection W as _ <-.
    apply (calm_hext s); auto.
  - destruct (ids s SH root); [injection H as <-; auto|].
    destruct (index_all_good _ _ _ _ H G) as (_ & E & _). apply (calm_hext s); auto.
Qed.
Lemma run_calm cs : forall s s', run cs s = Some s' -> good s -> calm s -> calm s'.
Proof.
  induction cs as [|c cs IH]; intros s s' H G Z; cbn in H; [injection H as <-; auto|].
  destruct (step c s) as [s1|] eqn:S1; [|discriminate]. eapply IH; eauto; [eapply step_good|eapply step_calm]; eauto.
Qed.
Lemma init_calm : calm init.
Proof. intros [|o] x X; discriminate. Qed.
