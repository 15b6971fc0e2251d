(** Histories of calls, the number of the root, and the theorems about write_model. *)
From Coq Require Import List Arith Bool ZArith QArith Lia.
From Verif Require Import Brep_Model Brep_Spec Brep_Proofs Brep_Read.
Import ListNotations.
Local Open Scope nat_scope.
Local Open Scope list_scope.

(** * The search keeps the heap well formed *)
Definition restart (s : st) : st := St (hp s) (ids s) (fun _ => []).
Definition stale (s : st) (c : cls) (o : nat) : Prop := ids s c o <> None.
Lemma start_any s : good s -> ok (fun _ _ => True) (stale s) (restart s).
Proof.
  intros [W U I]. constructor.
  - constructor; auto.
  - constructor; auto.
  - constructor; cbn; auto.
    + intros c o i _ H. left. red. congruence.
    + intros c [|j] o H; discriminate.
    + intros [|j] o x r H; discriminate.
    + intros [|j] o l p H; discriminate.
Qed.
Lemma start_comp E s : comp E (restart s).
Proof. intros o []. Qed.

Lemma index_all_good root l s s' : index_all root l s = Some s' -> good s ->
  good s' /\ hext (hp s) (hp s') /\ ids_le s s'.
Proof.
  intros H G. unfold index_all in H. fold (restart s) in H.
  destruct (dfs 8 root (restart s)) as [s1|] eqn:F; [|discriminate].
  destruct (dfs_spec _ _ 8 root _ _ (fun _ => False) F (start_any s G) I (start_comp _ s)) as (K1 & E1 & C1 & _).
  destruct (dfs_loc_spec _ _ _ _ _ _ H K1 I C1) as (K2 & E2 & _).
  assert (E := ext_trans _ _ _ E1 E2). split; [apply (o_good _ _ _ K2)|]. split; [apply E|].
  intros c o i Q. apply (e_ids _ _ E). auto.
Qed.
Lemma flip_good s : good s -> good (flip_ids s).
Proof.
  intros [W U I]. constructor; cbn; auto.
  - intros c o H. rewrite U by auto. destruct (_ && _); auto.
Qed.
Lemma write_good root l s f s' : write_model root l s = Some (f, s') -> good s -> good s'.
Proof.
  intros H G. unfold write_model in H. destruct (index_all root l s) as [s1|] eqn:F; [|discriminate].
  destruct (index_all_good _ _ _ _ F G) as (G1 & _).
  cbv zeta in H. repeat match type of H with match ?m with _ => _ end = _ => destruct m; [|discriminate] end.
  injection H as _ <-. apply flip_good; auto.
Qed.

(** * Construction keeps the heap well formed *)
Lemma init_good : good init.
Proof.
  constructor.
  - constructor; cbn; auto.
    + intros [|[|o]] l p H; cbn in H; discriminate.
    + intros [|o] x H; discriminate.
  - intros c o H. cbn. destruct (cls_eqb_spec c CL); cbn; auto. subst. cbn in H.
    destruct o; [lia|auto].
  - intros [|[|o]] H; cbn in *; auto; discriminate.
Qed.
(** Tables that only grow, shapes kept. *)
Record hgrow (h h' : heap) : Prop := {
  hg_loc : forall o x, nth_error (h_loc h) o = Some x -> nth_error (h_loc h') o = Some x;
  hg_size : forall c, size c h <= size c h';
  hg_sh : forall o x, nth_error (h_sh h) o = Some x -> exists x', nth_error (h_sh h') o = Some x' /\ s_kind x' = s_kind x }.
Lemma wfx_grow h h' x : wfx h x -> hgrow h h' -> wfx h' x.
Proof.
  intros [a b c] [g1 g2 g3]. constructor; auto.
  - intros r Hr. destruct (a r Hr) as (y & Y & S & L). destruct (g3 _ _ Y) as (y' & Y' & Ky).
    exists y'. split; auto. rewrite Ky. split; auto. specialize (g2 CL). cbn in g2. lia.
  - intros r Hr. destruct (b r Hr) as (Kr & S). split; auto. intros c' o Ho.
    specialize (S c' o Ho). specialize (g2 c'). lia.
Qed.
(** Growing of one of the tables. *)
Lemma good_grow s s' : good s -> hgrow (hp s) (hp s') ->
  (forall c o, size c (hp s') <= o -> ids s' c o = None) ->
  (forall o, nth_error (h_loc (hp s')) o = Some LIdent -> ids s' CL o = Some 0) ->
  (forall o l p, nth_error (h_loc (hp s')) o = Some (LComp l) -> In p l -> fst p < o) ->
  (forall o x, nth_error (h_sh (hp s')) o = Some x -> nth_error (h_sh (hp s)) o = Some x \/ wfx (hp s') x) ->
  good s'.
Proof.
  intros [W U I] G U' I' C S. constructor; auto. constructor; auto.
  - apply (hg_loc _ _ G). apply W.
  - intros o x X. destruct (S o x X); auto. eapply wfx_grow; [|eauto]. eapply W; eauto.
Qed.
Lemma new_loc_good x s : good s -> (forall l p, x = LComp l -> In p l -> fst p < length (h_loc (hp s))) ->
  good (new_loc x s).
Proof.
  intros G H. assert (G' := G). destruct G as [W U I].
  assert (HG : hgrow (hp s) (hp (new_loc x s))).
  { constructor; cbn.
    - intros o y Y. apply nth_app_l; auto.
    - intros c. destruct c; cbn; auto. rewrite app_length; lia.
    - eauto. }
  apply (good_grow s); auto.
  - intros c o L. assert (L' : size c (hp s) <= o).
    { pose proof (hg_size _ _ HG c). lia. }
    cbn. destruct x; auto. destruct (cls_eqb_spec c CL); cbn; auto. subst.
    cbn in L. rewrite app_length in L. cbn in L. destruct (o =? _) eqn:Q; auto.
    apply Nat.eqb_eq in Q. lia.
  - intros o Y. cbn in Y. apply nth_snoc in Y. destruct Y as [Y|[-> <-]]; cbn.
    + pose proof (I o Y). destruct x; auto.
      destruct (cls_eqb_spec CL CL); cbn; auto. destruct (o =? _); auto.
    + destruct (cls_eqb_spec CL CL); [|congruence]. rewrite Nat.eqb_refl. auto.
  - intros o l p Y. cbn in Y. apply nth_snoc in Y. destruct Y as [Y|[-> Y]].
    + apply (w_comp _ W _ _ _ Y).
    + intros Hp. eapply H; eauto.
Qed.
Lemma new_geo_good f g s : (f = new_c2 \/ f = new_c3 \/ f = new_s) -> good s -> good (f g s).
Proof.
  intros F G. apply (good_grow s); auto; destruct G as [W U I].
  - constructor; destruct F as [-> | [-> | ->]]; cbn; eauto; intros c; destruct c; cbn; auto; rewrite app_length; lia.
  - intros c o L. assert (size c (hp s) <= o).
    { destruct F as [-> | [-> | ->]]; destruct c; cbn in *; auto; rewrite app_length in L; cbn in L; lia. }
    destruct F as [-> | [-> | ->]]; apply U; auto.
  - destruct F as [-> | [-> | ->]]; apply I.
  - destruct F as [-> | [-> | ->]]; apply W.
  - destruct F as [-> | [-> | ->]]; auto.
Qed.
Lemma new_shape_grow x s : hgrow (hp s) (hp (new_shape x s)).
Proof.
  constructor; cbn; auto.
  - intros c. destruct c; cbn; auto. rewrite app_length; lia.
  - intros o y Y. exists y. split; auto. apply nth_app_l; auto.
Qed.
Lemma new_shape_good x s : good s -> wfx (hp s) x -> good (new_shape x s).
Proof.
  intros G H. apply (good_grow s); auto.
  - apply new_shape_grow.
  - intros c o L. apply (g_un _ G). pose proof (hg_size _ _ (new_shape_grow x s) c). lia.
  - apply G.
  - apply G.
  - cbn. intros o y Y. apply nth_snoc in Y. destruct Y as [Y|[_ ->]]; auto. right.
    eapply wfx_grow; eauto. apply new_shape_grow.
Qed.
Lemma set_shape_grow o x x' s : get_shape s o = Some x -> s_kind x' = s_kind x -> hgrow (hp s) (hp (set_shape o x' s)).
Proof.
  intros X Kx. assert (L : o < length (h_sh (hp s))) by (eapply nth_some_lt; eauto).
  constructor; cbn; auto.
  - intros c. destruct c; cbn; auto. rewrite update_length; auto.
  - intros p y Y. destruct (Nat.eq_dec p o) as [->|N].
    + exists x'. split; [apply update_same; auto|]. unfold get_shape in X. congruence.
    + exists y. rewrite update_other; auto.
Qed.
Lemma set_shape_good o x x' s : good s -> get_shape s o = Some x -> s_kind x' = s_kind x -> wfx (hp s) x' ->
  good (set_shape o x' s).
Proof.
  intros G X Kx Wx. assert (HG := set_shape_grow o x x' s X Kx).
  assert (L : o < length (h_sh (hp s))) by (eapply nth_some_lt; eauto).
  apply (good_grow s); auto.
  - intros c p Lp. apply (g_un _ G). pose proof (hg_size _ _ HG c). lia.
  - apply G.
  - apply G.
  - cbn. intros p y Y. destruct (Nat.eq_dec p o) as [->|N].
    + rewrite update_same in Y by auto. injection Y as <-. right. eapply wfx_grow; eauto.
    + rewrite update_other in Y; auto.
Qed.
Lemma good_wfx s o x : good s -> get_shape s o = Some x -> wfx (hp s) x.
Proof. intros G X. eapply (w_sh _ (g_wf _ G)); eauto. Qed.
(** Changes of other attributes. *)
Lemma wfx_same h x x' : wfx h x -> s_kind x' = s_kind x -> s_childs x' = s_childs x -> s_repr x' = s_repr x -> wfx h x'.
Proof. intros [a b c] e1 e2 e3. constructor; rewrite ?e1, ?e2, ?e3; auto. Qed.
Lemma ref_ok_spec k s r : ref_ok k s r = true -> exists y, nth_error (h_sh (hp s)) (r_shape r) = Some y /\
  sub_ok k (s_kind y) = true /\ r_loc r < length (h_loc (hp s)).
Proof.
  unfold ref_ok, get_shape. destruct (nth_error (h_sh (hp s)) (r_shape r)) as [y|]; [|discriminate].
  intros H. apply andb_true_iff in H. destruct H as [a b]. apply Nat.ltb_lt in b. eauto.
Qed.
Lemma make_shape_wfx k cs tol p s x : make_shape k cs tol p s = Some x -> wfx (hp s) x /\ s_kind x = k /\
  s_childs x = cs /\ s_repr x = [].
Proof.
  unfold make_shape. destruct (forallb (ref_ok k s) cs) eqn:F; [|discriminate]. intros H. injection H as <-.
  rewrite forallb_forall in F. split; [|auto]. constructor; cbn.
  - intros r Hr. apply ref_ok_spec; auto.
  - intros r [].
  - auto.
Qed.
Lemma put_nedges_good f v s : good s -> good (put_nedges f v s) /\ hgrow (hp s) (hp (put_nedges f v s)).
Proof.
  intros G. unfold put_nedges. destruct (get_shape s v) as [y|] eqn:Y.
  - split.
    + eapply set_shape_good; eauto. eapply wfx_same; [eapply good_wfx; eauto|..]; auto.
    + eapply set_shape_grow; eauto.
  - split; auto. constructor; auto. eauto.
Qed.
Lemma hgrow_trans a b c : hgrow a b -> hgrow b c -> hgrow a c.
Proof.
  intros [a1 a2 a3] [b1 b2 b3]. constructor; auto.
  - intros k. specialize (a2 k). specialize (b2 k). lia.
  - intros o x X. destruct (a3 o x X) as (y & Y & Ky). destruct (b3 o y Y) as (z & Z & Kz). exists z.
    split; auto. congruence.
Qed.
Lemma hgrow_refl a : hgrow a a.
Proof. constructor; auto. eauto. Qed.
Lemma fold_put_good (P : st -> nat -> st) : (forall s v, good s -> good (P s v) /\ hgrow (hp s) (hp (P s v))) ->
  forall l s, good s -> good (fold_left P l s) /\ hgrow (hp s) (hp (fold_left P l s)).
Proof.
  intros HP. induction l as [|v l IH]; intros s G; cbn.
  - split; auto. apply hgrow_refl.
  - destruct (HP s v G) as [a b]. destruct (IH _ a) as [c d]. split; auto. eapply hgrow_trans; eauto.
Qed.
Lemma set_closed_good cs s : good s -> good (snd (set_closed cs s)) /\ hgrow (hp s) (hp (snd (set_closed cs s))).
Proof.
  intros G. unfold set_closed. set (vs := wire_vertices s cs). set (ks := keys vs []). clearbody ks.
  destruct (fold_put_good (fun s v => put_nedges S v s) (fun s v => put_nedges_good S v s) vs s G) as [G1 H1].
  cbv zeta. set (s1 := fold_left _ vs s) in *. clearbody s1.
  generalize true as b. revert s1 G1 H1. induction ks as [|v l IH]; intros s1 G1 H1 b; cbn; auto.
  destruct (put_nedges_good (fun _ => 0) v s1 G1) as [G2 H2]. apply IH; auto. eapply hgrow_trans; eauto.
Qed.
Lemma make_wire_good cs s s' : make_wire cs s = Some s' -> good s -> good s' /\ hgrow (hp s) (hp s') /\
  exists x, nth_error (h_sh (hp s')) (length (h_sh (hp s))) = Some x /\ s_kind x = Wi.
Proof.
  unfold make_wire. destruct (make_shape Wi cs 0 (0, 0, 0)%Q s) as [x|] eqn:M; [|discriminate].
  destruct (make_shape_wfx _ _ _ _ _ _ M) as (Wx & Kx & Cx & Rx).
  intros H G. destruct (set_closed_good cs s G) as [G1 H1].
  destruct (set_closed cs s) as [c s1] eqn:SC. cbn [snd] in *. injection H as <-.
  assert (L : length (h_sh (hp s1)) = length (h_sh (hp s))).
  { replace s1 with (snd (set_closed cs s)) by (rewrite SC; auto). clear. unfold set_closed. cbv zeta.
    set (vs := wire_vertices s cs). set (ks := keys vs []).
    assert (PL : forall f v s, length (h_sh (hp (put_nedges f v s))) = length (h_sh (hp s))).
    { intros f v t. unfold put_nedges. destruct (get_shape t v); auto. cbn. apply update_length. }
    transitivity (length (h_sh (hp (fold_left (fun s0 v => put_nedges S v s0) vs s)))).
    - generalize (fold_left (fun s0 v => put_nedges S v s0) vs s) as t. generalize true as b. clearbody ks.
      induction ks as [|v l IH]; intros b t; cbn; auto. rewrite IH. apply PL.
    - clearbody vs. clear ks. revert s. induction vs as [|v l IH]; intros t; cbn; auto. rewrite IH. apply PL. }
  set (x' := with_flags _ x).
  assert (Wx' : wfx (hp s1) x').
  { eapply wfx_grow; [|eauto]. eapply wfx_same; eauto. }
  split; [apply new_shape_good; auto|]. split; [eapply hgrow_trans; [eauto|apply new_shape_grow]|].
  exists x'. split; auto. cbn. rewrite <- L. apply nth_snoc_new.
Qed.
Lemma make_face_good cs surf l tol s s' : make_face cs surf l tol s = Some s' -> good s -> good s'.
Proof.
  intros H G. unfold make_face in H. destruct cs as [|r0 cs]; [discriminate|].
  remember (r0 :: cs) as cs0. clear Heqcs0.
  destruct (make_shape Fa cs0 tol (0, 0, 0)%Q s) as [x|] eqn:M; [|discriminate].
  destruct (make_shape_wfx _ _ _ _ _ _ M) as (Wx & Kx & Cx & Rx).
  destruct (get_shape s (r_shape r0)) as [y0|]; [|discriminate].
  destruct (negb _); [discriminate|].
  match type of H with match ?m with _ => _ end = _ => destruct m as [[s1 cs1]|] eqn:MM; [|discriminate] end.
  assert (A : good s1 /\ hgrow (hp s) (hp s1) /\ wfx (hp s1) (with_childs cs1 x)).
  { assert (B : good s /\ hgrow (hp s) (hp s) /\ wfx (hp s) (with_childs cs0 x)).
    { split; auto. split; [apply hgrow_refl|]. eapply wfx_same; eauto. }
    destruct (s_kind y0); try (injection MM as <- <-; auto).
    destruct (make_wire cs0 s) as [s2|] eqn:MW; [|discriminate]. injection MM as <- <-.
    destruct (make_wire_good _ _ _ MW G) as (G2 & H2 & w & Wn & Kw).
    split; auto. split; auto. constructor; cbn.
    - intros r [<-|[]]. cbn. exists w. split; auto. rewrite Kx, Kw. split; auto.
      pose proof (w_id _ (g_wf _ G2)) as Q. apply nth_some_lt in Q. auto.
    - rewrite Rx. intros r [].
    - auto. }
  destruct A as (G1 & H1 & W1). destruct (negb _); [discriminate|].
  destruct surf as [sf|].
  - destruct (_ && _) eqn:B; [|discriminate]. injection H as <-. apply andb_true_iff in B.
    destruct B as [B1 B2]. apply Nat.ltb_lt in B1. apply Nat.ltb_lt in B2.
    apply new_shape_good; auto. destruct W1 as [a b c]. constructor; cbn; auto.
    + intros r [<-|[]]. rewrite Kx. split; [cbn; auto|]. intros c' o [Q|[Q|[]]]; injection Q as <- <-; auto.
    + eauto.
  - injection H as <-. apply new_shape_good; auto.
Qed.
Lemma add_repr_good o x r s s' : add_repr o r s = Some s' -> good s -> get_shape s o = Some x ->
  (s_kind x = Ed \/ s_kind x = Ve) -> repr_kind (s_kind x) r ->
  (forall c p, In (c, p) (repr_refs r) -> p < size c (hp s)) -> good s'.
Proof.
  intros H G X Kx RK RR. unfold add_repr in H. rewrite X in H. injection H as <-.
  eapply set_shape_good; eauto. destruct (good_wfx s o x G X) as [a b c]. constructor; cbn; auto.
  - intros q Hq. apply in_app_or in Hq. destruct Hq as [Hq|[<-|[]]]; auto.
  - intros Kf. destruct Kx; congruence.
Qed.
Lemma step_good c s s' : step c s = Some s' -> good s -> good s'.
Proof.
  intros H G. destruct c; cbn [step] in H.
  - destruct m as [m|].
    + destruct (matrix34 m); [|discriminate]. injection H as <-. apply new_loc_good; auto. congruence.
    + injection H as <-. apply new_loc_good; auto. congruence.
  - destruct (_ && _) eqn:B; [|discriminate]. injection H as <-. apply andb_true_iff in B. destruct B as [_ B].
    rewrite forallb_forall in B. apply new_loc_good; auto. intros l0 p Q Hp. injection Q as <-.
    apply B in Hp. apply Nat.ltb_lt in Hp. auto.
  - injection H as <-. apply (new_geo_good new_c2); auto.
  - injection H as <-. apply (new_geo_good new_c3); auto.
  - injection H as <-. apply (new_geo_good new_s); auto.
  - destruct (make_shape Ve [] tol p s) as [x|] eqn:M; [|discriminate]. injection H as <-.
    apply new_shape_good; auto. eapply make_shape_wfx; eauto.
  - match type of H with match ?m with _ => _ end = _ => destruct m as [x|] eqn:M; [|discriminate] end. injection H as <-.
    apply new_shape_good; auto. eapply make_shape_wfx; eauto.
  - eapply make_wire_good; eauto.
  - eapply make_face_good; eauto.
  - destruct (match k with Co | Cs | So | Sh => true | _ => false end) eqn:Q; [|destruct k; discriminate].
    assert (H' : match make_shape k cs 0 (0, 0, 0)%Q s with Some x => Some (new_shape x s) | None => None end = Some s')
      by (destruct k; discriminate || auto).
    destruct (make_shape k cs 0 (0, 0, 0)%Q s) as [x|] eqn:M; [|discriminate]. injection H' as <-.
    apply new_shape_good; auto. eapply make_shape_wfx; eauto.
  - destruct (get_shape s o) as [x|] eqn:X; [|discriminate].
    destruct (ref_ok (s_kind x) s r) eqn:R; [|discriminate]. injection H as <-.
    eapply set_shape_good; eauto. destruct (good_wfx s o x G X) as [a b c]. constructor; cbn; auto.
    intros q Hq. apply in_app_or in Hq. destruct Hq as [Hq|[<-|[]]]; auto. apply ref_ok_spec; auto.
  - destruct (get_shape s o) as [x|] eqn:X; [|discriminate].
    destruct (length f =? 7); [|discriminate]. injection H as <-.
    eapply set_shape_good; eauto. eapply wfx_same; [eapply good_wfx; eauto|..]; auto.
  - destruct (get_shape s o) as [x|] eqn:X; [|discriminate].
    destruct (s_kind x); try discriminate. injection H as <-.
    eapply set_shape_good; eauto. eapply wfx_same; [eapply good_wfx; eauto|..]; auto.
  - destruct (get_shape s o) as [x|] eqn:X; [|discriminate].
    assert (KX : s_kind x = Ed \/ s_kind x = Ve) by (destruct (s_kind x); auto; discriminate).
    assert (H' : (if near && has (h_c3 (hp s)) c && has (h_loc (hp s)) l then add_repr o (R3 t0 t1 c l) s else None) = Some s')
      by (destruct (s_kind x); auto; discriminate).
    destruct (_ && _) eqn:B; [|discriminate]. apply andb_true_iff in B. destruct B as [B B2].
    apply andb_true_iff in B. destruct B as [_ B1]. apply Nat.ltb_lt in B1. apply Nat.ltb_lt in B2.
    eapply add_repr_good; eauto.
    + destruct KX as [-> | ->]; cbn; auto.
    + intros c' p [Q|[Q|[]]]; injection Q as <- <-; auto.
  - destruct (get_shape s o) as [x|] eqn:X; [|discriminate].
    assert (KX : s_kind x = Ed \/ s_kind x = Ve) by (destruct (s_kind x); auto; discriminate).
    assert (H' : (if near && has (h_c2 (hp s)) c && has (h_s (hp s)) sf && has (h_loc (hp s)) l
                  then add_repr o (R2 t0 t1 c sf l) s else None) = Some s')
      by (destruct (s_kind x); auto; discriminate).
    destruct (_ && _) eqn:B; [|discriminate]. apply andb_true_iff in B. destruct B as [B B3].
    apply andb_true_iff in B. destruct B as [B B2]. apply andb_true_iff in B. destruct B as [_ B1].
    apply Nat.ltb_lt in B1. apply Nat.ltb_lt in B2. apply Nat.ltb_lt in B3.
    eapply add_repr_good; eauto.
    + destruct KX as [-> | ->]; cbn; auto.
    + intros c' p [Q|[Q|[Q|[]]]]; injection Q as <- <-; auto.
  - destruct (get_shape s o) as [x|] eqn:X; [|discriminate].
    destruct (s_kind x) eqn:Kx; try discriminate. destruct (_ && _); [|discriminate].
    eapply add_repr_good; eauto.
    + rewrite Kx. cbn. auto.
    + intros c' p [].
  - destruct (write_model root l s) as [[f s1]|] eqn:W; [|discriminate]. cbn in H. injection H as <-.
    eapply write_good; eauto.
  - destruct (ids s SH root).
    + injection H as <-. auto.
    + eapply index_all_good; eauto.
Qed.
Lemma run_good cs : forall s s', run cs s = Some s' -> good s -> good s'.
Proof.
  induction cs as [|c cs IH]; intros s s' H G; cbn in H.
  - injection H as <-. auto.
  - destruct (step c s) as [s1|] eqn:S; [|discriminate]. eapply IH; eauto. eapply step_good; eauto.
Qed.

(** * The root is the last shape *)
Lemma visit_grp_sh c o s : c <> SH -> grp (visit c o s) SH = grp s SH.
Proof. intros N. apply visit_grp_other. congruence. Qed.
Lemma loc_dfs_grp fuel : forall o s s', loc_dfs fuel o s = Some s' -> grp s' SH = grp s SH.
Proof.
  induction fuel as [|fuel IH]; intros o s s' H; [discriminate|]. cbn in H.
  destruct (nth_error (h_loc (hp s)) o) as [[|m|l]|]; try discriminate.
  - injection H as <-. apply visit_grp_sh; congruence.
  - injection H as <-. apply visit_grp_sh; congruence.
  - destruct (foldo (fun p => loc_dfs fuel (fst p)) l s) as [s1|] eqn:F; [|discriminate]. injection H as <-.
    rewrite visit_grp_sh by congruence. revert s F. induction l as [|p l IHl]; intros s F; cbn in F.
    + congruence.
    + destruct (loc_dfs fuel (fst p) s) as [s2|] eqn:F2; [|discriminate]. rewrite (IHl _ F). eauto.
Qed.
Lemma repr_dfs_grp r s s' : repr_dfs r s = Some s' -> grp s' SH = grp s SH.
Proof.
  destruct r; cbn [repr_dfs]; unfold dfs_loc; intros H.
  - apply loc_dfs_grp in H. rewrite H. apply visit_grp_sh; congruence.
  - apply loc_dfs_grp in H. rewrite H. rewrite !visit_grp_sh by congruence. auto.
  - congruence.
  - discriminate.
Qed.
Lemma foldo_grp {A} (f : A -> st -> option st) : (forall x s s', f x s = Some s' -> grp s' SH = grp s SH) ->
  forall l s s', foldo f l s = Some s' -> grp s' SH = grp s SH.
Proof.
  intros H. induction l as [|x l IH]; intros s s' F; cbn in F; [congruence|].
  destruct (f x s) as [s1|] eqn:F1; [|discriminate]. rewrite (IH _ _ F). eauto.
Qed.
Lemma add_repr_grp e r s s' : add_repr e r s = Some s' -> grp s' = grp s.
Proof. unfold add_repr. destruct (get_shape s e); [|discriminate]. intros H. injection H as <-. auto. Qed.
Lemma implicit_curve_grp e s s' : implicit_curve e s = Some s' -> grp s' SH = grp s SH.
Proof.
  unfold implicit_curve. destruct (get_shape s e); [|discriminate].
  destruct (subshapes s0) as [|a [|b [|]]]; try discriminate.
  destruct (point_of s a); [|discriminate]. destruct (point_of s b); [|discriminate].
  intros H. apply add_repr_grp in H. rewrite H. auto.
Qed.
Lemma attach_edge_grp sf d p s s' : attach_edge sf d p s = Some s' -> grp s' SH = grp s SH.
Proof.
  unfold attach_edge. destruct (get_shape s (snd p)) as [y|]; [|discriminate].
  destruct (subshapes y) as [|a [|b ?]]; try discriminate.
  destruct (ids s SH a); [|discriminate]. destruct (ids s SH b); [|discriminate].
  destruct (dict_get n d); [|discriminate]. destruct (dict_get n0 d); [|discriminate].
  intros H. apply add_repr_grp in H. rewrite H. auto.
Qed.
Lemma implicit_surface_grp o s s' : implicit_surface o s = Some s' -> grp s' SH = grp s SH.
Proof.
  unfold implicit_surface. intros H.
  destruct (get_shape s o) as [x|]; [|discriminate]. destruct (face_refs s x) as [refs|]; [|discriminate].
  destruct (mapo _ refs) as [keyed|]; [|discriminate]. destruct (mapo _ refs) as [walks|]; [|discriminate].
  destruct (mapo _ (concat walks)) as [vs|]; [|discriminate]. cbv zeta in H.
  destruct (negb _); [discriminate|]. destruct (mapo _ (odds (rotate vs))) as [pts|]; [|discriminate].
  destruct (patch pts) as [[g uvs]|]; [|discriminate].
  apply foldo_grp in H; [|apply attach_edge_grp]. rewrite H. auto.
Qed.
Lemma edge_dfs_grp o s s' : edge_dfs o s = Some s' -> grp s' SH = grp s SH.
Proof.
  unfold edge_dfs. destruct (get_shape s o) as [x|]; [|discriminate]. intros H.
  match type of H with match ?m with _ => _ end = _ => destruct m as [s1|] eqn:M; [|discriminate] end.
  assert (grp s1 SH = grp s SH).
  { destruct (s_repr x); [apply implicit_curve_grp in M; auto|congruence]. }
  destruct (get_shape s1 o) as [x1|]; [|discriminate].
  apply foldo_grp in H; [congruence|]. apply repr_dfs_grp.
Qed.

Section Last.
Variable D T : cls -> nat -> Prop.
Hypothesis NT : forall o, D SH o -> ~ T SH o.
Definition keeps (f : nat -> st -> option st) : Prop :=
  forall o s s', f o s = Some s' -> ok D T s -> D SH o -> done s SH o -> grp s' SH = grp s SH.
Lemma child_done s o x r : ok D T s -> D SH o -> done s SH o -> get_shape s o = Some x -> In r (s_childs x) ->
  done s SH (r_shape r).
Proof.
  intros K Hd Dn X Hr.
  destruct (done_pos D T s SH o (o_inv _ _ _ K) Hd Dn) as [Q|(j & _ & Hj)]; [exfalso; eapply NT; eauto|].
  destruct (i_child _ _ _ (o_inv _ _ _ K) j o x r Hj X Hr) as [[Q|(k & _ & Hk)] _].
  - exfalso. eapply NT; [|eauto]. apply (child_D D T s o x r); auto.
  - destruct (i_grp _ _ _ (o_inv _ _ _ K) SH k _ Hk) as (_ & Q & _). red. congruence.
Qed.
Lemma foldo_keeps f l : keeps f -> spec_dfs D T f -> forall s s', foldo f l s = Some s' -> ok D T s ->
  (forall o, In o l -> D SH o /\ done s SH o) -> grp s' SH = grp s SH /\ ok D T s' /\ ext s s'.
Proof.
  intros Kf Sf. induction l as [|o l IH]; intros s s' H K Hl; cbn in H.
  - injection H as <-. split; auto. split; auto. apply ext_refl.
  - destruct (f o s) as [s1|] eqn:F; [|discriminate].
    destruct (Hl o) as [Do Dn]; [cbn; auto|].
    assert (G := Kf _ _ _ F K Do Dn).
    destruct (Sf _ _ _ (fun _ => True) F K Do) as (K1 & E1 & _). { intros p _ N. exfalso; auto. }
    destruct (IH _ _ H K1) as (G2 & K2 & E2).
    { intros p Hp. destruct (Hl p) as [a b]; [cbn; auto|]. split; auto. apply (done_ext s); auto. }
    split; [congruence|]. split; auto. eapply ext_trans; eauto.
Qed.
Lemma face_dfs_grp f o x s s' : keeps f -> spec_dfs D T f -> face_dfs f o s = Some s' -> ok D T s -> D SH o ->
  get_shape s o = Some x -> s_kind x = Fa -> done s SH o -> grp s' SH = grp s SH.
Proof.
  intros Kf Sf H K Hd X Kx Dn. unfold face_dfs in H. rewrite X in H.
  match type of H with match ?m with _ => _ end = _ => destruct m as [s1|] eqn:M; [|discriminate] end.
  assert (A : grp s1 SH = grp s SH /\ ok D T s1 /\ ext s s1 /\ exists x1, get_shape s1 o = Some x1).
  { destruct (s_repr x) eqn:Rx.
    - split; [eapply implicit_surface_grp; eauto|].
      destruct (implicit_surface_spec D T o x s s1 (fun _ => True) M K Hd X Kx Rx) as (K1 & E1 & _ & R).
      { intros p _ N. exfalso; auto. }
      split; auto. split; auto. destruct R as (sf & l & R). eauto.
    - injection M as <-. split; auto. split; auto. split; [apply ext_refl|]. eauto. }
  destruct A as (G1 & K1 & E1 & x1 & X1). rewrite X1 in H.
  destruct (s_repr x1) as [|[| | |sf l] [|]] eqn:R1; try discriminate.
  destruct (dfs_loc l (visit CS sf s1)) as [s2|] eqn:DL; [|discriminate].
  assert (G2 : grp s2 SH = grp s1 SH).
  { apply loc_dfs_grp in DL. rewrite DL. apply visit_grp_sh; congruence. }
  assert (Rs : D CS sf /\ sf < size CS (hp s1)).
  { eapply (repr_D D T s1 o x1 (RF sf l)); eauto; rewrite ?R1; cbn; auto. }
  assert (Rl : D CL l /\ l < size CL (hp s1)).
  { eapply (repr_D D T s1 o x1 (RF sf l)); eauto; rewrite ?R1; cbn; auto. }
  destruct Rs as [Rs1 Rs2], Rl as [Rl1 Rl2].
  assert (Kv : ok D T (visit CS sf s1)) by (apply visit_ok; auto; cbn; tauto).
  destruct (dfs_loc_spec D T _ _ _ (fun _ => True) DL Kv Rl1) as (K2 & E2 & _ & H2 & _).
  { intros p _ N. exfalso; auto. }
  rewrite visit_hp in H2.
  assert (E12 : ext s1 s2) by (eapply ext_trans; [apply visit_ext|eauto]).
  assert (X2 : get_shape s2 o = Some x1) by (unfold get_shape in *; rewrite H2; auto).
  assert (Dn2 : done s2 SH o) by (apply (done_ext s s2); auto; eapply ext_trans; eauto).
  rewrite <- G1, <- G2.
  assert (W : forall w, In w (subshapes x1) -> D SH w /\ done s2 SH w).
  { intros w Hw. unfold subshapes in Hw. apply in_map_iff in Hw. destruct Hw as (r & <- & Hr). split.
    - apply (child_D D T s2 o x1 r); auto.
    - eapply child_done; eauto. }
  match type of H with foldo ?g _ _ = _ => set (g0 := g) in * end.
  clear - W H K2 Kf Sf NT. revert s2 K2 W H. induction (subshapes x1) as [|w l IH]; intros s2 K2 W H; cbn [foldo] in H.
  - congruence.
  - destruct (g0 w s2) as [s3|] eqn:G; [|discriminate]. unfold g0 in G.
    destruct (get_shape s2 w) as [y|] eqn:Y; [|discriminate].
    destruct (W w) as [Dw Wn]; [cbn; auto|].
    destruct (foldo_keeps f _ Kf Sf _ _ G K2) as (G3 & K3 & E3).
    { intros e He. unfold subshapes in He. apply in_map_iff in He. destruct He as (r & <- & Hr). split.
      - apply (child_D D T s2 w y r); auto.
      - eapply child_done; eauto. }
    rewrite <- G3. apply IH; auto.
    intros v Hv. destruct (W v) as [a b]; [cbn; auto|]. split; auto. apply (done_ext s2); auto.
Qed.
Lemma dfs_keeps fuel : keeps (dfs fuel).
Proof.
  induction fuel as [|fuel IH]; intros o s s' H K Hd Dn; [discriminate|].
  cbn [dfs] in H. destruct (get_shape s o) as [x|] eqn:X; [|discriminate].
  assert (S1 : shape_dfs (dfs fuel) o s = Some s).
  { unfold shape_dfs. unfold done in Dn. destruct (ids s SH o); [auto|congruence]. }
  rewrite S1 in H. destruct (s_kind x) eqn:Kx; try congruence.
  - eapply face_dfs_grp; eauto. apply dfs_spec.
  - eapply edge_dfs_grp; eauto.
  - eapply foldo_grp; eauto. apply repr_dfs_grp.
Qed.
End Last.

(** Classes of shapes by depth. *)
Definition rank (k : kind) : nat :=
  match k with Ve => 1 | Ed => 2 | Wi => 3 | Fa => 4 | Sh => 5 | So => 6 | Cs => 7 | Co => 8 end.
Lemma sub_rank a b : sub_ok a b = true -> rank b < rank a.
Proof. destruct a, b; cbn; intros; try discriminate; lia. Qed.

Lemma childs_dfs_spec (D T : cls -> nat -> Prop) f l : spec_dfs D T f -> forall s s1 E,
  foldo (fun r s => match dfs_loc (r_loc r) s with Some s => f (r_shape r) s | None => None end) l s = Some s1 ->
  ok D T s -> (forall r, In r l -> D SH (r_shape r) /\ D CL (r_loc r)) -> comp E s ->
  ok D T s1 /\ ext s s1 /\ comp E s1.
Proof.
  intros F. induction l as [|r l IH]; intros s s1 E H K DC C.
  - cbn in H. injection H as <-. split; auto. split; [apply ext_refl|]. auto.
  - cbn [foldo] in H. destruct (dfs_loc (r_loc r) s) as [s3|] eqn:G3; [|discriminate].
    destruct (f (r_shape r) s3) as [s2|] eqn:G; [|discriminate].
    destruct (DC r) as [DC1 DC2]; [cbn; auto|].
    destruct (dfs_loc_spec D T _ _ _ E G3 K DC2 C) as (K3 & E3 & C3' & _).
    destruct (F _ _ _ E G K3 DC1 C3') as (K2 & E2 & C2' & _).
    assert (C2'' : comp E s2) by (eapply comp_weaken; [|exact C2']; cbn; tauto).
    destruct (IH s2 s1 E H K2) as (K4 & E4 & C4); auto. { intros q Hq. apply DC. cbn; auto. }
    split; auto. split; [eapply ext_trans; [eapply ext_trans; eauto|eauto]|]. auto.
Qed.
(** The shapes below a given class. *)
Definition below (h : heap) (n : nat) (D : cls -> nat -> Prop) (c : cls) (o : nat) : Prop :=
  D c o /\ (c = SH -> forall x, nth_error (h_sh h) o = Some x -> rank (s_kind x) < n).
Lemma below_ok (D T : cls -> nat -> Prop) s n : ok D T s -> (forall c, grp s c = []) -> ok (below (hp s) n D) T s.
Proof.
  intros [G [r1 r2 r3] [i1 i2 i3 i4]] N. constructor; auto.
  - constructor.
    + intros c o L. split; auto. intros -> x X. apply nth_some_lt in X. cbn in L. lia.
    + intros o Ho. split; auto. congruence.
    + intros c o c' o' [Hd Hr] Hi. split; [eapply r3; eauto|]. intros -> x' X'.
      destruct c; cbn in Hi; try tauto.
      * destruct (nth_error (h_loc (hp s)) o) as [[| |l]|]; cbn in Hi; try tauto.
        apply in_map_iff in Hi. destruct Hi as (p & Q & _). discriminate.
      * destruct (nth_error (h_sh (hp s)) o) as [x|] eqn:X; [|destruct Hi].
        specialize (Hr eq_refl x eq_refl). unfold shape_refs in Hi. apply in_app_or in Hi. destruct Hi as [Hi|Hi].
        -- apply in_flat_map in Hi. destruct Hi as (r & Hr' & [Q|[Q|[]]]); [discriminate|]. injection Q as <-.
           destruct (wx_child _ _ (w_sh _ (g_wf _ G) _ _ X) r Hr') as (y & Y & S & _).
           assert (y = x') by congruence. subst. apply sub_rank in S. lia.
        -- apply in_flat_map in Hi. destruct Hi as (r & Hr' & Hi).
           destruct r; cbn in Hi; intuition discriminate.
  - constructor.
    + intros c o i [Hd _]. apply i1; auto.
    + intros c j o. rewrite N. destruct j; discriminate.
    + intros j o x r. rewrite N. destruct j; discriminate.
    + intros j o l p. rewrite N. destruct j; discriminate.
Qed.
Lemma dfs_last (D T : cls -> nat -> Prop) fuel o s s' : (forall o, D SH o -> ~ T SH o) ->
  dfs fuel o s = Some s' -> ok D T s -> (forall c, grp s c = []) -> D SH o ->
  exists g, grp s' SH = g ++ [o].
Proof.
  intros NT H K NG Hd. destruct fuel as [|fuel]; [discriminate|]. cbn [dfs] in H.
  destruct (get_shape s o) as [x|] eqn:X; [|discriminate].
  destruct (shape_dfs (dfs fuel) o s) as [s1|] eqn:S1; [|discriminate].
  assert (CT : comp (fun _ => True) s) by (intros p _ N; exfalso; auto).
  destruct (shape_dfs_spec D T _ o x s s1 (fun _ => True) (dfs_spec D T fuel) S1 K Hd X CT) as (K1 & E1 & C1 & D1).
  assert (Q : ids s SH o = None).
  { destruct (ids s SH o) as [i|] eqn:Q; auto. exfalso.
    destruct (i_num _ _ _ (o_inv _ _ _ K) SH o i Hd Q) as [Z|[_ Z]]; [eapply NT; eauto|].
    rewrite NG in Z. destruct (i - 1); discriminate. }
  assert (L1 : exists g, grp s1 SH = g ++ [o]).
  { unfold shape_dfs in S1. rewrite Q in S1. unfold get_shape in X. rewrite X in S1.
    match type of S1 with match ?m with _ => _ end = _ => destruct m as [s2|] eqn:F; [|discriminate] end.
    injection S1 as <-. exists (grp s2 SH).
    destruct (ids s2 SH o) as [i|] eqn:Q2.
    2:{ unfold visit. rewrite Q2. cbn. destruct (cls_eqb_spec SH SH); [auto|congruence]. }
    exfalso. unfold visit in *. rewrite Q2 in *.
    destruct (i_num _ _ _ (o_inv _ _ _ K1) SH o i Hd Q2) as [Z|[_ Z]]; [eapply NT; eauto|].
    set (n := rank (s_kind x)). pose proof (below_ok D T s n K NG) as KB.
    destruct (childs_dfs_spec _ _ _ _ (dfs_spec (below (hp s) n D) T fuel) _ _ (fun _ => True) F KB) as (KB2 & _).
    - intros r Hr. destruct (child_D D T s o x r K Hd X Hr) as [a b]. split; split; auto; [|congruence].
      intros _ y Y. destruct (wx_child _ _ (w_sh _ (g_wf _ (o_good _ _ _ K)) _ _ X) r Hr) as (y' & Y' & S & _).
      assert (y' = y) by congruence. subst. apply sub_rank in S. auto.
    - auto.
    - destruct (i_grp _ _ _ (o_inv _ _ _ KB2) SH _ _ Z) as ([_ B] & _).
      specialize (B eq_refl x X). unfold n in B. lia. }
  destruct L1 as [g L1]. exists g. rewrite <- L1.
  destruct (ext_shape _ _ _ _ E1 X) as (x1 & X1 & XX).
  destruct (s_kind x) eqn:Kx; try congruence.
  - eapply face_dfs_grp with (x := x1); eauto; [apply dfs_keeps; auto|apply dfs_spec|].
    rewrite (xe_kind _ _ XX); auto.
  - eapply edge_dfs_grp; eauto.
  - eapply foldo_grp; eauto. apply repr_dfs_grp.
Qed.

(** * write_model *)
Definition model_region (s : st) (root l : nat) (c : cls) (o : nat) : Prop :=
  part (hp s) root l c o \/ is_ident (hp s) c o \/ size c (hp s) <= o.
Lemma refs_alloc h c o p : In p (refs h c o) -> o < size c h.
Proof.
  destruct c; cbn; try tauto.
  - destruct (nth_error (h_loc h) o) as [x|] eqn:X; [|intros []]. intros _. eapply nth_some_lt; eauto.
  - destruct (nth_error (h_sh h) o) as [x|] eqn:X; [|intros []]. intros _. eapply nth_some_lt; eauto.
Qed.
Lemma start_model s root l : good s -> unwritten s root l ->
  ok (model_region s root l) (is_ident (hp s)) (restart s).
Proof.
  intros G U. constructor.
  - destruct G; constructor; auto.
  - constructor.
    + intros c o L. right; right. auto.
    + intros o Ho. right; left. split; auto.
    + intros c o c' o' Hd Hi. cbn in Hi. destruct Hd as [Hd|[[-> Hd]|Hd]].
      * left. destruct Hd as [Hd|Hd]; [left|right]; econstructor; eauto.
      * exfalso. cbn in Hi. rewrite Hd in Hi. destruct Hi.
      * exfalso. apply refs_alloc in Hi. lia.
  - constructor; cbn.
    + intros c o i Hd Q. left. destruct Hd as [Hd|[Hd|Hd]]; auto.
      * destruct (U c o Hd) as [A|A]; auto. congruence.
      * rewrite (g_un _ G) in Q by auto. discriminate.
    + intros c [|j] o H; discriminate.
    + intros [|j] o x r H; discriminate.
    + intros [|j] o p q H; discriminate.
Qed.
Lemma index_model s root l s1 : good s -> unwritten s root l -> index_all root l s = Some s1 ->
  ok (model_region s root l) (is_ident (hp s)) s1 /\ comp (fun _ => False) s1 /\ ext (restart s) s1 /\
  done s1 SH root /\ done s1 CL l /\ exists g, grp s1 SH = g ++ [root].
Proof.
  intros G U H. unfold index_all in H. fold (restart s) in H.
  destruct (dfs 8 root (restart s)) as [s2|] eqn:F; [|discriminate].
  pose proof (start_model s root l G U) as K0.
  assert (Dr : model_region s root l SH root) by (left; left; constructor).
  assert (Dl : model_region s root l CL l) by (left; right; constructor).
  destruct (dfs_spec _ _ 8 root _ _ (fun _ => False) F K0 Dr (start_comp _ s)) as (K1 & E1 & C1 & Dn).
  assert (C1' : comp (fun _ => False) s2) by (eapply comp_weaken; [|exact C1]; cbn; tauto).
  destruct (dfs_loc_spec _ _ _ _ _ _ H K1 Dl C1') as (K2 & E2 & C2' & _ & Dn2).
  split; auto. split; auto. split; [eapply ext_trans; eauto|]. split; [apply (done_ext s2); auto|]. split; auto.
  destruct (dfs_last _ _ 8 root _ _ (fun o _ (Q : is_ident (hp s) SH o) => ltac:(destruct Q; discriminate)) F K0
             (fun _ => eq_refl) Dr) as [g Gr].
  exists g. apply loc_dfs_grp in H. congruence.
Qed.
Lemma model_ident s root l s1 : hext (hp s) (hp s1) ->
  forall c o, model_region s root l c o -> is_ident (hp s) c o -> is_ident (hp s1) c o.
Proof. intros E c o _ [-> H]. split; auto. rewrite (he_loc _ _ E). auto. Qed.

Lemma write_model_l s root l : good s -> unwritten s root l -> no_identity_power (hp s) root l ->
  forall s1, index_all root l s = Some s1 ->
  exists f t, write_model root l s = Some (f, flip_ids s1) /\ read f = Some t /\ shape_tree (hp s1) root t.
Proof.
  intros G U NI s1 H. destruct (index_model s root l s1 G U H) as (K & C & E & Dr & Dl & g & Lg).
  destruct (file_ok (model_region s root l) (is_ident (hp s)) s1 K (model_ident s root l s1 (e_heap _ _ E)) C) with (root := root)
    as (a & b & c & d & e & Ha & Hb & Hc & Hd & He & t & R & ST).
  - intros o ps p Ho X Hp. apply In_nth_error in Ho. destruct Ho as [j Hj].
    destruct (i_grp _ _ _ (o_inv _ _ _ K) CL j o Hj) as (Do & _ & Lo).
    pose proof (he_loc _ _ (e_heap _ _ E)) as HL. cbn in HL. rewrite HL in *.
    destruct Do as [Do|[[_ Do]|Do]].
    + eapply NI; eauto.
    + congruence.
    + apply nth_some_lt in X. cbn in Do. lia.
  - rewrite Lg, app_length. cbn. split; [lia|]. replace (length g + 1 - 1) with (length g) by lia. apply nth_snoc_new.
  - exists (File a b c d e), t. split; auto. unfold write_model. rewrite H. cbv zeta.
    change (grp (flip_ids s1)) with (grp s1). change (hp (flip_ids s1)) with (hp s1).
    rewrite Ha, Hb, Hc, Hd, He. auto.
Qed.
