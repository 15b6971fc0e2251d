(** Lemmas about complete calls of write_model (brep_writer.py) behind Brep_Props.v. *)
From Coq Require Import List Arith Bool ZArith QArith Lia.
From Verif Require Import Brep_Model Brep_Spec Brep_Proofs Brep_Read Brep_Run Brep_Write Brep_Wire Brep_Default
  Brep_Pass Brep_Total.
Import ListNotations.
Local Open Scope nat_scope.
Local Open Scope list_scope.

Lemma reachable_good ops s : run ops init = Some s -> good s.
Proof. intros H. eapply run_good; eauto. apply init_good. Qed.
Lemma reachable_calm ops s : run ops init = Some s -> calm s.
Proof. intros H. eapply run_calm; eauto. apply init_good. apply init_calm. Qed.

Lemma written root l s f s' : write_model root l s = Some (f, s') ->
  exists s1, index_all root l s = Some s1 /\ s' = flip_ids s1 /\
    mapo (out_loc s') (grp s1 CL) = Some (f_locs f) /\ mapo (nth_error (h_c2 (hp s1))) (grp s1 C2) = Some (f_c2 f) /\
    mapo (nth_error (h_c3 (hp s1))) (grp s1 C3) = Some (f_c3 f) /\
    mapo (nth_error (h_s (hp s1))) (grp s1 CS) = Some (f_surfs f) /\
    mapo (out_shape s') (grp s1 SH) = Some (f_shapes f).
Proof.
  unfold write_model. destruct (index_all root l s) as [s1|]; [|discriminate]. cbv zeta.
  change (grp (flip_ids s1)) with (grp s1). change (hp (flip_ids s1)) with (hp s1).
  destruct (mapo (out_loc (flip_ids s1)) (grp s1 CL)) eqn:A; [|discriminate].
  destruct (mapo (nth_error (h_c2 (hp s1))) (grp s1 C2)) eqn:B; [|discriminate].
  destruct (mapo (nth_error (h_c3 (hp s1))) (grp s1 C3)) eqn:C; [|discriminate].
  destruct (mapo (nth_error (h_s (hp s1))) (grp s1 CS)) eqn:E; [|discriminate].
  destruct (mapo (out_shape (flip_ids s1)) (grp s1 SH)) eqn:F; [|discriminate].
  intros H. injection H as <- <-. exists s1. repeat (split; [now auto|]). auto.
Qed.

Lemma hext_only_adds h h' : hext h h' -> only_adds h h'.
Proof.
  intros [a b c d L e]. constructor; auto. revert L e. generalize (h_sh h), (h_sh h'). intros l m. revert m.
  induction l as [|x l IH]; intros [|y m] L e; cbn in L; try lia; constructor.
  - destruct (e 0 x eq_refl) as (x' & X & XX). cbn in X. injection X as ->. destruct XX as [x1 x2 x3 x4 x5 x6 x7 x8 x9]. constructor; auto.
    destruct (s_kind x) eqn:Kx; try (left; apply x9; [|right]; congruence); auto.
    destruct (s_repr x) eqn:Rx; auto. left. rewrite x9; auto; [|left]; congruence.
  - apply IH; [lia|]. intros o z Z. apply (e (S o) z Z).
Qed.

Lemma out_loc_record s o r : out_loc s o = Some r -> loc_record (hp s) o r.
Proof.
  unfold out_loc, loc_record. destruct (nth_error (h_loc (hp s)) o) as [[|m|ps]|]; try discriminate.
  - intros H. injection H as <-. auto.
  - destruct (mapo _ ps) as [t|] eqn:M; [|discriminate]. intros H. injection H as <-. rewrite app_length. cbn.
    apply mapo_spec in M. assert (Q : length (concat t) = 2 * length ps); [|lia].
    induction M as [|p q l t' F M IH]; auto. cbn. rewrite app_length, IH.
    destruct (ids s CL (fst p)); [|discriminate]. injection F as <-. cbn. lia.
Qed.
Lemma out_shape_record s o r : out_shape s o = Some r -> shape_record (hp s) o r.
Proof.
  unfold out_shape, shape_record, get_shape. destruct (nth_error (h_sh (hp s)) o) as [x|]; [|discriminate].
  destruct (out_sub s x); [|discriminate]. destruct (mapo (out_ref s) (s_childs x)) as [cs|] eqn:M; [|discriminate].
  intros H. injection H as <-. exists x. cbn. repeat (split; [now auto|]).
  apply mapo_spec in M. induction M as [|r c l m F M IH]; auto. cbn. rewrite IH. f_equal.
  unfold out_ref in F. destruct (ids s SH (r_shape r)); [|discriminate]. destruct (ids s CL (r_loc r)); [|discriminate].
  injection F as <-. auto.
Qed.
Lemma Forall2_impl' {A B} (P Q : A -> B -> Prop) l m : (forall x y, P x y -> Q x y) -> Forall2 P l m -> Forall2 Q l m.
Proof. intros H F. induction F; constructor; auto. Qed.

Lemma write_once s root l f s' : good s -> unwritten s root l -> write_model root l s = Some (f, s') ->
  exists os : cls -> list nat,
    (forall c, NoDup (os c)) /\
    (forall c o, In o (os c) <-> part (hp s') root l c o /\ ~ is_ident (hp s') c o) /\
    Forall2 (loc_record (hp s')) (os CL) (f_locs f) /\
    Forall2 (fun o g => nth_error (h_c2 (hp s')) o = Some g) (os C2) (f_c2 f) /\
    Forall2 (fun o g => nth_error (h_c3 (hp s')) o = Some g) (os C3) (f_c3 f) /\
    Forall2 (fun o g => nth_error (h_s (hp s')) o = Some g) (os CS) (f_surfs f) /\
    Forall2 (shape_record (hp s')) (os SH) (f_shapes f).
Proof.
  intros G U W. destruct (written _ _ _ _ _ W) as (s1 & I & -> & A & B & C & E & F).
  change (hp (flip_ids s1)) with (hp s1). destruct (index_model s root l s1 G U I) as (K & _).
  exists (grp s1). split; [intros c; eapply grp_nodup; eauto|]. split.
  { intros c o. split; [apply (numbered_part s root l s1 G U I)|].
    intros [P N]. destruct (covered s root l s1 G U I c o P) as (_ & _ & [Q|Q]); tauto. }
  apply mapo_spec in A, B, C, E, F.
  split. { eapply Forall2_impl'; [|exact A]. intros o r. apply (out_loc_record (flip_ids s1)). }
  split; auto. split; auto. split; auto.
  eapply Forall2_impl'; [|exact F]. intros o r. apply (out_shape_record (flip_ids s1)).
Qed.

Lemma index_default s root l s1 : good s -> unwritten s root l -> index_all root l s = Some s1 ->
  forall o x0 x, part (hp s) root l SH o -> nth_error (h_sh (hp s)) o = Some x0 -> nth_error (h_sh (hp s1)) o = Some x ->
    s_repr x0 = [] -> (s_kind x0 = Ed -> has_line (hp s1) x) /\ (s_kind x0 = Fa -> has_patch (hp s1) x).
Proof.
  intros G U I o x0 x P X0 X R. destruct (index_model s root l s1 G U I) as (K & Cm & E & _).
  assert (P1 : part (hp s1) root l SH o) by (eapply part_ext; [apply (e_heap _ _ E)|auto]).
  destruct (covered s root l s1 G U I SH o P1) as (Dm & Dn & [[Q _]|Gr]); [discriminate|].
  destruct (Cm o Gr (fun F => F) x X) as (_ & CE & CF).
  destruct (he_sh _ _ (e_heap _ _ E) o x0 X0) as (x' & X' & XX). assert (x' = x) by congruence. subst x'.
  assert (DF : dflt (model_region s root l) (hp s) (fun _ => False) s1).
  { unfold index_all in I. fold (restart s) in I.
    destruct (dfs 8 root (restart s)) as [s2|] eqn:F; [|discriminate].
    pose proof (start_model s root l G U) as K0.
    apply (loc_dflt _ _ _ _ _ _ I). 
    eapply (dfs_dflt (model_region s root l) (is_ident (hp s))); eauto.
    - intros p _ [Q _]. discriminate.
    - left; left; constructor.
    - constructor; [apply hext_refl| |].
      + intros e y0 y Y0 Y Ky Ry De. left. change (get_shape (restart s) e) with (get_shape s e) in Y.
        unfold get_shape in Y. assert (y0 = y) by congruence. subst y0. split; auto. right. cbn.
        destruct De as [De|[[Q _]|De]]; [|discriminate|apply (g_un _ G); auto].
        destruct (U SH e De) as [[Q _]|Q]; [discriminate|auto].
      + intros e y0 y Y0 Y Ky Ry. left. change (get_shape (restart s) e) with (get_shape s e) in Y.
        unfold get_shape in Y. congruence. }
  split; intros Kx.
  - destruct (df_line _ _ _ _ DF o x0 x X0 X Kx R Dm) as [[_ Q]|Q]; auto.
    exfalso. apply CE; auto. rewrite (xe_kind _ _ XX). auto.
  - destruct (df_patch _ _ _ _ DF o x0 x X0 X Kx R) as [Q|Q]; auto.
    exfalso. destruct CF as (sf & l' & Q'); [rewrite (xe_kind _ _ XX); auto|]. congruence.
Qed.

(** Numbering again: nothing is added to the groups. *)
Lemma settled s root l s1 t : good s -> unwritten s root l -> index_all root l s = Some s1 ->
  hp t = hp s1 -> (forall c o, ids t c o = None <-> ids s1 c o = None) -> good t ->
  index_all root l t = Some (restart t).
Proof.
  intros G U I HP ID GT. destruct (index_model s root l s1 G U I) as (K & Cm & E & Dr & _).
  set (P := part (hp s1) root l). set (r := restart t).
  assert (Gr : good r) by (destruct GT; constructor; auto).
  assert (PC : forall c o c' o', P c o -> In (c', o') (refs (hp r) c o) -> P c' o').
  { intros c o c' o' [Q|Q] Hi; change (hp r) with (hp t) in Hi; rewrite HP in Hi; [left|right]; econstructor; eauto. }
  assert (PD : forall c o, P c o -> done r c o).
  { intros c o Q. destruct (covered s root l s1 G U I c o Q) as (_ & Dn & _). red in Dn |- *. cbn. rewrite ID. auto. }
  assert (PX : forall o x, P SH o -> get_shape r o = Some x ->
    (s_kind x = Ed -> s_repr x <> []) /\ (s_kind x = Fa -> exists sf l, s_repr x = [RF sf l])).
  { intros o x Q X. change (get_shape r o) with (get_shape t o) in X. unfold get_shape in X. rewrite HP in X.
    destruct (covered s root l s1 G U I SH o Q) as (_ & _ & [[Z _]|Z]); [discriminate|].
    destruct (Cm o Z (fun F => F) x X) as (_ & A & B). auto. }
  assert (Pr : P SH root) by (left; constructor). assert (Pl : P CL l) by (right; constructor).
  unfold index_all. fold (restart t). fold r.
  pose proof (P_alloc r P Gr PD SH root Pr) as L. destruct (lt_nth_some _ _ L) as [x X].
  rewrite (dfs_again r P Gr PC PD PX 8 root x); auto.
  - apply (dfs_loc_again r P Gr PC PD); auto.
  - destruct (s_kind x); cbn; lia.
Qed.
Lemma flip_none s c o : ids (flip_ids s) c o = None <-> ids s c o = None.
Proof. cbn. destruct (_ && _); [|tauto]. destruct (ids s c o); cbn; split; congruence. Qed.
Lemma restart_write s root l : index_all root l s = Some (restart s) ->
  write_model root l s = Some (File [] [] [] [] [], flip_ids (restart s)).
Proof. intros H. unfold write_model. rewrite H. auto. Qed.
Lemma flip_restart s : hp (flip_ids (restart s)) = hp s /\ forall c o, ids (flip_ids (restart s)) c o = ids s c o.
Proof. split; auto. intros c o. cbn. rewrite andb_false_r. auto. Qed.

Lemma write_again s root l f s' : good s -> unwritten s root l -> write_model root l s = Some (f, s') ->
  exists s'', write_model root l s' = Some (File [] [] [] [] [], s'') /\ hp s'' = hp s' /\
              (forall c o, ids s'' c o = ids s' c o) /\ f_shapes f <> [].
Proof.
  intros G U W. destruct (written _ _ _ _ _ W) as (s1 & I & -> & _ & _ & _ & _ & F).
  destruct (index_model s root l s1 G U I) as (K & _ & _ & _ & _ & g & Lg).
  assert (Gt : good (flip_ids s1)) by (apply flip_good; apply (o_good _ _ _ K)).
  exists (flip_ids (restart (flip_ids s1))). split.
  - apply restart_write. apply (settled s root l s1); auto. intros c o. apply flip_none.
  - destruct (flip_restart (flip_ids s1)) as [A B]. split; auto. split; auto.
    intros Q. rewrite Q, Lg in F. apply mapo_spec in F. apply Forall2_len in F. rewrite app_length in F. cbn in F. lia.
Qed.
Lemma repr_then_write s root s' : good s -> unwritten s root 0 -> step (Repr root) s = Some s' ->
  exists s'', write_model root 0 s' = Some (File [] [] [] [] [], s'').
Proof.
  intros G U H. cbn in H. destruct (U SH root) as [[Q _]|Q]; [left; constructor|discriminate|]. rewrite Q in H.
  exists (flip_ids (restart s')). apply restart_write. destruct (index_model s root 0 s' G U H) as (K & _).
  apply (settled s root 0 s'); auto; [tauto|apply (o_good _ _ _ K)].
Qed.

Lemma make_face_edges r cs surf l tol s s' : make_face (r :: cs) surf l tol s = Some s' -> good s -> calm s ->
  (exists y, nth_error (h_sh (hp s)) (r_shape r) = Some y /\ s_kind y = Ed) -> evenly_used (hp s) (r :: cs).
Proof.
  intros H G Z (y & Y & Ky). unfold make_face in H. unfold get_shape at 1 in H. rewrite Y, Ky in H.
  destruct (make_shape Fa (r :: cs) tol (0, 0, 0)%Q s) as [x|]; [|discriminate].
  destruct (negb _); [discriminate|]. destruct (make_wire (r :: cs) s) as [s1|] eqn:W; [|discriminate].
  destruct (make_wire_l _ _ _ W G Z) as (w & Hw & _ & _ & _ & Fw).
  destruct (negb (forallb _ [_])) eqn:C; [discriminate|]. apply negb_false_iff in C. cbn [forallb r_shape] in C.
  apply andb_true_iff in C. destruct C as [C _]. unfold is_closed, get_shape in C. rewrite Hw, nth_snoc_new in C. apply Fw; auto.
Qed.

(** Before the first numbering only the identities have a number. *)
Definition fresh (s : st) : Prop := forall c o, ids s c o = None \/ is_ident (hp s) c o.
Lemma fresh_unwritten s root l : fresh s -> unwritten s root l.
Proof. intros F c o _. destruct (F c o); auto. Qed.
Lemma fresh_keep s s' : ids s' = ids s -> h_loc (hp s') = h_loc (hp s) -> fresh s -> fresh s'.
Proof. intros A B F c o. unfold is_ident. rewrite A, B. apply F. Qed.
Lemma fresh_loc x s : fresh s -> fresh (new_loc x s).
Proof.
  intros F c o. assert (M : is_ident (hp s) c o -> is_ident (hp (new_loc x s)) c o).
  { intros [-> H]. split; auto. cbn. rewrite nth_error_app1; auto. eapply nth_some_lt; eauto. }
  destruct (F c o) as [Q|Q]; auto. destruct x; auto. cbn.
  destruct (cls_eqb_spec c CL) as [->|N]; cbn; auto. destruct (Nat.eqb_spec o (length (h_loc (hp s)))) as [->|N]; auto.
  right. split; auto. cbn. rewrite nth_error_app2, Nat.sub_diag; auto.
Qed.
Lemma put_keep f v s : ids (put_nedges f v s) = ids s /\ h_loc (hp (put_nedges f v s)) = h_loc (hp s).
Proof. unfold put_nedges. destruct (get_shape s v); auto. Qed.
Lemma make_wire_keep cs s s' : make_wire cs s = Some s' -> good s -> calm s -> ids s' = ids s /\ h_loc (hp s') = h_loc (hp s).
Proof.
  intros H G Z. unfold make_wire in H. destruct (make_shape Wi cs 0 (0, 0, 0)%Q s); [|discriminate].
  destruct (set_closed_l cs s G Z) as (b & Q & _). rewrite Q in H. injection H as <-. auto.
Qed.
Lemma make_face_keep cs surf l tol s s' : make_face cs surf l tol s = Some s' -> good s -> calm s ->
  ids s' = ids s /\ h_loc (hp s') = h_loc (hp s).
Proof.
  intros H G Z. unfold make_face in H. destruct cs as [|r cs]; [discriminate|].
  destruct (make_shape Fa (r :: cs) tol (0, 0, 0)%Q s) as [x|]; [|discriminate].
  destruct (get_shape s (r_shape r)) as [y|]; [|discriminate]. destruct (negb _); [discriminate|].
  match type of H with match ?m with _ => _ end = _ => destruct m as [[s1 cs1]|] eqn:M; [|discriminate] end.
  assert (K : ids s1 = ids s /\ h_loc (hp s1) = h_loc (hp s)).
  { destruct (s_kind y); try (injection M as <- <-; now auto).
    destruct (make_wire (r :: cs) s) as [s2|] eqn:W; [|discriminate]. injection M as <- <-. eapply make_wire_keep; eauto. }
  destruct (negb _); [discriminate|]. destruct surf; [destruct (_ && _); [|discriminate]|]; injection H as <-; auto.
Qed.
Lemma add_repr_keep o r s s' : add_repr o r s = Some s' -> ids s' = ids s /\ h_loc (hp s') = h_loc (hp s).
Proof. unfold add_repr. destruct (get_shape s o); [|discriminate]. intros H. injection H as <-. auto. Qed.
Lemma step_fresh c s s' : step c s = Some s' -> good s -> calm s -> numbers c = false -> fresh s -> fresh s'.
Proof.
  intros H G Z N F.
  assert (KK : ids s' = ids s /\ h_loc (hp s') = h_loc (hp s) -> fresh s') by (intros [A B]; eapply fresh_keep; eauto).
  destruct c as [m|l|k|k|k|p tol|a b tol|cs|cs surf l tol|k cs|o r|o f|o f|n o t0 t1 c l|n o t0 t1 c sf l
    |n o u v sf l|root l|root]; unfold step in H; cbv zeta in H; try discriminate.
  - destruct m as [m|]; [destruct (matrix34 m); [|discriminate]|]; injection H as <-; apply fresh_loc; auto.
  - destruct (_ && _); [|discriminate]. injection H as <-. apply fresh_loc; auto.
  - apply KK. injection H as <-. auto.
  - apply KK. injection H as <-. auto.
  - apply KK. injection H as <-. auto.
  - apply KK. destruct (make_shape _ _ _ _ _); [|discriminate]. injection H as <-. auto.
  - apply KK. destruct (make_shape _ _ _ _ _); [|discriminate]. injection H as <-. auto.
  - apply KK. eapply make_wire_keep; eauto.
  - apply KK. eapply make_face_keep; eauto.
  - apply KK. destruct k; try discriminate; (destruct (make_shape _ _ _ _ _); [|discriminate]); injection H as <-; auto.
  - apply KK. destruct (get_shape s o); [|discriminate]. destruct (ref_ok _ _ _); [|discriminate]. injection H as <-. auto.
  - apply KK. destruct (get_shape s o); [|discriminate]. destruct (_ =? _); [|discriminate]. injection H as <-. auto.
  - apply KK. destruct (get_shape s o) as [x|]; [|discriminate]. destruct (s_kind x); try discriminate. injection H as <-. auto.
  - apply KK. destruct (get_shape s o) as [x|]; [|discriminate].
    destruct (s_kind x); try discriminate; (destruct (_ && _); [|discriminate]); eapply add_repr_keep; eauto.
  - apply KK. destruct (get_shape s o) as [x|]; [|discriminate].
    destruct (s_kind x); try discriminate; (destruct (_ && _); [|discriminate]); eapply add_repr_keep; eauto.
  - apply KK. destruct (get_shape s o) as [x|]; [|discriminate].
    destruct (s_kind x); try discriminate; (destruct (_ && _); [|discriminate]); eapply add_repr_keep; eauto.
Qed.
Lemma run_fresh cs : forall s s', run cs s = Some s' -> good s -> calm s -> fresh s -> forallb (fun c => negb (numbers c)) cs = true ->
  fresh s'.
Proof.
  induction cs as [|c cs IH]; intros s s' H G Z F N; cbn in *; [injection H as <-; auto|].
  apply andb_true_iff in N. destruct N as [N1 N2]. apply negb_true_iff in N1.
  destruct (step c s) as [s1|] eqn:S1; [|discriminate].
  eapply IH; eauto; [eapply step_good|eapply step_calm|eapply step_fresh]; eauto.
Qed.
Lemma init_fresh : fresh init.
Proof.
  intros c o. cbn. destruct (cls_eqb_spec c CL) as [->|N]; cbn; auto. destruct (Nat.eqb_spec o 0) as [->|N]; auto.
  right. split; auto.
Qed.

Lemma make_face_total cs tol s : good s -> calm s -> cs <> [] ->
  (forall r, In r cs -> r_loc r < length (h_loc (hp s)) /\ exists y, nth_error (h_sh (hp s)) (r_shape r) = Some y /\ s_kind y = Ed) ->
  evenly_used (hp s) cs -> exists s', make_face cs None 0 tol s = Some s'.
Proof.
  intros G Z N R EU. destruct cs as [|r cs]; [congruence|]. destruct (R r) as (_ & y & Y & Ky); [cbn; auto|].
  unfold make_face.
  assert (MS : forall k t p, sub_ok k Ed = true -> exists x, make_shape k (r :: cs) t p s = Some x).
  { intros k t p Sk. unfold make_shape. destruct (forallb (ref_ok k s) (r :: cs)) eqn:Q; eauto. exfalso.
    apply not_true_iff_false in Q. apply Q. apply forallb_forall. intros q Hq. destruct (R q Hq) as (L & z & Zq & Kz).
    unfold ref_ok, get_shape. rewrite Zq, Kz, Sk. cbn. apply Nat.ltb_lt. auto. }
  destruct (MS Fa tol (0, 0, 0)%Q eq_refl) as [x ->]. unfold get_shape at 1. rewrite Y, Ky.
  match goal with |- context [negb (forallb ?g (r :: cs))] => assert (FA : forallb g (r :: cs) = true) end.
  { apply forallb_forall. intros q Hq. destruct (R q Hq) as (_ & z & Zq & Kz). unfold get_shape. rewrite Zq, Kz. auto. }
  rewrite FA. cbn [negb]. destruct (MS Wi 0%Q (0, 0, 0)%Q eq_refl) as [w W].
  assert (MW : exists s1, make_wire (r :: cs) s = Some s1).
  { unfold make_wire. rewrite W. destruct (set_closed (r :: cs) s). eauto. }
  destruct MW as [s1 MW]. rewrite MW. destruct (make_wire_l _ _ _ MW G Z) as (v & Hv & _ & _ & _ & Fv).
  cbn [forallb r_shape]. unfold is_closed, get_shape. rewrite Hv, nth_snoc_new.
  rewrite (proj2 Fv EU). cbn. eauto.
Qed.
