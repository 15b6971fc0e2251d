(** Proofs about the numbering of brep_writer.py. *)
From Coq Require Import List Arith Bool ZArith QArith Lia.
From Verif Require Import Brep_Model Brep_Spec.
Import ListNotations.
Local Open Scope nat_scope.
Local Open Scope list_scope.

Definition size (c : cls) (h : heap) : nat :=
  match c with
  | CL => length (h_loc h) | C2 => length (h_c2 h) | C3 => length (h_c3 h)
  | CS => length (h_s h) | SH => length (h_sh h)
  end.
Lemma cls_eqb_spec a b : reflect (a = b) (cls_eqb a b).
Proof. destruct a, b; constructor; congruence. Qed.
Arguments cls_eqb : simpl never.
Lemma cls_dec (a b : cls) : {a = b} + {a <> b}.
Proof. decide equality. Qed.

(** * Tables *)
Lemma update_length {A} (l : list A) o x : length (update l o x) = length l.
Proof. revert o; induction l as [|y l IH]; intros [|o]; cbn; auto. Qed.
Lemma update_same {A} (l : list A) o x : o < length l -> nth_error (update l o x) o = Some x.
Proof. revert o; induction l as [|y l IH]; intros [|o] H; cbn in *; try lia; auto. apply IH; lia. Qed.
Lemma update_other {A} (l : list A) o p x : p <> o -> nth_error (update l o x) p = nth_error l p.
Proof. revert o p; induction l as [|y l IH]; intros [|o] [|p] H; cbn; auto; try lia. Qed.
Lemma nth_some_lt {A} (l : list A) o x : nth_error l o = Some x -> o < length l.
Proof. intros H. apply nth_error_Some. congruence. Qed.
Lemma lt_nth_some {A} (l : list A) o : o < length l -> exists x, nth_error l o = Some x.
Proof. intros H. apply nth_error_Some in H. destruct (nth_error l o); [eauto|congruence]. Qed.
Lemma nth_app_l {A} (l m : list A) o x : nth_error l o = Some x -> nth_error (l ++ m) o = Some x.
Proof. intros H. rewrite nth_error_app1; auto. eapply nth_some_lt; eauto. Qed.
Lemma nth_snoc {A} (l : list A) x o y :
  nth_error (l ++ [x]) o = Some y -> nth_error l o = Some y \/ (o = length l /\ y = x).
Proof.
  intros H. destruct (lt_dec o (length l)).
  - left. rewrite nth_error_app1 in H; auto.
  - right. assert (E : o < length (l ++ [x])) by (eapply nth_some_lt; eauto).
    rewrite app_length in E; cbn in E. assert (o = length l) by lia. subst.
    rewrite nth_error_app2, Nat.sub_diag in H by lia. cbn in H. split; congruence.
Qed.
Lemma nth_snoc_new {A} (l : list A) x : nth_error (l ++ [x]) (length l) = Some x.
Proof. rewrite nth_error_app2, Nat.sub_diag by lia. reflexivity. Qed.

(** * Well formed heaps *)
Definition repr_kind (k : kind) (r : repr) : Prop :=
  match k, r with
  | Fa, RF _ _ | Ed, (R2 _ _ _ _ _ | R3 _ _ _ _) | Ve, (R2 _ _ _ _ _ | R3 _ _ _ _ | RS _ _ _ _) => True
  | _, _ => False
  end.
Record wfx (h : heap) (x : shape) : Prop := {
  wx_child : forall r, In r (s_childs x) -> exists y, nth_error (h_sh h) (r_shape r) = Some y /\
               sub_ok (s_kind x) (s_kind y) = true /\ r_loc r < length (h_loc h);
  wx_repr : forall r, In r (s_repr x) -> repr_kind (s_kind x) r /\
               forall c o, In (c, o) (repr_refs r) -> o < size c h;
  wx_face : s_kind x = Fa -> s_repr x = [] \/ exists sf l, s_repr x = [RF sf l] }.
Record wfh (h : heap) : Prop := {
  w_id : nth_error (h_loc h) 0 = Some LIdent;
  w_comp : forall o l p, nth_error (h_loc h) o = Some (LComp l) -> In p l -> fst p < o;
  w_sh : forall o x, nth_error (h_sh h) o = Some x -> wfx h x }.
Record good (s : st) : Prop := {
  g_wf : wfh (hp s);
  g_un : forall c o, size c (hp s) <= o -> ids s c o = None;
  g_ident : forall o, nth_error (h_loc (hp s)) o = Some LIdent -> ids s CL o = Some 0 }.

(** A shape with the same attributes and possibly more representations. *)
Record xext (x x' : shape) : Prop := {
  xe_kind : s_kind x' = s_kind x; xe_childs : s_childs x' = s_childs x;
  xe_flags : s_flags x' = s_flags x; xe_tol : s_tol x' = s_tol x;
  xe_point : s_point x' = s_point x; xe_eflags : s_eflags x' = s_eflags x;
  xe_nedges : s_nedges x' = s_nedges x;
  xe_repr : exists e, s_repr x' = s_repr x ++ e;
  xe_fixed : s_kind x <> Ed -> s_repr x <> [] \/ s_kind x <> Fa -> s_repr x' = s_repr x }.
Record hext (h h' : heap) : Prop := {
  he_loc : h_loc h' = h_loc h;
  he_c2 : exists e, h_c2 h' = h_c2 h ++ e;
  he_c3 : exists e, h_c3 h' = h_c3 h ++ e;
  he_s : exists e, h_s h' = h_s h ++ e;
  he_len : length (h_sh h') = length (h_sh h);
  he_sh : forall o x, nth_error (h_sh h) o = Some x ->
            exists x', nth_error (h_sh h') o = Some x' /\ xext x x' }.
Lemma xext_refl x : xext x x.
Proof. constructor; auto. exists []. rewrite app_nil_r. auto. Qed.
Lemma xext_trans x y z : xext x y -> xext y z -> xext x z.
Proof.
  intros [a1 a2 a3 a4 a5 a6 an [e1 a7] a8] [b1 b2 b3 b4 b5 b6 bn [e2 b7] b8].
  constructor; try congruence.
  - exists (e1 ++ e2). rewrite b7, a7, app_assoc. auto.
  - intros H1 H2. rewrite b8; auto.
    + congruence.
    + destruct H2 as [H2|H2]; [left|right; congruence].
      rewrite a7. destruct (s_repr x); cbn; congruence.
Qed.
Lemma hext_refl h : hext h h.
Proof.
  constructor; auto; try (exists []; rewrite app_nil_r; reflexivity).
  intros o x H. exists x. split; auto. apply xext_refl.
Qed.
Lemma hext_trans a b c : hext a b -> hext b c -> hext a c.
Proof.
  intros [a1 [x2 a2] [x3 a3] [x4 a4] a5 a6] [b1 [y2 b2] [y3 b3] [y4 b4] b5 b6].
  constructor; try congruence.
  - exists (x2 ++ y2). rewrite b2, a2, app_assoc. auto.
  - exists (x3 ++ y3). rewrite b3, a3, app_assoc. auto.
  - exists (x4 ++ y4). rewrite b4, a4, app_assoc. auto.
  - intros o x H. destruct (a6 o x H) as (x' & H' & E). destruct (b6 o x' H') as (x'' & H'' & E').
    exists x''. split; auto. eapply xext_trans; eauto.
Qed.
Lemma hext_size h h' c : hext h h' -> size c h <= size c h'.
Proof.
  intros [a1 [x2 a2] [x3 a3] [x4 a4] a5 _]. destruct c; cbn.
  - rewrite a1; auto.
  - rewrite a2, app_length; lia.
  - rewrite a3, app_length; lia.
  - rewrite a4, app_length; lia.
  - lia.
Qed.
Lemma hext_back h h' o x' : hext h h' -> nth_error (h_sh h') o = Some x' ->
  exists x, nth_error (h_sh h) o = Some x /\ xext x x'.
Proof.
  intros H E. destruct (lt_nth_some (h_sh h) o) as (x & Ex).
  { rewrite <- (he_len _ _ H). eapply nth_some_lt; eauto. }
  destruct (he_sh _ _ H o x Ex) as (x'' & E'' & X). exists x. split; auto. congruence.
Qed.

(** * States during the search *)
Definition ids_le (s s' : st) : Prop := forall c o i, ids s c o = Some i -> ids s' c o = Some i.
Record ext (s s' : st) : Prop := {
  e_heap : hext (hp s) (hp s');
  e_ids : ids_le s s';
  e_grp : forall c, exists e, grp s' c = grp s c ++ e }.
Lemma ext_refl s : ext s s.
Proof. constructor; [apply hext_refl | red; auto | intros c; exists []; rewrite app_nil_r; auto]. Qed.
Lemma ext_trans a b c : ext a b -> ext b c -> ext a c.
Proof.
  intros [a1 a2 a3] [b1 b2 b3]. constructor.
  - eapply hext_trans; eauto.
  - red; auto.
  - intros k. destruct (a3 k) as [x X], (b3 k) as [y Y]. exists (x ++ y). rewrite Y, X, app_assoc. auto.
Qed.
Definition done (s : st) (c : cls) (o : nat) : Prop := ids s c o <> None.
Lemma done_ext s s' c o : ext s s' -> done s c o -> done s' c o.
Proof.
  intros E H. unfold done in *. destruct (ids s c o) eqn:Q; [|congruence].
  rewrite (e_ids _ _ E _ _ _ Q). congruence.
Qed.

Definition repr_done (s : st) (r : repr) : Prop := forall c o, In (c, o) (repr_refs r) -> done s c o.
Definition complete (s : st) (o : nat) : Prop :=
  forall x, get_shape s o = Some x ->
    (forall r, In r (s_repr x) -> repr_done s r) /\
    (s_kind x = Ed -> s_repr x <> []) /\
    (s_kind x = Fa -> exists sf l, s_repr x = [RF sf l]).

Section Region.
(** The objects that may be numbered. *)
Variable D : cls -> nat -> Prop.
(** The objects that had an id before the search. *)
Variable T : cls -> nat -> Prop.

Record region (s : st) : Prop := {
  d_new : forall c o, size c (hp s) <= o -> D c o;
  d_ident : forall o, nth_error (h_loc (hp s)) o = Some LIdent -> D CL o;
  d_closed : forall c o c' o', D c o -> In (c', o') (refs (hp s) c o) -> D c' o' }.

Record inv (s : st) : Prop := {
  i_num : forall c o i, D c o -> ids s c o = Some i ->
    T c o \/ (1 <= i /\ nth_error (grp s c) (i - 1) = Some o);
  i_grp : forall c j o, nth_error (grp s c) j = Some o ->
    D c o /\ ids s c o = Some (j + 1) /\ o < size c (hp s);
  i_child : forall j o x r, nth_error (grp s SH) j = Some o -> get_shape s o = Some x ->
    In r (s_childs x) ->
    (T SH (r_shape r) \/ exists k, k < j /\ nth_error (grp s SH) k = Some (r_shape r)) /\ done s CL (r_loc r);
  i_comp : forall j o l p, nth_error (grp s CL) j = Some o -> nth_error (h_loc (hp s)) o = Some (LComp l) ->
    In p l -> T CL (fst p) \/ exists k, k < j /\ nth_error (grp s CL) k = Some (fst p) }.
Definition comp (E : nat -> Prop) (s : st) : Prop := forall o, In o (grp s SH) -> ~ E o -> complete s o.
Record ok (s : st) : Prop := { o_good : good s; o_region : region s; o_inv : inv s }.

Lemma comp_weaken (E F : nat -> Prop) s : (forall o, E o -> F o) -> comp E s -> comp F s.
Proof. intros H C o I N. apply C; auto. Qed.
Lemma comp_done (E F : nat -> Prop) o s :
  comp E s -> complete s o -> (forall p, E p -> p <> o -> F p) -> comp F s.
Proof.
  intros C H K p I N. destruct (Nat.eq_dec p o) as [->|NE]; auto.
Qed.

(** ** Numbering one object *)
Lemma visit_hp c o s : hp (visit c o s) = hp s.
Proof. unfold visit. destruct (ids s c o); auto. Qed.
Lemma visit_ext c o s : ext s (visit c o s).
Proof.
  unfold visit. destruct (ids s c o) eqn:Q; [apply ext_refl|].
  constructor; cbn.
  - apply hext_refl.
  - intros c' p i H. cbn. destruct (cls_eqb_spec c' c); cbn; auto. subst.
    destruct (p =? o) eqn:E; auto. apply Nat.eqb_eq in E. subst. congruence.
  - intros c'. destruct (cls_eqb_spec c' c); subst; eauto. exists []. rewrite app_nil_r; auto.
Qed.
Lemma visit_done c o s : done (visit c o s) c o.
Proof.
  unfold visit, done. destruct (ids s c o) eqn:Q; [congruence|]. cbn.
  destruct (cls_eqb_spec c c); [|congruence]. rewrite Nat.eqb_refl. cbn. congruence.
Qed.
Lemma visit_grp c o s : grp (visit c o s) c = grp s c \/ grp (visit c o s) c = grp s c ++ [o].
Proof.
  unfold visit. destruct (ids s c o); auto. cbn. destruct (cls_eqb_spec c c); [auto|congruence].
Qed.
Lemma visit_grp_other c c' o s : c' <> c -> grp (visit c o s) c' = grp s c'.
Proof.
  intros N. unfold visit. destruct (ids s c o); auto. cbn. destruct (cls_eqb_spec c' c); [congruence|auto].
Qed.
Lemma visit_good c o s : o < size c (hp s) -> good s -> good (visit c o s).
Proof.
  intros L [W U I]. constructor.
  - rewrite visit_hp. auto.
  - rewrite visit_hp. intros c' p H. unfold visit.
    destruct (ids s c o); [auto|]. cbn. rewrite U by auto.
    destruct (cls_eqb_spec c' c); cbn; auto. subst.
    destruct (p =? o) eqn:E; auto. apply Nat.eqb_eq in E. subst. lia.
  - rewrite visit_hp. intros p H. apply (e_ids _ _ (visit_ext c o s)). auto.
Qed.
Lemma visit_region c o s : region s -> region (visit c o s).
Proof. intros [a b d]. constructor; rewrite ?visit_hp; auto. Qed.

Lemma done_pos s c o : inv s -> D c o -> done s c o ->
  T c o \/ exists k, k < length (grp s c) /\ nth_error (grp s c) k = Some o.
Proof.
  intros I Hd H. unfold done in H. destruct (ids s c o) as [i|] eqn:Q; [|congruence].
  destruct (i_num _ I c o i Hd Q) as [A|[A B]]; [left; auto|right].
  exists (i - 1). split; auto. eapply nth_some_lt; eauto.
Qed.

(** The references of an object that have to be numbered before it. *)
Definition before (h : heap) (c : cls) (o : nat) : list (cls * nat) :=
  match c with
  | SH => match nth_error (h_sh h) o with
          | Some x => flat_map (fun r => [(CL, r_loc r); (SH, r_shape r)]) (s_childs x)
          | None => [] end
  | _ => refs h c o
  end.
Lemma before_refs h c o p : In p (before h c o) -> In p (refs h c o).
Proof.
  destruct c; cbn; auto. destruct (nth_error (h_sh h) o); auto.
  unfold shape_refs. intros H. apply in_or_app; auto.
Qed.
Lemma visit_inv c o s : good s -> region s -> inv s -> D c o -> o < size c (hp s) ->
  (forall c' o', In (c', o') (before (hp s) c o) -> done s c' o') ->
  inv (visit c o s).
Proof.
  intros G R I Hd L B.
  unfold visit. destruct (ids s c o) eqn:Q; auto.
  constructor; cbn.
  - intros c' p i Dp H. destruct (cls_eqb_spec c' c); cbn in H.
    + subst. destruct (p =? o) eqn:E.
      * apply Nat.eqb_eq in E. subst. right. injection H as <-. split; [lia|].
        rewrite Nat.add_sub. apply nth_snoc_new.
      * destruct (i_num _ I c p i Dp H) as [A|[A C]]; auto. right. split; auto. apply nth_app_l; auto.
    + destruct (i_num _ I c' p i Dp H); auto.
  - intros c' j p H. destruct (cls_eqb_spec c' c); cbn.
    + subst. apply nth_snoc in H. destruct H as [H|[-> ->]].
      * destruct (i_grp _ I c j p H) as (A & C & F). split; [auto|]. split; auto.
        destruct (p =? o) eqn:E; auto. apply Nat.eqb_eq in E. subst. congruence.
      * rewrite Nat.eqb_refl. auto.
    + apply (i_grp _ I c' j p H).
  - intros j p x r H X Hr. unfold done. cbn.
    assert (DL : forall q, done s CL q ->
      (if cls_eqb CL c && (q =? o) then Some (length (grp s c) + 1) else ids s CL q) <> None).
    { intros q Hq. destruct (_ && _); [congruence|auto]. }
    destruct (cls_eqb_spec SH c) as [E|E].
    + subst c. cbn in *. apply nth_snoc in H. destruct H as [H|[-> ->]].
      * destruct (i_child _ I j p x r H X Hr) as [[K|(k & K & Kn)] Dl]; split; auto.
        right. exists k. split; auto. apply nth_app_l; auto.
      * unfold get_shape in X; cbn in X. rewrite X in B.
        assert (B1 : done s CL (r_loc r)) by (apply B; apply in_flat_map; exists r; cbn; auto).
        assert (B2 : done s SH (r_shape r)) by (apply B; apply in_flat_map; exists r; cbn; auto).
        split; auto.
        assert (Dr : D SH (r_shape r)).
        { apply (d_closed _ R SH o). auto. cbn. rewrite X. unfold shape_refs. apply in_or_app. left.
          apply in_flat_map. exists r; cbn; auto. }
        destruct (done_pos s SH (r_shape r) I Dr B2) as [K|(k & K & Kn)]; auto.
        right. exists k. split; auto. apply nth_app_l; auto.
    + destruct (i_child _ I j p x r H X Hr) as [K Dl]. split; auto.
  - intros j p l q H X Hq. destruct (cls_eqb_spec CL c) as [E|E].
    + subst c. cbn in *. apply nth_snoc in H. destruct H as [H|[-> ->]].
      * destruct (i_comp _ I j p l q H X Hq) as [A|(k & K & Kn)]; auto. right. exists k. split; auto.
        apply nth_app_l; auto.
      * rewrite X in B. assert (In (CL, fst q) (map (fun p0 : nat * Z => (CL, fst p0)) l)).
        { apply in_map_iff. exists q. auto. }
        assert (Dr : D CL (fst q)).
        { apply (d_closed _ R CL o). auto. cbn. rewrite X. auto. }
        destruct (done_pos s CL (fst q) I Dr (B _ _ H)) as [K|(k & K & Kn)]; auto.
        right. exists k. split; auto. apply nth_app_l; auto.
    + apply (i_comp _ I j p l q H X Hq).
Qed.
Lemma complete_ext_same s s' o : ext s s' -> (forall x, get_shape s' o = Some x -> get_shape s o = Some x) ->
  complete s o -> complete s' o.
Proof.
  intros E S C x X. destruct (C x (S x X)) as (A & B). split; auto.
  intros r Hr c p Hp. eapply done_ext; eauto. eapply A; eauto.
Qed.
Lemma visit_comp c o s E : comp E s -> comp (fun p => E p \/ (c = SH /\ p = o)) (visit c o s).
Proof.
  intros C p I N. apply complete_ext_same with s.
  - apply visit_ext.
  - unfold get_shape. rewrite visit_hp. auto.
  - apply C; [|tauto]. destruct (cls_dec c SH) as [->|K].
    + destruct (visit_grp SH o s) as [G|G]; rewrite G in I; auto.
      apply in_app_or in I. destruct I as [I|[I|[]]]; auto. subst. tauto.
    + rewrite visit_grp_other in I; auto.
Qed.
Lemma visit_comp_geo c o s E : c <> SH -> comp E s -> comp E (visit c o s).
Proof. intros N C. eapply comp_weaken; [|apply visit_comp, C]. intros p [H|[H _]]; auto; congruence. Qed.
Lemma visit_ok c o s : ok s -> D c o -> o < size c (hp s) ->
  (forall c' o', In (c', o') (before (hp s) c o) -> done s c' o') -> ok (visit c o s).
Proof.
  intros [G R I] Hd L B. constructor.
  - apply visit_good; auto.
  - apply visit_region; auto.
  - apply visit_inv; auto.
Qed.

(** ** Locations *)
Lemma loc_dfs_spec fuel : forall o s s' E, loc_dfs fuel o s = Some s' -> ok s -> D CL o -> comp E s ->
  ok s' /\ ext s s' /\ comp E s' /\ hp s' = hp s /\ done s' CL o.
Proof.
  induction fuel as [|fuel IH]; intros o s s' E H K Hd C; [discriminate|].
  cbn in H. destruct (nth_error (h_loc (hp s)) o) as [x|] eqn:X; [|discriminate].
  assert (L : o < size CL (hp s)) by (cbn; eapply nth_some_lt; eauto).
  destruct x as [|m|l].
  - injection H as <-. repeat apply conj.
    + apply visit_ok; auto. cbn. rewrite X. cbn. tauto.
    + apply visit_ext.
    + apply visit_comp_geo; auto; congruence.
    + apply visit_hp.
    + apply visit_done.
  - injection H as <-. repeat apply conj.
    + apply visit_ok; auto. cbn. rewrite X. cbn. tauto.
    + apply visit_ext.
    + apply visit_comp_geo; auto; congruence.
    + apply visit_hp.
    + apply visit_done.
  - destruct (foldo (fun p => loc_dfs fuel (fst p)) l s) as [s1|] eqn:F; [|discriminate].
    injection H as <-.
    assert (A : ok s1 /\ ext s s1 /\ comp E s1 /\ hp s1 = hp s /\ forall p, In p l -> done s1 CL (fst p)).
    { assert (DL : forall p, In p l -> D CL (fst p)).
      { intros p Hp. apply (d_closed _ (o_region _ K) CL o); auto. cbn. rewrite X.
        apply in_map_iff. exists p. auto. }
      clear X L Hd. revert s s1 K C F DL. induction l as [|p l IHl]; intros s s1 K C F DL.
      - cbn in F. injection F as <-.
        split; auto. split; [apply ext_refl|]. split; auto. split; auto. intros p [].
      - cbn in F. destruct (loc_dfs fuel (fst p) s) as [s2|] eqn:F2; [|discriminate].
        destruct (IH _ _ _ E F2 K (DL p (or_introl eq_refl)) C) as (K2 & E2 & C2' & H2 & D2).
        destruct (IHl s2 s1 K2 C2' F) as (K3 & E3 & C3' & H3 & D3).
        { intros q Hq. apply DL. cbn; auto. }
        split; auto. split; [eapply ext_trans; eauto|]. split; auto. split; [congruence|].
        intros q [->|Hq]; auto. eapply done_ext; eauto. }
    destruct A as (K1 & E1 & C1 & H1 & D1).
    assert (ok (visit CL o s1)).
    { apply visit_ok; auto.
      - rewrite H1; auto.
      - cbn. rewrite H1, X. intros c' o' Hi. apply in_map_iff in Hi. destruct Hi as (p & Hp & Hi).
        injection Hp as <- <-. auto. }
    split; auto. split; [eapply ext_trans; [eauto|apply visit_ext]|]. split.
    { apply visit_comp_geo; auto; congruence. }
    split; [rewrite visit_hp; auto|]. apply visit_done.
Qed.
Lemma dfs_loc_spec o s s' E : dfs_loc o s = Some s' -> ok s -> D CL o -> comp E s ->
  ok s' /\ ext s s' /\ comp E s' /\ hp s' = hp s /\ done s' CL o.
Proof. apply loc_dfs_spec. Qed.

(** ** Representations *)
Lemma repr_dfs_spec r s s' E : repr_dfs r s = Some s' -> ok s -> comp E s ->
  (forall c o, In (c, o) (repr_refs r) -> D c o /\ o < size c (hp s)) ->
  ok s' /\ ext s s' /\ comp E s' /\ hp s' = hp s /\ repr_done s' r.
Proof.
  intros H K C R. destruct r as [t0 t1 c l|t0 t1 c sf l|u v sf l|sf l]; cbn in H.
  - assert (Rc : D C3 c /\ c < size C3 (hp s)) by (apply R; cbn; auto).
    assert (Rl : D CL l /\ l < size CL (hp s)) by (apply R; cbn; auto).
    destruct Rc, Rl.
    assert (K1 : ok (visit C3 c s)) by (apply visit_ok; auto; cbn; tauto).
    destruct (dfs_loc_spec _ _ _ E H K1) as (K2 & E2 & C2' & HP2 & D2); auto.
    { apply visit_comp_geo; auto; congruence. }
    assert (E1 := visit_ext C3 c s).
    split; auto. split; [eapply ext_trans; eauto|]. split; auto. split; [rewrite HP2; apply visit_hp|].
    intros c' o' [Q|[Q|[]]]; injection Q as <- <-; auto.
    eapply done_ext; [eauto|apply visit_done].
  - assert (Rc : D C2 c /\ c < size C2 (hp s)) by (apply R; cbn; auto).
    assert (Rs : D CS sf /\ sf < size CS (hp s)) by (apply R; cbn; auto).
    assert (Rl : D CL l /\ l < size CL (hp s)) by (apply R; cbn; auto).
    destruct Rc, Rs, Rl.
    assert (K1 : ok (visit C2 c s)) by (apply visit_ok; auto; cbn; tauto).
    assert (K1' : ok (visit CS sf (visit C2 c s))).
    { apply visit_ok; auto; [rewrite visit_hp; auto|cbn; tauto]. }
    destruct (dfs_loc_spec _ _ _ E H K1') as (K2 & E2 & C2' & HP2 & D2); auto.
    { apply visit_comp_geo; [congruence|]. apply visit_comp_geo; auto; congruence. }
    assert (E1 := visit_ext C2 c s). assert (E1' := visit_ext CS sf (visit C2 c s)).
    split; auto. split; [eapply ext_trans; [eapply ext_trans; eauto|eauto]|]. split; auto.
    split; [rewrite HP2, !visit_hp; auto|].
    intros c' o' [Q|[Q|[Q|[]]]]; injection Q as <- <-; auto.
    + eapply done_ext; [eauto|]. eapply done_ext; [eauto|]. apply visit_done.
    + eapply done_ext; [eauto|apply visit_done].
  - injection H as <-. split; auto. split; [apply ext_refl|]. split; auto. split; auto. intros c o [].
  - discriminate.
Qed.
Lemma reprs_dfs_spec l : forall s s' E, foldo repr_dfs l s = Some s' -> ok s -> comp E s ->
  (forall r c o, In r l -> In (c, o) (repr_refs r) -> D c o /\ o < size c (hp s)) ->
  ok s' /\ ext s s' /\ comp E s' /\ hp s' = hp s /\ forall r, In r l -> repr_done s' r.
Proof.
  induction l as [|r l IH]; intros s s' E H K C R; cbn in H.
  - injection H as <-. split; auto. split; [apply ext_refl|]. split; auto. split; auto. intros r [].
  - destruct (repr_dfs r s) as [s1|] eqn:F; [|discriminate].
    destruct (repr_dfs_spec r s s1 E F K C) as (K1 & E1 & C1 & H1 & D1).
    { intros c o. apply R. cbn; auto. }
    destruct (IH s1 s' E H K1 C1) as (K2 & E2 & C2' & H2 & D2).
    { intros r' c o Hr. rewrite H1. apply R. cbn; auto. }
    split; auto. split; [eapply ext_trans; eauto|]. split; auto. split; [congruence|].
    intros r' [->|Hr]; auto. intros c o Ho. apply (done_ext s1 s'); auto.
Qed.

(** ** Changes of the heap during the search *)
Lemma wfx_hext h h' x : wfx h x -> hext h h' -> wfx h' x.
Proof.
  intros [a b c] E. constructor; auto.
  - intros r Hr. destruct (a r Hr) as (y & Y & S & L).
    destruct (he_sh _ _ E _ _ Y) as (y' & Y' & X). exists y'. split; auto.
    rewrite (xe_kind _ _ X). split; auto. rewrite (he_loc _ _ E). auto.
  - intros r Hr. destruct (b r Hr) as (K & S). split; auto.
    intros c' o Ho. pose proof (S c' o Ho). pose proof (hext_size h h' c' E). lia.
Qed.
(** The same tables of shapes and locations. *)
Lemma grow_ok s s' : hext (hp s) (hp s') -> h_sh (hp s') = h_sh (hp s) ->
  ids s' = ids s -> grp s' = grp s -> ok s -> ok s' /\ ext s s' /\ forall E, comp E s -> comp E s'.
Proof.
  intros H S I G [[W U Id] [R1 R2 R3] [i1 i2 i3 i4]].
  assert (Z : forall c, size c (hp s) <= size c (hp s')) by (intros c; apply hext_size; auto).
  assert (EX : ext s s').
  { constructor; auto.
    - red. rewrite I. auto.
    - rewrite G. intros c. exists []. rewrite app_nil_r; auto. }
  split; [|split; auto].
  - constructor.
    + constructor.
      * destruct W as [w1 w2 w3]. constructor.
        -- rewrite (he_loc _ _ H); auto.
        -- rewrite (he_loc _ _ H); auto.
        -- rewrite S. intros o x X. apply wfx_hext with (hp s); eauto.
      * rewrite I. intros c o L. apply U. specialize (Z c). lia.
      * rewrite I, (he_loc _ _ H). auto.
    + constructor.
      * intros c o L. apply R1. specialize (Z c). lia.
      * rewrite (he_loc _ _ H). auto.
      * intros c o c' o' Hd Hi. apply (R3 c o); auto. revert Hi.
        destruct c; cbn; auto.
        -- rewrite (he_loc _ _ H). auto.
        -- rewrite S. auto.
    + constructor; unfold is_ident, done, get_shape in *; rewrite ?I, ?G, ?S, ?(he_loc _ _ H); auto.
      intros c j o Hj. destruct (i2 c j o Hj) as (A & B & C). split; auto. split; auto.
      specialize (Z c). lia.
  - intros E C o Ho N x X. rewrite G in Ho. unfold get_shape in X. rewrite S in X.
    destruct (C o Ho N x X) as (A & B). split; auto.
    intros r Hr c p Hp. unfold done. rewrite I. eapply A; eauto.
Qed.
Lemma app_eq_hext {A} (l e : list A) : exists e', l ++ e = l ++ e'.
Proof. eauto. Qed.
Lemma new_geo_ok f g s : (f = new_c2 \/ f = new_c3 \/ f = new_s) -> ok s ->
  ok (f g s) /\ ext s (f g s) /\ forall E, comp E s -> comp E (f g s).
Proof.
  intros F K. apply grow_ok; auto; destruct F as [-> | [-> | ->]]; try reflexivity;
  (constructor; cbn; auto; try (exists []; rewrite app_nil_r; reflexivity); eauto;
   intros o x X; exists x; split; auto; apply xext_refl).
Qed.

Definition may_add (x : shape) : Prop := s_kind x = Ed \/ (s_kind x = Fa /\ s_repr x = []).
Lemma put_repr_ok o x r s : get_shape s o = Some x -> may_add x -> repr_kind (s_kind x) r ->
  (forall c p, In (c, p) (repr_refs r) -> D c p /\ p < size c (hp s)) -> ok s ->
  let s' := set_shape o (with_repr (s_repr x ++ [r]) x) s in
  ok s' /\ ext s s' /\ (forall E, comp E s -> comp (fun p => E p \/ p = o) s').
Proof.
  intros X M RK RR [[W U Id] [R1 R2 R3] [i1 i2 i3 i4]] s'.
  assert (L : o < length (h_sh (hp s))) by (eapply nth_some_lt; eauto).
  set (x' := with_repr (s_repr x ++ [r]) x) in *.
  assert (XE : xext x x').
  { constructor; auto. exists [r]; auto.
    intros K1 [K2|K2]; destruct M as [M|[M1 M2]]; congruence. }
  assert (N0 : nth_error (update (h_sh (hp s)) o x') o = Some x') by (apply update_same; auto).
  assert (N1 : forall p, p <> o -> nth_error (update (h_sh (hp s)) o x') p = nth_error (h_sh (hp s)) p)
    by (intros p Hp; apply update_other; auto).
  assert (H : hext (hp s) (hp s')).
  { constructor; cbn; auto; try (exists []; rewrite app_nil_r; reflexivity).
    - apply update_length.
    - intros p y Y. destruct (Nat.eq_dec p o) as [->|NE].
      + exists x'. split; auto. unfold get_shape in X. replace y with x by congruence. auto.
      + exists y. split; [rewrite N1; auto|apply xext_refl]. }
  assert (Z : forall c, size c (hp s') = size c (hp s)).
  { intros c. destruct c; cbn; auto. apply update_length. }
  assert (EX : ext s s').
  { constructor; auto. red; auto. intros c. exists []. rewrite app_nil_r; auto. }
  split; [|split; auto].
  - constructor.
    + constructor.
      * destruct W as [w1 w2 w3]. constructor; auto.
        intros p y Y. cbn in Y. destruct (Nat.eq_dec p o) as [->|NE].
        -- assert (y = x') by congruence. subst y.
           assert (Wx : wfx (hp s) x) by (apply (w3 o); auto).
           assert (Wx' : wfx (hp s') x) by (eapply wfx_hext; eauto).
           destruct Wx' as [a b c]. constructor; auto.
           ++ unfold x', with_repr. cbn. intros q Hq. apply in_app_or in Hq. destruct Hq as [Hq|[<-|[]]]; auto.
              split; auto. intros c' p' Hp. rewrite Z. apply RR; auto.
           ++ unfold x', with_repr. cbn. intros Kx. destruct M as [M|[M1 M2]]; [congruence|].
              rewrite M2. cbn. rewrite Kx in RK. destruct r; cbn in RK; try tauto. right. eauto.
        -- rewrite N1 in Y; auto. eapply wfx_hext; eauto.
      * intros c p Hp. rewrite Z in Hp. apply U; auto.
      * auto.
    + constructor.
      * intros c p Hp. rewrite Z in Hp. auto.
      * auto.
      * intros c p c' p' Hd Hi. destruct (cls_dec c SH) as [->|NS].
        -- cbn in Hi. destruct (Nat.eq_dec p o) as [->|NE].
           ++ rewrite N0 in Hi. unfold shape_refs, x', with_repr in Hi. cbn in Hi.
              rewrite flat_map_app in Hi. apply in_app_or in Hi. destruct Hi as [Hi|Hi].
              ** apply (R3 SH o); auto. cbn. unfold get_shape in X. rewrite X. unfold shape_refs.
                 apply in_or_app; auto.
              ** apply in_app_or in Hi. destruct Hi as [Hi|Hi].
                 --- apply (R3 SH o); auto. cbn. unfold get_shape in X. rewrite X. unfold shape_refs.
                     apply in_or_app; auto.
                 --- cbn in Hi. rewrite app_nil_r in Hi. destruct (RR _ _ Hi); auto.
           ++ rewrite N1 in Hi; auto. apply (R3 SH p); auto.
        -- apply (R3 c p); auto. destruct c; auto; congruence.
    + constructor; auto.
      * intros c j p Hp. rewrite Z. exact (i2 c j p Hp).
      * intros j p y q Hj Y Hq. unfold get_shape in Y. cbn in Y. destruct (Nat.eq_dec p o) as [->|NE].
        -- assert (y = x') by congruence. subst y. apply (i3 j o x); auto.
        -- rewrite N1 in Y; auto. apply (i3 j p y); auto.
  - intros E C p Hp NE. apply complete_ext_same with s; auto.
    + intros y Y. unfold get_shape in *. cbn in Y. rewrite N1 in Y; auto.
Qed.

Lemma shape_wf s o x : ok s -> get_shape s o = Some x -> wfx (hp s) x.
Proof. intros K X. apply (w_sh _ (g_wf _ (o_good _ K)) o). auto. Qed.
Lemma ve_no_childs s x : wfx (hp s) x -> s_kind x = Ve -> s_childs x = [].
Proof.
  intros W K. destruct (s_childs x) as [|r l] eqn:E; auto.
  destruct (wx_child _ _ W r) as (y & _ & S & _); [rewrite E; cbn; auto|].
  rewrite K in S. discriminate.
Qed.
Lemma child_D s o x r : ok s -> D SH o -> get_shape s o = Some x -> In r (s_childs x) ->
  D SH (r_shape r) /\ D CL (r_loc r).
Proof.
  intros K Hd X Hr. split; apply (d_closed _ (o_region _ K) SH o); auto; cbn; unfold get_shape in X;
  rewrite X; unfold shape_refs; apply in_or_app; left; apply in_flat_map; exists r; cbn; auto.
Qed.
Lemma repr_D s o x r c p : ok s -> D SH o -> get_shape s o = Some x -> In r (s_repr x) ->
  In (c, p) (repr_refs r) -> D c p /\ p < size c (hp s).
Proof.
  intros K Hd X Hr Hp. split.
  - apply (d_closed _ (o_region _ K) SH o); auto. cbn. unfold get_shape in X. rewrite X.
    unfold shape_refs. apply in_or_app; right. apply in_flat_map. exists r. auto.
  - eapply wx_repr; eauto. eapply shape_wf; eauto.
Qed.
Lemma ident0 s : ok s -> nth_error (h_loc (hp s)) 0 = Some LIdent.
Proof. intros K. apply w_id. apply g_wf. apply o_good; auto. Qed.
Lemma D0 s : ok s -> D CL 0 /\ 0 < size CL (hp s).
Proof.
  intros K. split; [apply (d_ident _ (o_region _ K)), ident0; auto|].
  pose proof (ident0 s K) as H. apply nth_some_lt in H. auto.
Qed.

(** ** Default curves and surfaces *)
Lemma implicit_curve_spec o x s s' E : implicit_curve o s = Some s' -> ok s -> D SH o ->
  get_shape s o = Some x -> s_kind x = Ed -> comp E s ->
  ok s' /\ ext s s' /\ comp (fun p => E p \/ p = o) s' /\
  exists x', get_shape s' o = Some x' /\ s_repr x' <> [].
Proof.
  intros H K Hd X Kx C. unfold implicit_curve in H. rewrite X in H.
  destruct (subshapes x) as [|a [|b [|]]]; try discriminate.
  destruct (point_of s a) as [pa|]; [|discriminate]. destruct (point_of s b) as [pb|]; [|discriminate].
  unfold add_repr in H.
  assert (X' : get_shape (new_c3 (Line3 pa pb) s) o = Some x) by (unfold get_shape in *; auto).
  rewrite X' in H. injection H as <-.
  destruct (new_geo_ok new_c3 (Line3 pa pb) s) as (K1 & E1 & C1); auto.
  destruct (put_repr_ok o x (R3 0 1 (length (h_c3 (hp s))) 0) (new_c3 (Line3 pa pb) s)) as (K2 & E2 & C2'); auto.
  { left; auto. }
  { rewrite Kx. cbn. auto. }
  { intros c p [Q|[Q|[]]]; injection Q as <- <-.
    - split; [apply (d_new _ (o_region _ K)); cbn; lia|]. cbn. rewrite app_length; cbn; lia.
    - apply (D0 _ K1). }
  split; auto. split; [eapply ext_trans; eauto|]. split; [apply C2', C1; auto|].
  exists (with_repr (s_repr x ++ [R3 0 1 (length (h_c3 (hp s))) 0]) x). split.
  - unfold get_shape, set_shape. cbn. apply update_same. eapply nth_some_lt; eauto.
  - cbn. destruct (s_repr x); discriminate.
Qed.

Lemma mapo_spec {A B} (f : A -> option B) l m : mapo f l = Some m -> Forall2 (fun x y => f x = Some y) l m.
Proof.
  revert m; induction l as [|x l IH]; intros m H; cbn in H.
  - injection H as <-. constructor.
  - destruct (f x) eqn:F; [|discriminate]. destruct (mapo f l) eqn:M; [|discriminate].
    injection H as <-. constructor; auto.
Qed.
Lemma dict_set_in {B} k (v : B) d q : In q (dict_set k v d) -> In q d \/ snd q = v.
Proof.
  induction d as [|[k' v'] d IH]; cbn.
  - intros [<-|[]]; auto.
  - destruct (k =? k'); cbn.
    + intros [<-|H]; auto.
    + intros [<-|H]; auto. destruct (IH H); auto.
Qed.
Lemma dict_fold_in {B} (l : list (nat * B)) : forall d q,
  In q (fold_left (fun d p => dict_set (fst p) (snd p) d) l d) -> In q d \/ In (snd q) (map snd l).
Proof.
  induction l as [|p l IH]; intros d q H; cbn in *; auto.
  destruct (IH _ _ H) as [H'|H']; auto. apply dict_set_in in H'. destruct H' as [H'|H']; auto.
Qed.
Lemma face_refs_in s x refs r : face_refs s x = Some refs -> In r refs ->
  exists w y, In w (subshapes x) /\ get_shape s w = Some y /\ In r (s_childs y).
Proof.
  unfold face_refs. revert refs. induction (subshapes x) as [|w l IH]; intros refs H Hr; cbn in H.
  - injection H as <-. destruct Hr.
  - destruct (get_shape s w) as [y|] eqn:Y; [|discriminate].
    destruct (fold_right _ _ l) as [m|] eqn:F; [|discriminate]. injection H as <-.
    apply in_app_or in Hr. destruct Hr as [Hr|Hr].
    + exists w, y. cbn; auto.
    + destruct (IH m eq_refl Hr) as (w' & y' & A & B). exists w', y'. cbn; auto.
Qed.

(** Edges of the wires of a face. *)
Definition face_edge (s : st) (x : shape) (e : nat) : Prop :=
  exists w y, In w (subshapes x) /\ get_shape s w = Some y /\ In e (subshapes y).

Lemma attach_all_spec sf uvs (edges : list (nat * nat)) : forall s s' E, ok s ->
  D CS sf -> sf < size CS (hp s) -> comp E s ->
  foldo (attach_edge sf uvs) edges s = Some s' ->
  (forall p, In p edges -> exists y, get_shape s (snd p) = Some y /\ (s_kind y = Ed \/ s_kind y = Ve)) ->
  ok s' /\ ext s s' /\ comp (fun p => E p \/ In p (map snd edges)) s' /\
  (forall o x, get_shape s o = Some x -> s_kind x <> Ed -> get_shape s' o = Some x).
Proof.
  induction edges as [|[k e] edges IH]; intros s s' E K Ds Ls C H Y.
  - cbn in H. injection H as <-. split; auto. split; [apply ext_refl|]. split; auto.
    eapply comp_weaken; [|eauto]. auto.
  - cbn [foldo] in H. destruct (attach_edge sf uvs (k, e) s) as [sn|] eqn:AE; [|discriminate].
    unfold attach_edge in AE. cbn [snd] in AE.
    destruct (get_shape s e) as [y|] eqn:Ye; [|discriminate].
    destruct (subshapes y) as [|a [|b l]] eqn:Sy; try discriminate.
    destruct (ids s SH a) as [ia|]; [|discriminate]. destruct (ids s SH b) as [ib|]; [|discriminate].
    destruct (dict_get ia uvs) as [ua|]; [|discriminate]. destruct (dict_get ib uvs) as [ub|]; [|discriminate].
    assert (Ky : s_kind y = Ed).
    { destruct (Y (k, e)) as (y' & Y' & [Q|Q]); cbn; auto; cbn [snd] in Y'; try congruence.
      assert (y' = y) by congruence. subst.
      pose proof (ve_no_childs s y (shape_wf s e y K Ye) Q) as N. unfold subshapes in Sy. rewrite N in Sy.
      discriminate. }
    unfold attach_to_plane, add_repr in AE.
    assert (X' : get_shape (new_c2 (Line2 ua ub) s) e = Some y) by (unfold get_shape in *; auto).
    rewrite X' in AE. injection AE as <-.
    destruct (new_geo_ok new_c2 (Line2 ua ub) s) as (K1 & E1 & C1); auto.
    destruct (put_repr_ok e y (R2 0 1 (length (h_c2 (hp s))) sf 0) (new_c2 (Line2 ua ub) s)) as (K2 & E2 & C2'); auto.
    { left; auto. }
    { rewrite Ky. cbn. auto. }
    { intros c p [Q|[Q|[Q|[]]]]; injection Q as <- <-.
      - split; [apply (d_new _ (o_region _ K)); cbn; lia|]. cbn. rewrite app_length; cbn; lia.
      - split; auto.
      - apply (D0 _ K1). }
    set (s2 := set_shape e _ _) in *.
    assert (EX : ext s s2) by (eapply ext_trans; eauto).
    destruct (IH s2 s' (fun p => E p \/ p = e)) as (K3 & E3 & C3' & S3); auto.
    { intros p Hp. destruct (Y p) as (z & Z & Q); [cbn; auto|].
      destruct (he_sh _ _ (e_heap _ _ EX) _ _ Z) as (z' & Z' & XX). exists z'. split; auto.
      rewrite (xe_kind _ _ XX). auto. }
    split; auto. split; [eapply ext_trans; eauto|]. split.
    + eapply comp_weaken; [|exact C3']. cbn. intros p [[?|?]|?]; auto.
    + intros o x X N. apply S3; auto. unfold s2, get_shape, set_shape. cbn.
      rewrite update_other; auto. intros Eo. rewrite Eo in X. rewrite Ye in X. injection X as <-. auto.
Qed.
Lemma implicit_surface_spec o x s s' E : implicit_surface o s = Some s' -> ok s -> D SH o ->
  get_shape s o = Some x -> s_kind x = Fa -> s_repr x = [] -> comp E s ->
  ok s' /\ ext s s' /\ comp (fun p => E p \/ p = o \/ face_edge s x p) s' /\
  exists sf l, get_shape s' o = Some (with_repr [RF sf l] x).
Proof.
  intros H K Hd X Kx Rx C. unfold implicit_surface in H. rewrite X in H.
  destruct (face_refs s x) as [refs|] eqn:FR; [|discriminate].
  match type of H with context [mapo ?f refs] => destruct (mapo f refs) as [keyed|] eqn:KE; [|discriminate] end.
  destruct (mapo (edge_walk s) refs) as [walks|] eqn:WK; [|discriminate].
  destruct (mapo (with_id s) (concat walks)) as [vs|] eqn:VS; [|discriminate].
  cbv zeta in H. destruct (pairs_eqb _ _); [|discriminate]. cbn [negb] in H.
  destruct (mapo (fun p => point_of s (snd p)) (odds (rotate vs))) as [pts|] eqn:PT; [|discriminate].
  destruct (patch pts) as [[g uvs]|] eqn:GU; [|discriminate].
  set (sf := length (h_s (hp s))) in *.
  destruct (new_geo_ok new_s g s) as (K1 & E1 & C1); auto.
  assert (X' : get_shape (new_s g s) o = Some x) by (unfold get_shape in *; auto).
  destruct (put_repr_ok o x (RF sf 0) (new_s g s)) as (K2 & E2 & C2'); auto.
  { right; auto. }
  { rewrite Kx. cbn. auto. }
  { intros c p [Q|[Q|[]]]; injection Q as <- <-.
    - split; [apply (d_new _ (o_region _ K)); unfold sf; cbn; lia|].
      unfold sf; cbn. rewrite app_length; cbn; lia.
    - apply (D0 _ K1). }
  rewrite Rx in K2, E2, C2'. cbn [app] in K2, E2, C2'.
  set (s2 := set_shape o (with_repr [RF sf 0] x) (new_s g s)) in *.
  assert (EX : ext s s2) by (eapply ext_trans; eauto).
  assert (KK : forall e, In e (map snd keyed) -> face_edge s x e).
  { intros e He. apply mapo_spec in KE.
    assert (In e (map r_shape refs)).
    { clear - KE He. induction KE as [|r k l m F _ IH]; cbn in *; auto. destruct He as [<-|He]; auto.
      left. destruct (ids s SH (r_shape r)); [|discriminate]. injection F as <-. auto. }
    apply in_map_iff in H0. destruct H0 as (r & <- & Hr).
    destruct (face_refs_in s x refs r FR Hr) as (w & y & A & B & D').
    exists w, y. split; auto. split; auto. unfold subshapes. apply in_map; auto. }
  match type of H with foldo _ ?l _ = _ => set (edges := l) in * end.
  assert (KE2 : forall p, In p edges -> In (snd p) (map snd keyed)).
  { intros p Hp. destruct (dict_fold_in keyed [] p Hp) as [[]|]; auto. }
  assert (AA := fun a b c d => attach_all_spec _ _ edges s2 s' (fun p => E p \/ p = o) K2 a b c H d).
  destruct AA as (K3 & E3 & C3' & S3).
  { apply (d_new _ (o_region _ K)); unfold sf; cbn; lia. }
  { unfold sf, s2; cbn. rewrite app_length; cbn; lia. }
  { eapply comp_weaken; [|apply C2', C1, C]. auto. }
  { intros p Hp. destruct (KK _ (KE2 p Hp)) as (w & y & Hw & Y & He).
    unfold subshapes in Hw, He. apply in_map_iff in Hw. destruct Hw as (r & <- & Hr).
    apply in_map_iff in He. destruct He as (r' & R' & Hr').
    destruct (wx_child _ _ (shape_wf s o x K X) r Hr) as (y' & Y' & Sy & _).
    unfold get_shape in Y. assert (y' = y) by congruence. subst y'.
    destruct (wx_child _ _ (shape_wf s (r_shape r) y K Y) r' Hr') as (z & Z & Sz & _).
    rewrite R' in Z. destruct (he_sh _ _ (e_heap _ _ EX) _ _ Z) as (z' & Z' & XX).
    exists z'. split; auto. rewrite (xe_kind _ _ XX). rewrite Kx in Sy.
    destruct (s_kind y); try discriminate; destruct (s_kind z); try discriminate; auto. }
  split; auto. split; [eapply ext_trans; eauto|]. split.
  - eapply comp_weaken; [|exact C3']. cbn. intros p [[?|?]|Hp]; auto. right; right. apply KK.
    apply in_map_iff in Hp. destruct Hp as (q & <- & Hq). auto.
  - exists sf, 0. apply S3.
    + unfold s2, get_shape, set_shape. cbn. apply update_same. eapply nth_some_lt; eauto.
    + cbn. congruence.
Qed.

(** ** The search *)
Definition spec_dfs (f : nat -> st -> option st) : Prop :=
  forall o s s' E, f o s = Some s' -> ok s -> D SH o -> comp E s ->
    ok s' /\ ext s s' /\ comp (fun p => E p /\ p <> o) s' /\ done s' SH o.
Lemma foldo_dfs_spec f l : spec_dfs f -> forall s s' E, foldo f l s = Some s' -> ok s ->
  (forall o, In o l -> D SH o) -> comp E s ->
  ok s' /\ ext s s' /\ comp (fun p => E p /\ ~ In p l) s'.
Proof.
  intros F. induction l as [|o l IH]; intros s s' E H K Dl C; cbn in H.
  - injection H as <-. split; auto. split; [apply ext_refl|]. eapply comp_weaken; [|eauto]. auto.
  - destruct (f o s) as [s1|] eqn:F1; [|discriminate].
    destruct (F _ _ _ E F1 K) as (K1 & E1 & C1 & _); auto. { apply Dl; cbn; auto. }
    assert (Dl' : forall p, In p l -> D SH p) by (intros p Hp; apply Dl; cbn; auto).
    destruct (IH _ _ _ H K1 Dl' C1) as (K2 & E2 & C2').
    split; auto. split; [eapply ext_trans; eauto|].
    eapply comp_weaken; [|exact C2']. cbn. intros p ((A & B) & D'). split; auto. intros [Q|Q]; auto.
Qed.
Lemma ext_shape s s' o x : ext s s' -> get_shape s o = Some x ->
  exists x', get_shape s' o = Some x' /\ xext x x'.
Proof. intros E X. apply (he_sh _ _ (e_heap _ _ E)). auto. Qed.

Lemma shape_dfs_spec f o x s s' E : spec_dfs f -> shape_dfs f o s = Some s' -> ok s -> D SH o ->
  get_shape s o = Some x -> comp E s ->
  ok s' /\ ext s s' /\ comp (fun p => E p \/ p = o) s' /\ done s' SH o.
Proof.
  intros F H K Hd X C. unfold shape_dfs in H. destruct (ids s SH o) as [i|] eqn:Q.
  - injection H as <-. split; auto. split; [apply ext_refl|]. split; [|red; congruence].
    eapply comp_weaken; [|eauto]. auto.
  - unfold get_shape in X. rewrite X in H.
    match type of H with context [foldo ?g _ _] => set (g0 := g) in * end.
    destruct (foldo g0 (s_childs x) s) as [s1|] eqn:F1; [|discriminate]. injection H as <-.
    assert (A : ok s1 /\ ext s s1 /\ comp E s1 /\
                forall r, In r (s_childs x) -> done s1 CL (r_loc r) /\ done s1 SH (r_shape r)).
    { assert (DC : forall r, In r (s_childs x) -> D SH (r_shape r) /\ D CL (r_loc r)).
      { intros r. eapply child_D; eauto. }
      clear X Q. revert s s1 K C F1 DC. induction (s_childs x) as [|r l IHl]; intros s s1 K C F1 DC.
      - cbn in F1. injection F1 as <-. split; auto. split; [apply ext_refl|]. split; auto. intros r [].
      - cbn [foldo] in F1. destruct (g0 r s) as [s2|] eqn:G; [|discriminate]. unfold g0 in G.
        destruct (dfs_loc (r_loc r) s) as [s3|] eqn:G3; [|discriminate].
        destruct (DC r) as [DC1 DC2]; [cbn; auto|].
        destruct (dfs_loc_spec _ _ _ E G3 K DC2 C) as (K3 & E3 & C3' & H3 & D3).
        destruct (F _ _ _ E G K3 DC1 C3') as (K2 & E2 & C2' & D2).
        assert (C2'' : comp E s2) by (eapply comp_weaken; [|exact C2']; cbn; tauto).
        destruct (IHl s2 s1 K2 C2'' F1) as (K4 & E4 & C4 & D4). { intros q Hq. apply DC. cbn; auto. }
        split; auto. split; [eapply ext_trans; [eapply ext_trans; eauto|eauto]|]. split; auto.
        intros q [<-|Hq]; auto. split.
        + apply (done_ext s3 s1); auto. eapply ext_trans; eauto.
        + apply (done_ext s2 s1); auto. }
    destruct A as (K1 & E1 & C1 & D1).
    destruct (ext_shape _ _ _ _ E1 X) as (x1 & X1 & XX).
    split.
    { apply visit_ok; auto.
      - cbn. eapply nth_some_lt; eauto.
      - cbn. unfold get_shape in X1. rewrite X1, (xe_childs _ _ XX). intros c' o' Hi.
        apply in_flat_map in Hi. destruct Hi as (r & Hr & [Z|[Z|[]]]); injection Z as <- <-; apply D1; auto. }
    split; [eapply ext_trans; [eauto|apply visit_ext]|]. split; [|apply visit_done].
    eapply comp_weaken; [|apply visit_comp, C1]. cbn. tauto.
Qed.
Lemma edge_dfs_spec o x s s' E : edge_dfs o s = Some s' -> ok s -> D SH o ->
  get_shape s o = Some x -> s_kind x = Ed -> comp (fun p => E p \/ p = o) s -> done s SH o ->
  ok s' /\ ext s s' /\ comp (fun p => E p /\ p <> o) s' /\ done s' SH o.
Proof.
  intros H K Hd X Kx C Dn. unfold edge_dfs in H. rewrite X in H.
  match type of H with match ?m with _ => _ end = _ => destruct m as [s1|] eqn:M; [|discriminate] end.
  assert (A : ok s1 /\ ext s s1 /\ comp (fun p => E p \/ p = o) s1 /\
              exists x1, get_shape s1 o = Some x1 /\ s_repr x1 <> []).
  { destruct (s_repr x) eqn:Rx.
    - destruct (implicit_curve_spec o x s s1 _ M K Hd X Kx C) as (K1 & E1 & C1 & R1).
      split; auto. split; auto. split; auto. eapply comp_weaken; [|exact C1]. cbn; tauto.
    - injection M as <-. split; auto. split; [apply ext_refl|]. split; auto. exists x. split; auto. congruence. }
  destruct A as (K1 & E1 & C1 & x1 & X1 & R1). rewrite X1 in H.
  destruct (reprs_dfs_spec _ _ _ _ H K1 C1) as (K2 & E2 & C2' & H2 & D2).
  { intros r c p Hr Hp. eapply repr_D; eauto. }
  assert (EX : ext s s') by (eapply ext_trans; eauto).
  split; auto. split; auto. split; [|apply (done_ext s s'); auto].
  apply (comp_done _ _ o s' C2').
  - intros y Y. unfold get_shape in Y. rewrite H2 in Y. unfold get_shape in X1.
    assert (y = x1) by congruence. subst y. split; auto. split; auto.
    intros Kf. exfalso. destruct (ext_shape _ _ _ _ E1 X) as (x1' & X1' & XX).
    unfold get_shape in X1'. assert (x1' = x1) by congruence. subst.
    rewrite (xe_kind _ _ XX) in Kf. congruence.
  - cbn. intros p [?|?] ?; auto. congruence.
Qed.
Lemma face_dfs_spec f o x s s' E : spec_dfs f -> face_dfs f o s = Some s' -> ok s -> D SH o ->
  get_shape s o = Some x -> s_kind x = Fa -> comp (fun p => E p \/ p = o) s -> done s SH o ->
  ok s' /\ ext s s' /\ comp (fun p => E p /\ p <> o) s' /\ done s' SH o.
Proof.
  intros F H K Hd X Kx C Dn. unfold face_dfs in H. rewrite X in H.
  match type of H with match ?m with _ => _ end = _ => destruct m as [s1|] eqn:M; [|discriminate] end.
  assert (A : ok s1 /\ ext s s1 /\ comp (fun p => (E p \/ p = o) \/ face_edge s x p) s1 /\
              exists x1 sf l, get_shape s1 o = Some x1 /\ s_repr x1 = [RF sf l] /\ xext x x1).
  { destruct (s_repr x) eqn:Rx.
    - destruct (implicit_surface_spec o x s s1 _ M K Hd X Kx Rx C) as (K1 & E1 & C1 & sf & l & R1).
      split; auto. split; auto. split.
      + eapply comp_weaken; [|exact C1]. cbn; tauto.
      + eexists _, sf, l. split; eauto. split; auto.
        destruct (ext_shape _ _ _ _ E1 X) as (x1 & X1 & XX). congruence.
    - injection M as <-. split; auto. split; [apply ext_refl|]. split.
      + eapply comp_weaken; [|exact C]. cbn; tauto.
      + destruct (wx_face _ _ (shape_wf s o x K X) Kx) as [Q|(sf & l' & Q)]; [congruence|].
        exists x, sf, l'. split; auto. split; auto. apply xext_refl. }
  destruct A as (K1 & E1 & C1 & x1 & sf & l & X1 & R1 & XX). rewrite X1, R1 in H.
  assert (Rs : D CS sf /\ sf < size CS (hp s1)).
  { eapply (repr_D s1 o x1 (RF sf l)); eauto; rewrite ?R1; cbn; auto. }
  assert (Rl : D CL l /\ l < size CL (hp s1)).
  { eapply (repr_D s1 o x1 (RF sf l)); eauto; rewrite ?R1; cbn; auto. }
  destruct Rs as [Rs1 Rs2], Rl as [Rl1 Rl2].
  destruct (dfs_loc l (visit CS sf s1)) as [s2|] eqn:DL; [|discriminate].
  assert (Kv : ok (visit CS sf s1)) by (apply visit_ok; auto; cbn; tauto).
  destruct (dfs_loc_spec _ _ _ (fun p => (E p \/ p = o) \/ face_edge s x p) DL Kv Rl1)
    as (K2 & E2 & C2' & H2 & D2).
  { apply visit_comp_geo; auto; congruence. }
  rewrite visit_hp in H2.
  assert (E12 : ext s1 s2) by (eapply ext_trans; [apply visit_ext|eauto]).
  assert (X2 : get_shape s2 o = Some x1) by (unfold get_shape in *; rewrite H2; auto).
  assert (C2o : comp (fun p => (E p \/ face_edge s x p) /\ p <> o) s2).
  { apply (comp_done _ _ o s2 C2').
    - intros y Y. assert (y = x1) by congruence. subst y. rewrite R1. split; [|split].
      + intros r [<-|[]] c p [Q|[Q|[]]]; injection Q as <- <-; auto.
        apply (done_ext _ _ _ _ E2), visit_done.
      + congruence.
      + eauto.
    - cbn. tauto. }
  assert (E2' : ext s s2) by (eapply ext_trans; eauto).
  (* the loop over the wires *)
  match type of H with foldo ?g _ _ = _ => set (g0 := g) in * end.
  assert (Hw : subshapes x1 = subshapes x) by (unfold subshapes; rewrite (xe_childs _ _ XX); auto).
  rewrite Hw in H.
  assert (A : forall ws t s', foldo g0 ws t = Some s' -> (forall w, In w ws -> In w (subshapes x)) ->
            ext s2 t -> ok t -> forall G, comp G t ->
            ok s' /\ ext t s' /\ comp (fun p => G p /\ ~ exists w y, In w ws /\ get_shape s w = Some y /\ In p (subshapes y)) s').
  { clear H s'. induction ws as [|w ws IH]; intros t s' H Hin Et Kt G Cg.
    - cbn in H. injection H as <-. split; auto. split; [apply ext_refl|].
      eapply comp_weaken; [|exact Cg]. cbn. intros p Hp. split; auto. intros (w & y & [] & _).
    - cbn [foldo] in H. destruct (g0 w t) as [t1|] eqn:G1; [|discriminate]. unfold g0 in G1.
      destruct (get_shape t w) as [y|] eqn:Y; [|discriminate].
      assert (Hw' : In w (subshapes x)) by (apply Hin; cbn; auto).
      pose proof Hw' as Hw''. unfold subshapes in Hw'. apply in_map_iff in Hw'. destruct Hw' as (r & <- & Hr).
      destruct (wx_child _ _ (shape_wf s o x K X) r Hr) as (y0 & Y0 & _).
      assert (EXt : ext s t) by (eapply ext_trans; eauto).
      destruct (ext_shape _ _ _ _ EXt Y0) as (y1 & Y1 & XY). assert (y1 = y) by congruence. subst y1.
      assert (Dw : D SH (r_shape r)) by (apply (child_D s o x r); auto).
      destruct (foldo_dfs_spec f (subshapes y) F t t1 G G1 Kt) as (K3 & E3 & C3'); auto.
      { intros e He. unfold subshapes in He. apply in_map_iff in He. destruct He as (q & <- & Hq).
        apply (child_D t (r_shape r) y q); auto. }
      assert (Hin' : forall w, In w ws -> In w (subshapes x)) by (intros v Hv; apply Hin; cbn; auto).
      assert (Et1 : ext s2 t1) by (eapply ext_trans; eauto).
      destruct (IH t1 s' H Hin' Et1 K3 _ C3') as (K4 & E4 & C4).
      split; auto. split; [eapply ext_trans; eauto|].
      eapply comp_weaken; [|exact C4]. cbn. intros p ((A & B) & Q). split; auto.
      intros (v & z & [<-|Hv] & Z & Hp).
      + apply B. unfold get_shape in Z. assert (z = y0) by congruence. subst z.
        unfold subshapes in *. rewrite (xe_childs _ _ XY). auto.
      + apply Q. exists v, z. auto. }
  destruct (A _ _ _ H (fun w Hw => Hw) (ext_refl s2) K2 _ C2o) as (K3 & E3 & C3').
  split; auto. split; [eapply ext_trans; eauto|]. split.
  - eapply comp_weaken; [|exact C3']. cbn. intros p (([A1|A1] & B1) & Q1); auto. exfalso. apply Q1.
    destruct A1 as (w & y & a & b & c). exists w, y. auto.
  - apply (done_ext s); auto. eapply ext_trans; eauto.
Qed.
Lemma dfs_spec fuel : spec_dfs (dfs fuel).
Proof.
  induction fuel as [|fuel IH]; intros o s s' E H K Hd C; [discriminate|].
  cbn [dfs] in H. destruct (get_shape s o) as [x|] eqn:X; [|discriminate].
  destruct (shape_dfs (dfs fuel) o s) as [s1|] eqn:S1; [|discriminate].
  destruct (shape_dfs_spec _ o x s s1 E IH S1 K Hd X C) as (K1 & E1 & C1 & D1).
  destruct (ext_shape _ _ _ _ E1 X) as (x1 & X1 & XX).
  assert (G : s_kind x <> Fa -> s_kind x <> Ed -> s_kind x <> Ve -> s1 = s' ->
              ok s' /\ ext s s' /\ comp (fun p => E p /\ p <> o) s' /\ done s' SH o).
  { intros N1 N2 N3 <-. split; auto. split; auto. split; auto.
    apply (comp_done _ _ o s1 C1).
    - intros y Y. assert (y = x1) by congruence. subst y. rewrite (xe_kind _ _ XX).
      split; [|split; congruence]. intros r Hr. exfalso.
      destruct (wx_repr _ _ (shape_wf s1 o x1 K1 X1) r Hr) as [RK _]. rewrite (xe_kind _ _ XX) in RK.
      destruct (s_kind x); cbn in RK; congruence || tauto.
    - cbn. intros p [?|?] ?; auto. congruence. }
  destruct (s_kind x) eqn:Kx; try (apply G; congruence).
  - destruct (face_dfs_spec _ o x1 s1 s' E IH H K1 Hd X1) as (K2 & E2 & C2' & D2); auto.
    { rewrite (xe_kind _ _ XX); auto. }
    split; auto. split; [eapply ext_trans; eauto|]. auto.
  - destruct (edge_dfs_spec o x1 s1 s' E H K1 Hd X1) as (K2 & E2 & C2' & D2); auto.
    { rewrite (xe_kind _ _ XX); auto. }
    split; auto. split; [eapply ext_trans; eauto|]. auto.
  - assert (R1 : s_repr x1 = s_repr x).
    { apply (xe_fixed _ _ XX); [|right]; congruence. }
    destruct (reprs_dfs_spec _ _ _ _ H K1 C1) as (K2 & E2 & C2' & H2 & D2).
    { rewrite <- R1. intros r c p Hr Hp. eapply repr_D; eauto. }
    split; auto. split; [eapply ext_trans; eauto|]. split; [|apply (done_ext s1); auto].
    apply (comp_done _ _ o s' C2').
    + intros y Y. unfold get_shape in Y. rewrite H2 in Y. unfold get_shape in X1.
      assert (y = x1) by congruence. subst y. rewrite R1, (xe_kind _ _ XX).
      split; auto. split; congruence.
    + cbn. intros p [?|?] ?; auto. congruence.
Qed.
End Region.
