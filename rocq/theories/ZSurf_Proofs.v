From Coq Require Import List Arith ZArith Bool Reals Lra Lia.
From Verif Require Import Spline_Model Spline_Spec Spline_Piece Spline_Proofs Spline_Curve
  ZSurf_Spec ZSurf_Model.
Import ListNotations.
Open Scope R_scope.

(** * Heap *)
Lemma upd_same h i o : (i < length h)%nat -> nth_error (upd h i o) i = Some o.
Proof.
  intros H. unfold upd. rewrite nth_error_app2; rewrite firstn_length_le by lia; [|lia].
  rewrite Nat.sub_diag. reflexivity.
Qed.
Lemma upd_length h i o : (i < length h)%nat -> length (upd h i o) = length h.
Proof.
  intros H. unfold upd. rewrite app_length, firstn_length_le by lia. cbn [length].
  rewrite skipn_length. lia.
Qed.
Lemma nth_error_firstn_lt {A} (l : list A) n k : (k < n)%nat -> nth_error (firstn n l) k = nth_error l k.
Proof.
  revert l k. induction n as [|n IH]; intros l k H; [lia|].
  destruct l as [|x l]; [reflexivity|]. destruct k as [|k]; [reflexivity|].
  cbn. apply IH. lia.
Qed.
Lemma nth_error_skipn {A} (l : list A) n k : nth_error (skipn n l) k = nth_error l (n + k).
Proof.
  revert l. induction n as [|n IH]; intros l; [reflexivity|].
  destruct l as [|x l]; [now destruct k|]. cbn. apply IH.
Qed.
Lemma upd_other h i k o : (i < length h)%nat -> k <> i -> nth_error (upd h i o) k = nth_error h k.
Proof.
  intros H N. unfold upd. destruct (Nat.lt_ge_cases k i) as [L|L].
  - rewrite nth_error_app1 by (rewrite firstn_length_le; lia). apply nth_error_firstn_lt; lia.
  - rewrite nth_error_app2 by (rewrite firstn_length_le; lia). rewrite firstn_length_le by lia.
    destruct (k - i)%nat as [|m] eqn:E; [lia|]. cbn [nth_error].
    rewrite nth_error_skipn. f_equal. lia.
Qed.
Lemma nth_lt (h : heap) i o : nth_error h i = Some o -> (i < length h)%nat.
Proof. intros H. apply nth_error_Some. congruence. Qed.
Lemma nth_app_old (h : heap) i o x : nth_error h i = Some o -> nth_error (h ++ [x]) i = Some o.
Proof. intros H. rewrite nth_error_app1; auto. eapply nth_lt; eauto. Qed.
Lemma nth_app_new (h : heap) x : nth_error (h ++ [x]) (length h) = Some x.
Proof. rewrite nth_error_app2, Nat.sub_diag; auto. Qed.

(** * 2 x 2 matrices *)
Lemma pt_eq (p q : pt) : fst p = fst q -> snd p = snd q -> p = q.
Proof. destruct p, q; cbn; congruence. Qed.

Lemma inv_some m im : inv m = Some im -> det m <> 0 /\
  im = Mat (m11 m / det m) (- m01 m / det m) (- m10 m / det m) (m00 m / det m).
Proof. unfold inv. destruct (Reqb_spec (det m) 0); [discriminate|]. intros [= <-]. auto. Qed.

Lemma det_mmul a b : det (mmul a b) = det a * det b.
Proof. destruct a, b. unfold det, mmul. cbn. ring. Qed.

Lemma inv_left m im p : inv m = Some im -> mapply im (mapply m p) = p.
Proof.
  intros H. apply inv_some in H as [D ->]. destruct m as [a b c d], p as [x y].
  unfold mapply, det in *. cbn [m00 m01 m10 m11 fst snd] in *.
  apply pt_eq; cbn; field; exact D.
Qed.
Lemma inv_right m im p : inv m = Some im -> mapply m (mapply im p) = p.
Proof.
  intros H. apply inv_some in H as [D ->]. destruct m as [a b c d], p as [x y].
  unfold mapply, det in *. cbn [m00 m01 m10 m11 fst snd] in *.
  apply pt_eq; cbn; field; exact D.
Qed.

Lemma linear_round sh m im p : inv m = Some im ->
  linear_xy_to_uv sh im (linear_uv_to_xy sh m p) = p.
Proof.
  intros H. unfold linear_xy_to_uv, linear_uv_to_xy.
  rewrite <- (inv_left m im p H) at 2. f_equal.
  unfold psub, padd. apply pt_eq; cbn; ring.
Qed.
Lemma linear_round' sh m im x : inv m = Some im ->
  linear_uv_to_xy sh m (linear_xy_to_uv sh im x) = x.
Proof.
  intros H. unfold linear_xy_to_uv, linear_uv_to_xy. rewrite (inv_right m im _ H).
  unfold psub, padd. apply pt_eq; cbn; ring.
Qed.

(** * Every state of a program: the bound linear maps are invertible *)
Definition lin_ok (o : zsurf) : Prop := forall sh m im, lin o = Some (sh, m, im) -> inv m = Some im.
Definition maps_ok (h : heap) : Prop := forall i o, nth_error h i = Some o ->
  lin_ok o /\
  exists t, nth_error h (fst (bound o)) = Some t /\ (snd (bound o) = true -> lin t <> None).

Lemma reset_xy_l self o q o1 : reset_xy self o q = Some o1 ->
  z_base o1 = z_base o /\ orig_quad o1 = orig_quad o /\ cur_quad o1 = q /\
  bound o1 = (self, is_linear q) /\ z_raw o1 = z_raw o /\ z_mat o1 = z_mat o /\
  have_z o1 = have_z o /\
  (is_linear q = true -> exists im,
     let m := column_stack (psub (q2 q) (q1 q)) (psub (q0 q) (q1 q)) in
     inv m = Some im /\ lin o1 = Some (q1 q, m, im)) /\
  (is_linear q = false -> lin o1 = lin o).
Proof.
  unfold reset_xy. destruct (is_linear q) eqn:L.
  - destruct (inv _) as [im|] eqn:E; [|discriminate]. intros [= <-]. cbn.
    repeat (split; [reflexivity|]). split; [|discriminate]. intros _. exists im. auto.
  - intros [= <-]. cbn. repeat (split; [reflexivity|]). split; [discriminate|auto].
Qed.

Lemma transform_xy_l h i A b h' : transform_xy h i A b = Some h' ->
  exists o o1 c zc sh m im im' o', nth_error h i = Some o /\
    reset_xy i o (orig_quad o) = Some o1 /\
    center (upd h i o1) i = Some (c, zc) /\ lin o1 = Some (sh, m, im) /\
    inv (mmul A m) = Some im' /\ h' = upd (upd h i o1) i o' /\
    o' = (let tr p := padd (padd (mapply A (psub p c)) b) c in
          let q := cur_quad o1 in
          ZS (z_base o1) (orig_quad o1) (Quad (tr (q0 q)) (tr (q1 q)) (tr (q2 q)) (tr (q3 q)))
             (Some (padd (padd b (mapply A (psub sh c))) c, mmul A m, im'))
             (bound o1) (A, b) (z_raw o1) (z_mat o1) (have_z o1)).
Proof.
  unfold transform_xy. intros H.
  destruct (nth_error h i) as [o|] eqn:E; [|discriminate].
  destruct (reset_xy i o (orig_quad o)) as [o1|] eqn:R; [|discriminate].
  destruct (center (upd h i o1) i) as [[c zc]|] eqn:C; [|discriminate].
  destruct (lin o1) as [[[sh m] im]|] eqn:L; [|discriminate].
  destruct (inv (mmul A m)) as [im'|] eqn:I; [|discriminate].
  injection H as H. subst h'.
  eexists o, o1, c, zc, sh, m, im, im', _. repeat (split; [eassumption || reflexivity|]).
  reflexivity.
Qed.

Lemma transform_z_l h i s t h' : transform_z h i s t = Some h' ->
  exists o c zc o', nth_error h i = Some o /\
    center (upd h i (reset_z o)) i = Some (c, zc) /\
    h' = upd (upd h i (reset_z o)) i o' /\
    o' = ZS (z_base o) (orig_quad o) (cur_quad o) (lin o) (bound o) (xy_mat o)
            (s, t) (s, t + (1 - s) * zc) true.
Proof.
  unfold transform_z. intros H.
  destruct (nth_error h i) as [o|] eqn:E; [|discriminate].
  destruct (center _ i) as [[c zc]|] eqn:C; [|discriminate].
  injection H as H. subst h'. eexists o, c, zc, _. repeat (split; [eassumption || reflexivity|]).
  reflexivity.
Qed.

Lemma upd_twice h i a b : (i < length h)%nat -> upd (upd h i a) i b = upd h i b.
Proof.
  intros H. unfold upd.
  assert (firstn i (firstn i h ++ a :: skipn (S i) h) = firstn i h) as ->.
  { rewrite firstn_app, firstn_length_le by lia. rewrite Nat.sub_diag, firstn_firstn, Nat.min_id.
    cbn. apply app_nil_r. }
  f_equal. f_equal. rewrite skipn_app, firstn_length_le by lia.
  rewrite (skipn_all2 (n := S i) (firstn i h)) by (rewrite firstn_length_le; lia).
  replace (S i - i)%nat with 1%nat by lia. reflexivity.
Qed.

(** One step: objects other than the target keep their attributes. *)
Definition target (e : op) : option nat :=
  match e with OTransform i _ _ | OApply i => Some i | _ => None end.

Lemma transform_frame h i xy z h' : transform h i xy z = Some h' ->
  length h' = length h /\ forall k, k <> i -> nth_error h' k = nth_error h k.
Proof.
  unfold transform. intros H.
  assert (forall h1, match xy with Some (A, b) => transform_xy h i A b | None => Some h end = Some h1 ->
     length h1 = length h /\ forall k, k <> i -> nth_error h1 k = nth_error h k) as X.
  { intros h1 E. destruct xy as [[A b]|]; [|injection E as <-; auto].
    apply transform_xy_l in E as (o & o1 & c & zc & sh & m & im & im' & o' & N & _ & _ & _ & _ & -> & _).
    apply nth_lt in N. rewrite upd_twice by auto. split; [apply upd_length; auto|].
    intros k Hk. apply upd_other; auto. }
  destruct (match xy with Some (A, b) => _ | None => _ end) as [h1|]; [|discriminate].
  destruct (X h1 eq_refl) as [L F]. destruct z as [[s t]|]; [|injection H as <-; auto].
  apply transform_z_l in H as (o & c & zc & o' & N & _ & -> & _).
  apply nth_lt in N. rewrite upd_twice by auto. split; [rewrite upd_length; auto|].
  intros k Hk. rewrite upd_other; auto.
Qed.

Lemma apply_frame h i h' : apply_z h i = Some h' ->
  length h' = length h /\ forall k, k <> i -> nth_error h' k = nth_error h k.
Proof.
  unfold apply_z. destruct (nth_error h i) as [o|] eqn:E; [|discriminate].
  apply nth_lt in E. destruct (have_z o); intros [= <-]; auto.
  split; [apply upd_length; auto|]. intros k Hk. apply upd_other; auto.
Qed.

Lemma step_frame h e h' k : step h e = Some h' -> (k < length h)%nat -> target e <> Some k ->
  (length h <= length h')%nat /\ nth_error h' k = nth_error h k.
Proof.
  intros H Hk N. destruct e as [l s|i|i xy z|i]; cbn [step target] in *.
  - unfold znew in H. destruct (s_dim s =? 1)%nat; [|discriminate].
    destruct (quad_of l); [|discriminate]. destruct (reset_xy _ _ _); [|discriminate].
    injection H as <-. rewrite app_length, nth_error_app1 by auto. split; [lia|auto].
  - unfold get_copy in H. destruct (nth_error h i); [|discriminate].
    injection H as <-. rewrite app_length, nth_error_app1 by auto. split; [lia|auto].
  - apply transform_frame in H as [L F]. rewrite L. split; [lia|]. apply F. congruence.
  - apply apply_frame in H as [L F]. rewrite L. split; [lia|]. apply F. congruence.
Qed.

(** Replacing the attributes of i keeps [maps_ok] when the new object is
    consistent. *)
Lemma maps_ok_upd h i o o' : maps_ok h -> nth_error h i = Some o ->
  (bound o' = bound o \/ (fst (bound o') = i /\ (snd (bound o') = true -> lin o' <> None))) ->
  (lin o <> None -> lin o' <> None) -> lin_ok o' ->
  maps_ok (upd h i o').
Proof.
  intros M N B P L k x Hk. pose proof (nth_lt _ _ _ N) as Li.
  assert (forall j y, nth_error h j = Some y ->
     exists t, nth_error (upd h i o') (fst (bound y)) = Some t /\ (snd (bound y) = true -> lin t <> None)) as Q.
  { intros j y Hj. destruct (M j y Hj) as (_ & t & T1 & T2).
    destruct (Nat.eq_dec (fst (bound y)) i) as [E|E].
    - exists o'. rewrite E, upd_same by auto. split; auto. intros S. apply P.
      rewrite E in T1. rewrite N in T1. injection T1 as <-. auto.
    - exists t. rewrite upd_other by auto. auto. }
  destruct (Nat.eq_dec k i) as [->|Nk].
  - rewrite upd_same in Hk by auto. injection Hk as <-. split; auto. destruct B as [B|[B1 B2]].
    + rewrite B. eapply Q. eauto.
    + rewrite B1. exists o'. rewrite upd_same by auto. auto.
  - rewrite upd_other in Hk by auto. split; [apply (M k x Hk)|]. eapply Q. eauto.
Qed.

Lemma maps_ok_app h o : maps_ok h -> lin_ok o ->
  (exists t, nth_error (h ++ [o]) (fst (bound o)) = Some t /\ (snd (bound o) = true -> lin t <> None)) ->
  maps_ok (h ++ [o]).
Proof.
  intros M L B k x Hk. destruct (Nat.lt_ge_cases k (length h)) as [L'|L'].
  - rewrite nth_error_app1 in Hk by auto. destruct (M k x Hk) as (T0 & t & T1 & T2). split; auto.
    exists t. split; [apply nth_app_old|]; auto.
  - assert (k = length h) as ->.
    { assert (k < length (h ++ [o]))%nat by (apply nth_error_Some; congruence).
      rewrite app_length in *; cbn in *; lia. }
    rewrite nth_app_new in Hk. injection Hk as <-. auto.
Qed.

Lemma maps_ok_step h e h' : maps_ok h -> step h e = Some h' -> maps_ok h'.
Proof.
  intros M H. destruct e as [l s|i|i xy z|i]; cbn [step] in H.
  - unfold znew in H. destruct (s_dim s =? 1)%nat; [|discriminate].
    destruct (quad_of l) as [q|]; [|discriminate].
    destruct (reset_xy _ _ _) as [o1|] eqn:E; [|discriminate]. injection H as <-.
    apply reset_xy_l in E as (_ & _ & _ & B & _ & _ & _ & Li & Lb).
    apply maps_ok_app; auto.
    + intros sh m im. cbn [reset_z lin]. destruct (is_linear q).
      * destruct (Li eq_refl) as (im' & I & ->). intros [= <- <- <-]. exact I.
      * rewrite (Lb eq_refl). discriminate.
    + cbn [reset_z bound lin]. rewrite B. exists (reset_z o1). cbn [fst]. rewrite nth_app_new.
      split; auto. cbn [snd reset_z lin]. intros T. destruct (Li T) as (im & _ & ->). discriminate.
  - unfold get_copy in H. destruct (nth_error h i) as [o0|] eqn:E; [|discriminate]. injection H as <-.
    destruct (M i o0 E) as (T0 & t & T1 & T2). apply maps_ok_app; auto.
    exists t. split; [apply nth_app_old|]; auto.
  - unfold transform in H.
    assert (forall h1, match xy with Some (A, b) => transform_xy h i A b | None => Some h end = Some h1 ->
      maps_ok h1) as X.
    { intros h1 E. destruct xy as [[A b]|]; [|injection E as <-; auto].
      apply transform_xy_l in E as (o & o1 & c & zc & sh & m & im & im' & o' & N & R & _ & Lo & I & -> & ->).
      apply reset_xy_l in R as (_ & _ & _ & B & _).
      rewrite upd_twice by (eapply nth_lt; eauto).
      eapply maps_ok_upd; eauto; cbn [bound lin].
      - right. rewrite B. cbn. split; auto. discriminate.
      - discriminate.
      - intros ? ? ? [= <- <- <-]. exact I. }
    destruct (match xy with Some (A, b) => _ | None => _ end) as [h1|]; [|discriminate].
    pose proof (X h1 eq_refl) as M1. destruct z as [[s t]|]; [|injection H as <-; auto].
    apply transform_z_l in H as (o & c & zc & o' & N & _ & -> & ->).
    rewrite upd_twice by (eapply nth_lt; eauto).
    eapply maps_ok_upd; eauto; cbn [bound lin]; auto. apply (M1 i o N).
  - unfold apply_z in H. destruct (nth_error h i) as [o|] eqn:E; [|discriminate].
    destruct (have_z o); injection H as <-; auto.
    eapply maps_ok_upd; eauto; cbn [bound lin]; auto. apply (M i o E).
Qed.

Lemma maps_ok_run es : forall h h', maps_ok h -> run h es = Some h' -> maps_ok h'.
Proof.
  induction es as [|e es IH]; cbn; intros h h' M H; [injection H as <-; auto|].
  destruct (step h e) as [h1|] eqn:E; [|discriminate]. eapply IH; [|exact H].
  eapply maps_ok_step; eauto.
Qed.
Lemma maps_ok_nil : maps_ok [].
Proof. intros [|i] o; discriminate. Qed.

Lemma inverse_l es h i : run [] es = Some h ->
  (forall p x, xy_to_uv h i x = Some p -> uv_to_xy h i p = Some x) /\
  (forall p x, (exists y, xy_to_uv h i y <> None) -> uv_to_xy h i p = Some x -> xy_to_uv h i x = Some p).
Proof.
  intros H. pose proof (maps_ok_run _ _ _ maps_ok_nil H) as M.
  unfold xy_to_uv, uv_to_xy. destruct (nth_error h i) as [o|] eqn:E; [|split; [discriminate|discriminate]].
  destruct (M i o E) as (_ & t & T1 & T2). rewrite T1.
  destruct (snd (bound o)).
  - destruct (M _ _ T1) as (L & _). destruct (lin t) as [[[sh m] im]|] eqn:El.
    + specialize (L sh m im El). split; intros p x.
      * intros [= <-]. f_equal. apply linear_round'; auto.
      * intros _ [= <-]. f_equal. apply linear_round; auto.
    + split; discriminate.
  - split; [discriminate|]. intros p x (y & Hy). now elim Hy.
Qed.

(** * History of one object *)
Definition xy_event (i : nat) (e : op) : option (mat * pt) :=
  match e with OTransform k xy _ => if (k =? i)%nat then xy else None | _ => None end.
Definition z_events (i : nat) (e : op) : list zevent :=
  match e with
  | OTransform k _ (Some (s, t)) => if (k =? i)%nat then [ZSet s t] else []
  | OApply k => if (k =? i)%nat then [ZFix] else []
  | _ => []
  end.
Definition rows (A : mat) : (R * R) * (R * R) := ((m00 A, m01 A), (m10 A, m11 A)).

(** The map of the constructor. *)
Definition map0 (q : quad) (p : pt) : pt :=
  if is_linear q then on_parallelogram (q1 q) (q2 q) (q0 q) p else bilinear_uv_to_xy q p.
Definition apply_tr (tr : option (mat * pt)) (c p : pt) : pt :=
  match tr with None => p | Some (A, b) => about (rows A) b c p end.
Definition map_tr (q : quad) (tr : option (mat * pt)) (p : pt) : pt :=
  apply_tr tr (map0 q (1/2, 1/2)) (map0 q p).

Record xy_inv (i : nat) (q : quad) (tr : option (mat * pt)) (o : zsurf) : Prop := {
  xi_orig : orig_quad o = q;
  xi_bound : bound o = (i, is_linear q);
  xi_lin : is_linear q = true -> exists sh m im, lin o = Some (sh, m, im) /\
             (forall p, linear_uv_to_xy sh m p = map_tr q tr p) /\
             let f := apply_tr tr (map0 q (1/2, 1/2)) in
             cur_quad o = Quad (f (q0 q)) (f (q1 q)) (f (q2 q)) (f (q3 q));
  xi_bil : is_linear q = false -> cur_quad o = q /\ tr = None /\ lin o = None }.

Lemma xy_inv_map h i q tr o p : nth_error h i = Some o -> xy_inv i q tr o ->
  uv_to_xy h i p = Some (map_tr q tr p).
Proof.
  intros N [O B L Bi]. unfold uv_to_xy. rewrite N, B. cbn [fst snd]. rewrite N.
  destruct (is_linear q) eqn:E.
  - destruct (L eq_refl) as (sh & m & im & -> & F & _). f_equal. apply F.
  - destruct (Bi eq_refl) as (-> & -> & _). unfold map_tr, apply_tr, map0. rewrite E. reflexivity.
Qed.

Lemma reset_xy_inv i o q o1 : (is_linear q = false -> lin o = None) ->
  orig_quad o = q -> reset_xy i o q = Some o1 -> xy_inv i q None o1.
Proof.
  intros Hb O R. apply reset_xy_l in R as (_ & O1 & C & B & _ & _ & _ & L & Bi).
  constructor; auto.
  - congruence.
  - intros E. destruct (L E) as (im & I & Hl). eexists _, _, im. split; [exact Hl|]. split.
    + intros [u v]. unfold map_tr, apply_tr, map0. rewrite E.
      unfold linear_uv_to_xy, mapply, column_stack, padd, psub, on_parallelogram. cbn.
      apply pt_eq; cbn; ring.
    + cbn. rewrite C. destruct q; reflexivity.
  - intros E. split; auto. split; auto. rewrite (Bi E). auto.
Qed.

Lemma transform_xy_inv h i A b h' q tr o : transform_xy h i A b = Some h' ->
  nth_error h i = Some o -> xy_inv i q tr o ->
  exists o', h' = upd h i o' /\ xy_inv i q (Some (A, b)) o' /\
    z_base o' = z_base o /\ z_raw o' = z_raw o /\ z_mat o' = z_mat o /\ have_z o' = have_z o.
Proof.
  intros H N X. apply transform_xy_l in H as
    (o0 & o1 & c & zc & sh & m & im & im' & o' & N' & R & Ce & Lo & I & -> & ->).
  rewrite N in N'. injection N' as <-. pose proof (nth_lt _ _ _ N) as Hi.
  rewrite upd_twice by auto. eexists. split; [reflexivity|].
  pose proof X as [O B Li Bi]. rewrite O in R.
  assert (xy_inv i q None o1) as X1.
  { eapply reset_xy_inv; eauto. intros E. apply Bi; auto. }
  apply reset_xy_l in R as (Z1 & O1 & C1 & B1 & Z2 & Z3 & Z4 & _).
  cbn [z_base z_raw z_mat have_z]. split; [|auto 10].
  assert (is_linear q = true) as E.
  { destruct (is_linear q) eqn:E; auto. destruct (xi_bil _ _ _ _ X1 E) as (_ & _ & K). congruence. }
  assert (c = map0 q (1/2, 1/2)) as ->.
  { unfold center, eval_pt in Ce.
    rewrite (xy_inv_map _ i q None o1 (1/2, 1/2) (upd_same _ _ _ Hi) X1) in Ce.
    destruct (z_eval _ _ _); [|discriminate]. injection Ce as <- _. reflexivity. }
  constructor; cbn [orig_quad bound lin cur_quad].
  - congruence.
  - rewrite B1. reflexivity.
  - intros _. eexists _, _, im'. split; [reflexivity|]. split.
    + intros p. destruct (xi_lin _ _ _ _ X1 E) as (sh' & m' & im'' & K & F & _).
      rewrite Lo in K. injection K as <- <- <-. specialize (F p).
      unfold map_tr in *. cbn [apply_tr] in *. rewrite <- F.
      generalize (map0 q (1 / 2, 1 / 2)). intros [cx cy]. destruct m, A, sh, b, p.
      unfold linear_uv_to_xy, mmul, mapply, padd, psub, about, rows. cbn. apply pt_eq; cbn; ring.
    + cbn. rewrite C1. generalize (map0 q (1 / 2, 1 / 2)). intros c.
      assert (forall x, padd (padd (mapply A (psub x c)) b) c = about (rows A) b c x) as K.
      { intros x. unfold padd, psub, mapply, about, rows. apply pt_eq; cbn; ring. }
      rewrite !K. reflexivity.
  - congruence.
Qed.

(** * Height of one object *)
Definition good_surface (s : surface) : Prop :=
  valid_basis (u_basis s) /\ valid_basis (v_basis s) /\
  make_surface (u_basis s) (v_basis s) (s_poles s) (s_rational s) = Some s /\
  s_rational s = false /\ s_dim s = 1%nat /\
  (forall r p, In r (s_poles s) -> In p r -> length p = 1%nat).

Lemma make_surface_shape s : make_surface (u_basis s) (v_basis s) (s_poles s) (s_rational s) = Some s ->
  length (s_poles s) = size (u_basis s) /\
  (forall r, In r (s_poles s) -> length r = size (v_basis s)).
Proof.
  unfold make_surface. destruct (_ && _) eqn:E; [|discriminate]. intros _.
  apply andb_prop in E as [E1 E2]. apply Nat.eqb_eq in E1. split; auto.
  intros r Hr. rewrite forallb_forall in E2. apply Nat.eqb_eq. auto.
Qed.

Lemma dom_le b : valid_basis b -> dom0 b <= dom1 b.
Proof.
  intros V. apply (k_le_end b V (degree b)). pose proof (len_eq b V). lia.
Qed.

Lemma check_idem b t t' : valid_basis b -> check b t = Some t' ->
  dom0 b <= t' <= dom1 b /\ check b t' = Some t'.
Proof.
  intros V H. pose proof (dom_le b V) as D.
  destruct (check_l b t D) as (C & _). destruct (C t' H) as [C1 _]. split; auto.
  destruct (check_l b t' D) as (_ & C2 & _). auto.
Qed.

(** The value of a one-dimensional surface as a double sum. *)
Definition dsum (s : surface) (u v : R) : R :=
  rsum (size (v_basis s)) (fun k => rsum (size (u_basis s)) (fun i =>
    spole s i k 0 * ev (u_basis s) i u) * ev (v_basis s) k v).

Lemma base_z_in s u v : good_surface s ->
  dom0 (u_basis s) <= u <= dom1 (u_basis s) -> dom0 (v_basis s) <= v <= dom1 (v_basis s) ->
  base_z s u v = Some (dsum s u v).
Proof.
  intros (VU & VV & M & Rt & D & _) Hu Hv. apply make_surface_shape in M as [NU NV].
  unfold base_z. rewrite (surface_eval_l s VU VV NU NV u v Hu Hv Rt), D. reflexivity.
Qed.

Lemma base_z_cases s u v : good_surface s ->
  base_z s u v = match check (u_basis s) u, check (v_basis s) v with
                 | Some u', Some v' => Some (dsum s u' v')
                 | _, _ => None
                 end.
Proof.
  intros G. destruct (check (u_basis s) u) as [u'|] eqn:Cu; [destruct (check (v_basis s) v) as [v'|] eqn:Cv|].
  - pose proof G as (VU & VV & _). destruct (check_idem _ _ _ VU Cu) as [Hu Cu'].
    destruct (check_idem _ _ _ VV Cv) as [Hv Cv']. rewrite <- (base_z_in s u' v' G Hu Hv).
    unfold base_z, surface_eval. rewrite Cu, Cv, Cu', Cv'. reflexivity.
  - unfold base_z, surface_eval. rewrite Cu, Cv. reflexivity.
  - unfold base_z, surface_eval. rewrite Cu. reflexivity.
Qed.

Lemma scale_spole s a b i k : good_surface s -> (i < size (u_basis s))%nat ->
  (k < size (v_basis s))%nat ->
  spole (scale_poles s a b) i k 0 = spole s i k 0 * a + b.
Proof.
  intros (VU & VV & M & Rt & D & P) Hi Hk. apply make_surface_shape in M as [NU NV].
  unfold spole, scale_poles. cbn [s_poles].
  rewrite (nth_map_lt (map (map (fun x => x * a + b))) (s_poles s) i [] []) by lia.
  set (r := nth i (s_poles s) []). assert (In r (s_poles s)) as Hr by (apply nth_In; lia).
  rewrite (nth_map_lt (map (fun x => x * a + b)) r k [] []) by (rewrite NV; auto).
  set (p := nth k r []). assert (In p r) as Hp by (apply nth_In; rewrite NV; auto).
  specialize (P r p Hr Hp). rewrite (nth_map_lt (fun x => x * a + b) p 0 0 0) by lia. reflexivity.
Qed.

Lemma good_scale s a b : good_surface s -> good_surface (scale_poles s a b).
Proof.
  intros (VU & VV & M & Rt & D & P). pose proof (make_surface_shape _ M) as [NU NV].
  unfold good_surface. cbn [scale_poles u_basis v_basis s_poles s_rational].
  split; auto. split; auto. split.
  { unfold make_surface. rewrite map_length, NU, Nat.eqb_refl. cbn.
    assert (forallb (fun r => (length r =? size (v_basis s))%nat)
      (map (map (map (fun x => x * a + b))) (s_poles s)) = true) as ->; [|reflexivity].
    apply forallb_forall. intros r Hr. apply in_map_iff in Hr as (r0 & <- & Hr).
    rewrite map_length. apply Nat.eqb_eq. auto. }
  assert (forall r p, In r (map (map (map (fun x => x * a + b))) (s_poles s)) -> In p r ->
     length p = 1%nat) as P'.
  { intros r p Hr Hp. apply in_map_iff in Hr as (r0 & <- & Hr).
    apply in_map_iff in Hp as (p0 & <- & Hp). rewrite map_length. eauto. }
  split; auto. split; auto.
  unfold s_dim. cbn [scale_poles s_poles s_rational rat_cols].
  pose proof (len_eq _ VU) as (U1 & U2 & U3). pose proof (len_eq _ VV) as (V1 & V2 & V3).
  set (l := map (map (map (fun x => x * a + b))) (s_poles s)) in *.
  assert (In (nth 0 l []) l) as I1 by (apply nth_In; unfold l; rewrite map_length; lia).
  rewrite (P' (nth 0 l [])); auto. apply nth_In.
  apply in_map_iff in I1 as (r0 & <- & Hr). rewrite map_length, NV; auto. lia.
Qed.

Lemma dsum_scale s a b u v : good_surface s ->
  dom0 (u_basis s) <= u <= dom1 (u_basis s) -> dom0 (v_basis s) <= v <= dom1 (v_basis s) ->
  dsum (scale_poles s a b) u v = dsum s u v * a + b.
Proof.
  intros G Hu Hv. pose proof G as (VU & VV & _).
  unfold dsum. cbn [scale_poles u_basis v_basis].
  rewrite (rsum_ext (size (v_basis s)) _ (fun k =>
    a * (rsum (size (u_basis s)) (fun i => spole s i k 0 * ev (u_basis s) i u) * ev (v_basis s) k v)
    + b * ev (v_basis s) k v)).
  - rewrite rsum_plus, !rsum_scal, (partition_l _ VV v Hv). ring.
  - intros k Hk.
    rewrite (rsum_ext (size (u_basis s)) _ (fun i =>
      a * (spole s i k 0 * ev (u_basis s) i u) + b * ev (u_basis s) i u)).
    + rewrite rsum_plus, !rsum_scal, (partition_l _ VU u Hu). ring.
    + intros i Hi. rewrite scale_spole by auto. ring.
Qed.

Lemma base_z_scale s a b u v : good_surface s ->
  base_z (scale_poles s a b) u v = option_map (fun z => z * a + b) (base_z s u v).
Proof.
  intros G. rewrite (base_z_cases _ _ _ (good_scale s a b G)), (base_z_cases s u v G).
  pose proof G as (VU & VV & _). cbn [scale_poles u_basis v_basis].
  destruct (check (u_basis s) u) as [u'|] eqn:Cu; [|reflexivity].
  destruct (check (v_basis s) v) as [v'|] eqn:Cv; [|reflexivity].
  cbn. f_equal. apply dsum_scale; auto; [apply (check_idem _ _ _ VU Cu)|apply (check_idem _ _ _ VV Cv)].
Qed.

Record z_inv (st : zstate) (o : zsurf) : Prop := {
  zi_good : good_surface (z_base o);
  zi_base : forall u v, base_z (z_base o) u v = fst st u v;
  zi_tr : match snd st with
          | None => have_z o = false /\ z_mat o = (1, 0)
          | Some (s, t) => have_z o = true /\
              exists zc, fst st (1/2) (1/2) = Some zc /\ z_mat o = (s, t + (1 - s) * zc)
          end }.

Lemma z_inv_height st o u v : z_inv st o -> obj_z o u v = zheight st u v.
Proof.
  intros [G B T]. unfold obj_z, zheight. rewrite B. destruct (snd st) as [[s t]|].
  - destruct T as (-> & zc & C & ->). unfold scaled. rewrite C.
    destruct (fst st u v) as [z|]; cbn; [|reflexivity]. f_equal. ring.
  - destruct T as (-> & _). destruct (fst st u v); reflexivity.
Qed.

Lemma zfix_inv st o : z_inv st o -> have_z o = true ->
  z_inv (zstep st ZFix) (ZS (scale_poles (z_base o) (fst (z_mat o)) (snd (z_mat o)))
     (orig_quad o) (cur_quad o) (lin o) (bound o) (xy_mat o) (z_raw o) (1, 0) false).
Proof.
  intros I H. pose proof I as [G B T]. constructor; cbn [z_base zstep fst snd have_z z_mat].
  - apply good_scale; auto.
  - intros u v. rewrite base_z_scale by auto. rewrite <- (z_inv_height st o u v I).
    unfold obj_z. rewrite H. destruct (base_z _ u v); cbn; [|reflexivity]. f_equal. ring.
  - auto.
Qed.

(** * Whole histories *)
Definition obj_inv (i : nat) (q : quad) (tr : option (mat * pt)) (st : zstate) (h : heap) : Prop :=
  exists o, nth_error h i = Some o /\ xy_inv i q tr o /\ z_inv st o.

Lemma znew_l h l s h1 : znew h l s = Some h1 -> exists q o, quad_of l = Some q /\
  h1 = h ++ [o] /\ xy_inv (length h) q None o /\ z_base o = s /\ s_dim s = 1%nat /\
  z_mat o = (1, 0) /\ z_raw o = (1, 0) /\ have_z o = false.
Proof.
  unfold znew. destruct (Nat.eqb_spec (s_dim s) 1) as [D|]; [|discriminate].
  destruct (quad_of l) as [q|]; [|discriminate].
  destruct (reset_xy _ _ _) as [o1|] eqn:E; [|discriminate]. intros [= <-].
  exists q, (reset_z o1). split; auto. split; auto.
  assert (xy_inv (length h) q None o1) as [O B L Bi] by (eapply reset_xy_inv; [| |exact E]; cbn; auto).
  apply reset_xy_l in E as (Z1 & _). split; [|cbn; auto].
  constructor; cbn [reset_z orig_quad bound lin cur_quad]; auto.
Qed.

Lemma znew_inv h l s h1 : good_surface s -> znew h l s = Some h1 ->
  exists q, quad_of l = Some q /\ obj_inv (length h) q None (base_z s, None) h1.
Proof.
  intros G H. apply znew_l in H as (q & o & Q & -> & X & B & _ & Zm & _ & Hz).
  exists q. split; auto. exists o. rewrite nth_app_new. split; auto. split; auto.
  subst s. constructor; cbn; auto.
Qed.

Lemma obj_transform_z h i q tr st s t h' : obj_inv i q tr st h -> transform_z h i s t = Some h' ->
  obj_inv i q tr (zstep st (ZSet s t)) h'.
Proof.
  intros (o & N & X & Zi) H. pose proof (nth_lt _ _ _ N) as Hi.
  apply transform_z_l in H as (o0 & c & zc & o' & N' & C & -> & ->).
  rewrite N in N'. injection N' as <-. rewrite upd_twice by auto.
  eexists. rewrite upd_same by auto. split; [reflexivity|].
  destruct X as [X1 X2 X3 X4]. split; [constructor; auto|].
  destruct Zi as [G B T]. constructor; cbn [zstep fst snd z_base have_z z_mat]; auto.
  split; auto. exists zc. split; auto.
  unfold center, eval_pt, z_eval in C. rewrite upd_same in C by auto.
  destruct (uv_to_xy _ _ _); [|discriminate].
  unfold obj_z in C. cbn [reset_z z_base have_z fst snd] in C. rewrite B in C.
  destruct (fst st (1/2) (1/2)) as [z|]; [|discriminate]. cbn in C. injection C as _ <-. reflexivity.
Qed.

Lemma obj_step i q tr st h e h' : (i < length h)%nat -> obj_inv i q tr st h -> step h e = Some h' ->
  (i < length h')%nat /\
  obj_inv i q (match xy_event i e with Some x => Some x | None => tr end)
              (fold_left zstep (z_events i e) st) h'.
Proof.
  intros Hi I H.
  assert (target e <> Some i -> (i < length h')%nat /\ obj_inv i q tr st h') as Fr.
  { intros T. destruct (step_frame h e h' i H Hi T) as [L F]. split; [lia|].
    destruct I as (o & N & X). exists o. rewrite F. auto. }
  destruct e as [l s|k|k xy z|k]; cbn [step target xy_event z_events] in *.
  - apply Fr. discriminate.
  - apply Fr. discriminate.
  - destruct (Nat.eqb_spec k i) as [->|Nk].
    2:{ replace (match z with Some (_, _) => [] | None => [] end) with (@nil zevent)
          by (destruct z as [[]|]; auto). apply Fr. congruence. }
    split; [destruct (transform_frame _ _ _ _ _ H); lia|].
    unfold transform in H.
    destruct (match xy with Some (A, b) => _ | None => _ end) as [h1|] eqn:E; [|discriminate].
    assert (obj_inv i q (match xy with Some x => Some x | None => tr end) st h1) as I1.
    { destruct xy as [[A b]|]; [|injection E as <-; auto].
      destruct I as (o & N & X & Zi).
      destruct (transform_xy_inv _ _ _ _ _ _ _ _ E N X) as (o' & -> & X' & Z1 & _ & Z3 & Z4).
      exists o'. rewrite upd_same by auto. split; auto. split; auto.
      destruct Zi as [G B T]. constructor; rewrite ?Z1, ?Z3, ?Z4; auto. }
    destruct z as [[s t]|]; cbn [fold_left].
    + eapply obj_transform_z; eauto.
    + injection H as <-. exact I1.
  - destruct (Nat.eqb_spec k i) as [->|Nk]; [|apply Fr; congruence].
    split; [destruct (apply_frame _ _ _ H); lia|].
    unfold apply_z in H. destruct I as (o & N & X & Zi). rewrite N in H. cbn [fold_left].
    destruct (have_z o) eqn:Hz; injection H as <-.
    + eexists. rewrite upd_same by auto. split; [reflexivity|]. split.
      * destruct X. constructor; auto.
      * apply zfix_inv; auto.
    + exists o. split; auto. split; auto. destruct Zi as [G B T].
      destruct (snd st) as [[s t]|] eqn:E; [destruct T; congruence|].
      constructor; cbn [zstep fst snd]; auto. intros u v. unfold zheight. rewrite E. auto.
Qed.

Lemma obj_run es : forall i q tr st h h', (i < length h)%nat -> obj_inv i q tr st h ->
  run h es = Some h' ->
  obj_inv i q (match last_some (map (xy_event i) es) with Some x => Some x | None => tr end)
              (fold_left zstep (flat_map (z_events i) es) st) h'.
Proof.
  induction es as [|e es IH]; cbn [run map flat_map last_some fold_left]; intros i q tr st h h' Hi I H.
  - injection H as <-. exact I.
  - destruct (step h e) as [h1|] eqn:E; [|discriminate].
    destruct (obj_step _ _ _ _ _ _ _ Hi I E) as [Hi' I'].
    specialize (IH _ _ _ _ _ _ Hi' I' H). rewrite fold_left_app.
    destruct (last_some _); auto.
Qed.

(** The object made by the constructor, after any program. *)
Lemma history_l h l s h1 es h2 : good_surface s -> znew h l s = Some h1 -> run h1 es = Some h2 ->
  exists q, quad_of l = Some q /\
    obj_inv (length h) q (last_some (map (xy_event (length h)) es))
      (zrun (base_z s) (flat_map (z_events (length h)) es)) h2.
Proof.
  intros G H1 H2. pose proof (znew_inv _ _ _ _ G H1) as (q & Q & I). exists q. split; auto.
  assert (length h < length h1)%nat as Hl by (destruct I as (o & N & _); eapply nth_lt; eauto).
  pose proof (obj_run es _ _ _ _ _ _ Hl I H2) as I2.
  destruct (last_some _); exact I2.
Qed.

(** * Bounding box *)
Lemma bilinear_weights q u v : 0 <= u <= 1 -> 0 <= v <= 1 -> forall (f : pt -> R) m,
  f = fst \/ f = snd ->
  ((forall x, In x [f (q0 q); f (q1 q); f (q2 q); f (q3 q)] -> m <= x) -> m <= f (bilinear_uv_to_xy q (u, v))) /\
  ((forall x, In x [f (q0 q); f (q1 q); f (q2 q); f (q3 q)] -> x <= m) -> f (bilinear_uv_to_xy q (u, v)) <= m).
Proof.
  intros Hu Hv f m Hf.
  assert (f (bilinear_uv_to_xy q (u, v)) =
    f (q0 q) * ((1 - u) * v) + f (q1 q) * ((1 - u) * (1 - v)) + f (q2 q) * (u * (1 - v)) + f (q3 q) * (u * v)) as ->.
  { destruct Hf as [-> | ->]; reflexivity. }
  assert (0 <= (1 - u) * v) as W0 by (apply Rmult_le_pos; lra).
  assert (0 <= (1 - u) * (1 - v)) as W1 by (apply Rmult_le_pos; lra).
  assert (0 <= u * (1 - v)) as W2 by (apply Rmult_le_pos; lra).
  assert (0 <= u * v) as W3 by (apply Rmult_le_pos; lra).
  assert ((1 - u) * v + (1 - u) * (1 - v) + u * (1 - v) + u * v = 1) as S by ring.
  generalize dependent ((1 - u) * v). intros w0. intros.
  generalize dependent ((1 - u) * (1 - v)). intros w1. intros.
  generalize dependent (u * (1 - v)). intros w2. intros.
  generalize dependent (u * v). intros w3. intros.
  split; intros H.
  - pose proof (H (f (q0 q)) ltac:(cbn; auto)). pose proof (H (f (q1 q)) ltac:(cbn; auto)).
    pose proof (H (f (q2 q)) ltac:(cbn; auto)). pose proof (H (f (q3 q)) ltac:(cbn; auto)).
    replace m with (m * w0 + m * w1 + m * w2 + m * w3) by (rewrite <- !Rmult_plus_distr_l; rewrite S; ring).
    repeat apply Rplus_le_compat; apply Rmult_le_compat_r; auto.
  - pose proof (H (f (q0 q)) ltac:(cbn; auto)). pose proof (H (f (q1 q)) ltac:(cbn; auto)).
    pose proof (H (f (q2 q)) ltac:(cbn; auto)). pose proof (H (f (q3 q)) ltac:(cbn; auto)).
    replace m with (m * w0 + m * w1 + m * w2 + m * w3) by (rewrite <- !Rmult_plus_distr_l; rewrite S; ring).
    repeat apply Rplus_le_compat; apply Rmult_le_compat_r; auto.
Qed.

(** The fourth corner of a quad recognised as a parallelogram is exact. *)
Definition exact_quad (q : quad) : Prop := is_linear q = true -> q3 q = v11_of (q0 q) (q1 q) (q2 q).

Lemma map_tr_bilinear i q tr o p : exact_quad q -> xy_inv i q tr o ->
  map_tr q tr p = bilinear_uv_to_xy (cur_quad o) p.
Proof.
  intros X I. destruct (is_linear q) eqn:E.
  - destruct (xi_lin _ _ _ _ I E) as (_ & _ & _ & _ & _ & ->). specialize (X E).
    unfold map_tr. generalize (map0 q (1/2, 1/2)). intros c. unfold map0. rewrite E.
    destruct q as [[a0 a1] [b0 b1] [c0 c1] [d0 d1]], p as [u v], c as [cx cy].
    unfold v11_of, padd, psub in X. cbn in X. injection X as -> ->.
    destruct tr as [[A b]|]; unfold apply_tr, about, bilinear_uv_to_xy, on_parallelogram; cbn;
      apply pt_eq; cbn; ring.
  - destruct (xi_bil _ _ _ _ I E) as (-> & -> & _). unfold map_tr, apply_tr, map0. rewrite E. reflexivity.
Qed.

Lemma aabb_l i q tr st h u v : obj_inv i q tr st h -> exact_quad q ->
  match snd st with Some (s, _) => 0 <= s | None => True end ->
  (forall o, nth_error h i = Some o ->
     dom0 (u_basis (z_base o)) <= u <= dom1 (u_basis (z_base o)) /\
     dom0 (v_basis (z_base o)) <= v <= dom1 (v_basis (z_base o))) ->
  0 <= u <= 1 -> 0 <= v <= 1 ->
  exists p lo hi, eval_pt h i (u, v) = Some p /\ aabb h i = Some (lo, hi) /\
    fst (fst lo) <= fst (fst p) <= fst (fst hi) /\
    snd (fst lo) <= snd (fst p) <= snd (fst hi) /\
    snd lo <= snd p <= snd hi.
Proof.
  intros (o & N & X & Zi) Ex Sc D Hu Hv. destruct (D o N) as [Du Dv].
  pose proof Zi as [G B T]. pose proof G as (VU & VV & M & Rt & Dm & _).
  apply make_surface_shape in M as [NU NV].
  destruct (surface_hull_l (z_base o) VU VV NU NV u v Du Dv Rt) as (pz & lo & hi & E & A & _ & H).
  specialize (H 0%nat ltac:(lia)).
  assert (exists x0 x1 y0 y1,
    amin [fst (q0 (cur_quad o)); fst (q1 (cur_quad o)); fst (q2 (cur_quad o)); fst (q3 (cur_quad o))] = Some x0 /\
    amax [fst (q0 (cur_quad o)); fst (q1 (cur_quad o)); fst (q2 (cur_quad o)); fst (q3 (cur_quad o))] = Some x1 /\
    amin [snd (q0 (cur_quad o)); snd (q1 (cur_quad o)); snd (q2 (cur_quad o)); snd (q3 (cur_quad o))] = Some y0 /\
    amax [snd (q0 (cur_quad o)); snd (q1 (cur_quad o)); snd (q2 (cur_quad o)); snd (q3 (cur_quad o))] = Some y1) as
    (x0 & x1 & y0 & y1 & X0 & X1 & Y0 & Y1) by (cbn; eauto 10).
  eexists (map_tr q tr (u, v), if have_z o then fst (z_mat o) * nth 0 pz 0 + snd (z_mat o) else nth 0 pz 0), _, _.
  split.
  { unfold eval_pt. rewrite (xy_inv_map _ _ _ _ _ _ N X). unfold z_eval. rewrite N. cbn [fst snd].
    unfold obj_z, base_z. rewrite E. reflexivity. }
  split.
  { unfold aabb. rewrite N, X0, X1, Y0, Y1, A. reflexivity. }
  cbn [fst snd].
  rewrite (map_tr_bilinear _ _ _ _ _ Ex X).
  split; [|split].
  - split; [apply (proj1 (bilinear_weights (cur_quad o) u v Hu Hv fst x0 ltac:(auto)))
           |apply (proj2 (bilinear_weights (cur_quad o) u v Hu Hv fst x1 ltac:(auto)))].
    + apply amin_spec; auto.
    + apply amax_spec; auto.
  - split; [apply (proj1 (bilinear_weights (cur_quad o) u v Hu Hv snd y0 ltac:(auto)))
           |apply (proj2 (bilinear_weights (cur_quad o) u v Hu Hv snd y1 ltac:(auto)))].
    + apply amin_spec; auto.
    + apply amax_spec; auto.
  - destruct (snd st) as [[s t]|].
    + destruct T as (-> & zc & _ & ->). cbn [fst snd].
      split; apply Rplus_le_compat_r; apply Rmult_le_compat_l; lra.
    + destruct T as (-> & ->). cbn [fst snd]. lra.
Qed.

(** The bases of an object do not change. *)
Definition same_bases (s : surface) (o : zsurf) : Prop :=
  u_basis (z_base o) = u_basis s /\ v_basis (z_base o) = v_basis s.

Lemma bases_step s i h e h' : (exists o, nth_error h i = Some o /\ same_bases s o) -> step h e = Some h' ->
  exists o, nth_error h' i = Some o /\ same_bases s o.
Proof.
  intros (o & N & B) H. pose proof (nth_lt _ _ _ N) as Hi.
  destruct (target e) as [k|] eqn:T; [destruct (Nat.eq_dec k i) as [->|Nk]|].
  - destruct e as [l s0|k|k xy z|k]; cbn in T; try discriminate; injection T as ->; cbn [step] in H.
    + unfold transform in H.
      destruct (match xy with Some (A, b) => _ | None => _ end) as [h1|] eqn:E; [|discriminate].
      assert (exists o, nth_error h1 i = Some o /\ same_bases s o) as (o1 & N1 & B1).
      { destruct xy as [[A b]|]; [|injection E as <-; eauto].
        apply transform_xy_l in E as (o0 & o1 & c & zc & sh & m & im & im' & o' & N' & R & _ & _ & _ & -> & ->).
        rewrite N in N'. injection N' as <-. rewrite upd_twice by auto.
        eexists. rewrite upd_same by auto. split; [reflexivity|].
        apply reset_xy_l in R as (Z1 & _). unfold same_bases. cbn [z_base]. rewrite Z1. exact B. }
      destruct z as [[a t]|]; [|injection H as <-; eauto].
      pose proof (nth_lt _ _ _ N1) as Hi1.
      apply transform_z_l in H as (o0 & c & zc & o' & N' & _ & -> & ->).
      rewrite N1 in N'. injection N' as <-. rewrite upd_twice by auto.
      eexists. rewrite upd_same by auto. split; [reflexivity|]. exact B1.
    + unfold apply_z in H. rewrite N in H. destruct (have_z o); injection H as <-; [|eauto].
      eexists. rewrite upd_same by auto. split; [reflexivity|]. exact B.
  - exists o. destruct (step_frame h e h' i H Hi ltac:(congruence)) as [_ ->]. auto.
  - exists o. destruct (step_frame h e h' i H Hi ltac:(congruence)) as [_ ->]. auto.
Qed.
Lemma bases_run s i es : forall h h', (exists o, nth_error h i = Some o /\ same_bases s o) ->
  run h es = Some h' -> exists o, nth_error h' i = Some o /\ same_bases s o.
Proof.
  induction es as [|e es IH]; cbn; intros h h' B H; [injection H as <-; auto|].
  destruct (step h e) as [h1|] eqn:E; [|discriminate]. eapply IH; [|exact H].
  eapply bases_step; eauto.
Qed.
Lemma bases_new h l s h1 : znew h l s = Some h1 ->
  exists o, nth_error h1 (length h) = Some o /\ same_bases s o.
Proof.
  intros H. apply znew_l in H as (q & o & _ & -> & _ & <- & _). exists o.
  rewrite nth_app_new. split; auto. split; auto.
Qed.

(** * Independence of copies *)
Definition untouched (i : nat) (es : list op) : Prop := forall e, In e es -> target e <> Some i.

Lemma run_frame i es : forall h h', run h es = Some h' -> (i < length h)%nat -> untouched i es ->
  (length h <= length h')%nat /\ nth_error h' i = nth_error h i.
Proof.
  induction es as [|e es IH]; cbn; intros h h' H Hi U; [injection H as <-; auto|].
  destruct (step h e) as [h1|] eqn:E; [|discriminate].
  destruct (step_frame h e h1 i E Hi) as [L F]; [apply U; cbn; auto|].
  destruct (IH h1 h' H ltac:(lia)) as [L' F']; [intros x Hx; apply U; cbn; auto|].
  split; [lia|congruence].
Qed.

(** An object whose methods are its own. *)
Definition self_bound (h : heap) (i : nat) : Prop :=
  exists o, nth_error h i = Some o /\ fst (bound o) = i.

Lemma self_bound_frame h es h' i uv : run h es = Some h' -> self_bound h i -> untouched i es ->
  self_bound h' i /\ uv_to_xy h' i uv = uv_to_xy h i uv /\ xy_to_uv h' i uv = xy_to_uv h i uv /\
  eval_pt h' i uv = eval_pt h i uv /\ aabb h' i = aabb h i.
Proof.
  intros H (o & N & B) U. pose proof (nth_lt _ _ _ N) as Hi.
  destruct (run_frame i es h h' H Hi U) as [_ F].
  assert (uv_to_xy h' i uv = uv_to_xy h i uv) as E.
  { unfold uv_to_xy. rewrite F, N, B, F, N. reflexivity. }
  split; [exists o; rewrite F; auto|]. split; auto. split.
  { unfold xy_to_uv. rewrite F, N, B, F, N. reflexivity. }
  split; [unfold eval_pt; rewrite E; unfold z_eval; rewrite F; reflexivity|].
  unfold aabb. rewrite F. reflexivity.
Qed.

Lemma z_frame h es h' i uv : run h es = Some h' -> (i < length h)%nat -> untouched i es ->
  z_eval h' i uv = z_eval h i uv.
Proof.
  intros H Hi U. destruct (run_frame i es h h' H Hi U) as [_ F]. unfold z_eval. rewrite F. reflexivity.
Qed.

Lemma self_bound_new h l s h1 : znew h l s = Some h1 -> self_bound h1 (length h).
Proof.
  intros H. apply znew_l in H as (q & o & _ & -> & X & _). exists o. rewrite nth_app_new. split; auto.
  rewrite (xi_bound _ _ _ _ X). reflexivity.
Qed.

Lemma self_bound_transform h j xy z h' : transform h j (Some xy) z = Some h' -> self_bound h' j.
Proof.
  unfold transform. destruct xy as [A b]. destruct (transform_xy h j A b) as [h1|] eqn:E; [|discriminate].
  apply transform_xy_l in E as (o0 & o1 & c & zc & sh & m & im & im' & o' & N' & R & _ & _ & _ & -> & ->).
  apply reset_xy_l in R as (_ & _ & _ & B & _). pose proof (nth_lt _ _ _ N') as Hi.
  rewrite upd_twice by auto. destruct z as [[s t]|]; intros H.
  - apply transform_z_l in H as (o2 & c2 & zc2 & o2' & N2 & _ & -> & ->).
    rewrite upd_same in N2 by auto. injection N2 as <-.
    assert (j < length (upd h j
      (ZS (z_base o1) (orig_quad o1)
           (Quad (padd (padd (mapply A (psub (q0 (cur_quad o1)) c)) b) c)
             (padd (padd (mapply A (psub (q1 (cur_quad o1)) c)) b) c)
             (padd (padd (mapply A (psub (q2 (cur_quad o1)) c)) b) c)
             (padd (padd (mapply A (psub (q3 (cur_quad o1)) c)) b) c))
           (Some (padd (padd b (mapply A (psub sh c))) c, mmul A m, im')) (bound o1) (A, b)
           (z_raw o1) (z_mat o1) (have_z o1))))%nat as L by (rewrite upd_length; auto).
    rewrite upd_twice by auto. eexists. rewrite upd_same by auto. split; [reflexivity|].
    cbn [bound]. rewrite B. reflexivity.
  - injection H as <-. eexists. rewrite upd_same by auto. split; [reflexivity|].
    cbn [bound]. rewrite B. reflexivity.
Qed.

(** Objects with their own methods keep them whatever happens. *)
Lemma self_bound_step h e h' i : step h e = Some h' -> self_bound h i -> self_bound h' i.
Proof.
  intros H (o & N & B). pose proof (nth_lt _ _ _ N) as Hi.
  destruct (target e) as [k|] eqn:T; [destruct (Nat.eq_dec k i) as [->|Nk]|].
  - destruct e as [l s0|k|k xy z|k]; cbn in T; try discriminate; injection T as ->; cbn [step] in H.
    + destruct xy as [xy|]; [eapply self_bound_transform; eauto|].
      unfold transform in H. destruct z as [[a t]|]; [|injection H as <-; exists o; auto].
      apply transform_z_l in H as (o0 & c & zc & o' & N' & _ & -> & ->).
      rewrite N in N'. injection N' as <-. rewrite upd_twice by auto.
      eexists. rewrite upd_same by auto. split; [reflexivity|]. exact B.
    + unfold apply_z in H. rewrite N in H. destruct (have_z o); injection H as <-; [|exists o; auto].
      eexists. rewrite upd_same by auto. split; [reflexivity|]. exact B.
  - exists o. destruct (step_frame h e h' i H Hi ltac:(congruence)) as [_ ->]. auto.
  - exists o. destruct (step_frame h e h' i H Hi ltac:(congruence)) as [_ ->]. auto.
Qed.
Lemma self_bound_run es : forall h h' i, run h es = Some h' -> self_bound h i -> self_bound h' i.
Proof.
  induction es as [|e es IH]; cbn; intros h h' i H B; [injection H as <-; auto|].
  destruct (step h e) as [h1|] eqn:E; [|discriminate]. eapply IH; [exact H|].
  eapply self_bound_step; eauto.
Qed.

(** A copy that is not transformed itself has the map of the original. The kind
    of the methods of the original does not change. *)
Definition kind_of (h : heap) (i : nat) (k : bool) : Prop :=
  exists o, nth_error h i = Some o /\ bound o = (i, k).

Lemma obj_inv_kind i q tr st h : obj_inv i q tr st h -> kind_of h i (is_linear q).
Proof. intros (o & N & X & _). exists o. split; auto. apply X. Qed.

Lemma copy_follows_l h i q tr st h1 es h2 p : obj_inv i q tr st h -> get_copy h i = Some h1 ->
  run h1 es = Some h2 -> untouched (length h) es ->
  uv_to_xy h2 (length h) p = uv_to_xy h2 i p.
Proof.
  intros I C H U. unfold get_copy in C. destruct I as (o & N & X & Zi). rewrite N in C. injection C as <-.
  assert (length h < length (h ++ [o]))%nat as L by (rewrite app_length; cbn; lia).
  destruct (run_frame _ _ _ _ H L U) as [_ F]. rewrite nth_app_new in F.
  assert (obj_inv i q tr st (h ++ [o])) as I1 by (exists o; split; [apply nth_app_old|]; auto).
  assert (i < length (h ++ [o]))%nat as Hi by (apply nth_lt in N; lia).
  pose proof (obj_run es _ _ _ _ _ _ Hi I1 H) as I2.
  apply obj_inv_kind in I2 as (o2 & N2 & B2).
  unfold uv_to_xy. rewrite F, (xi_bound _ _ _ _ X), N2, B2. cbn [fst snd]. rewrite N2. reflexivity.
Qed.

(** * make_full_surface *)
Lemma all_some_seq {A} (f : nat -> option A) g n : (forall i, (i < n)%nat -> f i = Some (g i)) ->
  all_some (map f (seq 0 n)) = Some (map g (seq 0 n)).
Proof. intros H. apply all_some_map. intros i Hi. apply in_seq in Hi. apply H. lia. Qed.

Lemma nth_map_seq' {A} (f : nat -> A) n j d : (j < n)%nat -> nth j (map f (seq 0 n)) d = f j.
Proof.
  intros H. rewrite (nth_map_lt f (seq 0 n) j d 0%nat) by (rewrite seq_length; auto).
  rewrite seq_nth by auto. reflexivity.
Qed.

(** Tensor products reproduce bilinear functions. *)
Lemma bilinear_precision ub vb us vs u v a b c d : valid_basis ub -> valid_basis vb ->
  (1 <= degree ub)%nat -> (1 <= degree vb)%nat ->
  dom0 ub <= u <= dom1 ub -> dom0 vb <= v <= dom1 vb ->
  make_linear_poles ub = Some us -> make_linear_poles vb = Some vs ->
  rsum (size vb) (fun k => rsum (size ub) (fun i =>
    (a + b * nth i us 0 + c * nth k vs 0 + d * nth i us 0 * nth k vs 0) * ev ub i u) * ev vb k v)
  = a + b * (u - dom0 ub) + c * (v - dom0 vb) + d * (u - dom0 ub) * (v - dom0 vb).
Proof.
  intros VU VV DU DV Hu Hv PU PV.
  destruct (linear_precision_l ub VU u us ltac:(lia) Hu PU) as [_ LU].
  destruct (linear_precision_l vb VV v vs ltac:(lia) Hv PV) as [_ LV].
  rewrite (rsum_ext (size vb) _ (fun k =>
    (a + b * (u - dom0 ub)) * ev vb k v + (c + d * (u - dom0 ub)) * (nth k vs 0 * ev vb k v))).
  - rewrite rsum_plus, !rsum_scal, LV, (partition_l _ VV v Hv). ring.
  - intros k Hk.
    rewrite (rsum_ext (size ub) _ (fun i => (a + c * nth k vs 0) * ev ub i u
       + (b + d * nth k vs 0) * (nth i us 0 * ev ub i u))).
    + rewrite rsum_plus, !rsum_scal, LU, (partition_l _ VU u Hu). ring.
    + intros i Hi. ring.
Qed.

Lemma map_tr_form q tr : exists a b c d a' b' c' d', forall p,
  map_tr q tr p = (a + b * fst p + c * snd p + d * fst p * snd p,
                   a' + b' * fst p + c' * snd p + d' * fst p * snd p).
Proof.
  unfold map_tr. generalize (map0 q (1/2, 1/2)). intros [cx cy].
  assert (exists a b c d a' b' c' d', forall p,
    map0 q p = (a + b * fst p + c * snd p + d * fst p * snd p,
                a' + b' * fst p + c' * snd p + d' * fst p * snd p)) as
    (a & b & c & d & a' & b' & c' & d' & H).
  { unfold map0. destruct (is_linear q).
    - exists (fst (q1 q)), (fst (q2 q) - fst (q1 q)), (fst (q0 q) - fst (q1 q)), 0.
      exists (snd (q1 q)), (snd (q2 q) - snd (q1 q)), (snd (q0 q) - snd (q1 q)), 0.
      intros [u v]. unfold on_parallelogram. cbn. apply pt_eq; cbn; ring.
    - exists (fst (q1 q)), (fst (q2 q) - fst (q1 q)), (fst (q0 q) - fst (q1 q)),
        (fst (q1 q) + fst (q3 q) - fst (q0 q) - fst (q2 q)).
      exists (snd (q1 q)), (snd (q2 q) - snd (q1 q)), (snd (q0 q) - snd (q1 q)),
        (snd (q1 q) + snd (q3 q) - snd (q0 q) - snd (q2 q)).
      intros [u v]. unfold bilinear_uv_to_xy. cbn. apply pt_eq; cbn; ring. }
  destruct tr as [[A t]|]; cbn [apply_tr].
  - exists (m00 A * (a - cx) + m01 A * (a' - cy) + cx + fst t), (m00 A * b + m01 A * b'),
      (m00 A * c + m01 A * c'), (m00 A * d + m01 A * d').
    exists (m10 A * (a - cx) + m11 A * (a' - cy) + cy + snd t), (m10 A * b + m11 A * b'),
      (m10 A * c + m11 A * c'), (m10 A * d + m11 A * d').
    intros p. rewrite H. unfold about, rows. cbn [fst snd]. apply pt_eq; cbn [fst snd]; ring.
  - exists a, b, c, d, a', b', c', d'. exact H.
Qed.

Lemma full_surface_l h i q tr st o u v : obj_inv i q tr st h -> nth_error h i = Some o ->
  let ub := u_basis (z_base o) in let vb := v_basis (z_base o) in
  (1 <= degree ub)%nat -> (1 <= degree vb)%nat ->
  dom0 ub <= u <= dom1 ub -> dom0 vb <= v <= dom1 vb ->
  exists fs p z, make_full_surface h i = Some fs /\
    uv_to_xy h i (u - dom0 ub, v - dom0 vb) = Some p /\ z_eval h i (u, v) = Some z /\
    surface_eval fs u v = Some [fst p; snd p; z].
Proof.
  intros (o' & N & X & Zi) N' ub vb DU DV Hu Hv. rewrite N in N'. injection N' as <-.
  pose proof Zi as [G _ T]. pose proof G as (VU & VV & M & Rt & Dm & Pl).
  apply make_surface_shape in M as [NU NV]. fold ub vb in VU, VV, NU, NV.
  destruct (make_linear_poles ub) as [us|] eqn:PU.
  2:{ unfold make_linear_poles in PU. destruct (degree ub); [lia|]. discriminate. }
  destruct (make_linear_poles vb) as [vs|] eqn:PV.
  2:{ unfold make_linear_poles in PV. destruct (degree vb); [lia|]. discriminate. }
  destruct (linear_precision_l ub VU u us ltac:(lia) Hu PU) as [LU _].
  destruct (linear_precision_l vb VV v vs ltac:(lia) Hv PV) as [LV _].
  set (zp := fun iu iv => let z := spole (z_base o') iu iv 0 in
               if have_z o' then z * fst (z_mat o') + snd (z_mat o') else z).
  set (xyp := fun iu iv => map_tr q tr (nth iu us 0, nth iv vs 0)).
  set (poles := map (fun iu => map (fun iv => [fst (xyp iu iv); snd (xyp iu iv); zp iu iv])
                   (seq 0 (size vb))) (seq 0 (size ub))).
  set (fs := Surface ub vb poles false).
  assert (length poles = size ub) as NU' by (unfold poles; rewrite map_length, seq_length; auto).
  assert (forall r, In r poles -> length r = size vb) as NV'.
  { intros r Hr. unfold poles in Hr. apply in_map_iff in Hr as (iu & <- & _).
    rewrite map_length, seq_length. auto. }
  assert (make_full_surface h i = Some fs) as F.
  { unfold make_full_surface. rewrite N. fold ub vb. rewrite PU, PV, LU, LV.
    erewrite all_some_seq with (g := fun iu => map (fun iv => [fst (xyp iu iv); snd (xyp iu iv); zp iu iv])
                   (seq 0 (size vb))).
    2:{ intros iu Hiu. apply all_some_seq. intros iv Hiv.
        rewrite (xy_inv_map _ _ _ _ _ _ N X). reflexivity. }
    fold poles. unfold make_surface. rewrite NU', Nat.eqb_refl. cbn [andb].
    assert (forallb (fun r => (length r =? size vb)%nat) poles = true) as ->; [|reflexivity].
    apply forallb_forall. intros r Hr. apply Nat.eqb_eq. auto. }
  exists fs, (map_tr q tr (u - dom0 ub, v - dom0 vb)),
    (if have_z o' then fst (z_mat o') * dsum (z_base o') u v + snd (z_mat o') else dsum (z_base o') u v).
  split; auto. split; [apply (xy_inv_map _ _ _ _ _ _ N X)|]. split.
  { unfold z_eval. rewrite N. cbn [fst snd]. unfold obj_z. rewrite base_z_in by auto. reflexivity. }
  pose proof (len_eq _ VU) as (U1 & U2 & U3). pose proof (len_eq _ VV) as (V1 & V2 & V3).
  assert (forall iu iv, (iu < size ub)%nat -> (iv < size vb)%nat ->
    nth iv (nth iu poles []) [] = [fst (xyp iu iv); snd (xyp iu iv); zp iu iv]) as E.
  { intros iu iv Hiu Hiv. unfold poles. rewrite nth_map_seq' by auto. rewrite nth_map_seq' by auto. reflexivity. }
  assert (s_dim fs = 3%nat) as D3.
  { unfold s_dim. cbn [fs s_poles s_rational rat_cols]. rewrite E by lia. reflexivity. }
  rewrite (surface_eval_l fs VU VV NU' NV' u v Hu Hv eq_refl), D3. cbn [seq map].
  destruct (map_tr_form q tr) as (a & b & c & d & a' & b' & c' & d' & MF).
  cbn [fs u_basis v_basis]. f_equal. f_equal; [|f_equal; [|f_equal]].
  - rewrite MF. cbn [fst snd].
    rewrite <- (bilinear_precision ub vb us vs u v a b c d VU VV DU DV Hu Hv PU PV).
    apply rsum_ext. intros k Hk. f_equal. apply rsum_ext. intros i0 Hi0. f_equal.
    unfold spole. cbn [fs s_poles]. rewrite E by auto. cbn [nth]. unfold xyp. rewrite MF. reflexivity.
  - rewrite MF. cbn [fst snd].
    rewrite <- (bilinear_precision ub vb us vs u v a' b' c' d' VU VV DU DV Hu Hv PU PV).
    apply rsum_ext. intros k Hk. f_equal. apply rsum_ext. intros i0 Hi0. f_equal.
    unfold spole. cbn [fs s_poles]. rewrite E by auto. cbn [nth]. unfold xyp. rewrite MF. reflexivity.
  - destruct (have_z o') eqn:Hz.
    + transitivity (dsum (scale_poles (z_base o') (fst (z_mat o')) (snd (z_mat o'))) u v).
      * unfold dsum. cbn [scale_poles u_basis v_basis]. fold ub vb.
        apply rsum_ext. intros k Hk. f_equal. apply rsum_ext. intros i0 Hi0. f_equal.
        rewrite scale_spole by auto. unfold spole at 1. cbn [fs s_poles]. rewrite E by auto.
        cbn [nth]. unfold zp. reflexivity.
      * rewrite dsum_scale by auto. ring.
    + unfold dsum. fold ub vb. apply rsum_ext. intros k Hk. f_equal. apply rsum_ext. intros i0 Hi0. f_equal.
      unfold spole at 1. cbn [fs s_poles]. rewrite E by auto. cbn [nth]. unfold zp. reflexivity.
Qed.
