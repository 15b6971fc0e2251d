(** Default curves and surfaces (brep_writer.py, implicit_curve, implicit_surface). *)
From Coq Require Import List Arith Bool ZArith QArith Lia.
From Verif Require Import Brep_Model Brep_Spec Brep_Proofs Brep_Read Brep_Run Brep_Write.
Import ListNotations.
Local Open Scope nat_scope.
Local Open Scope list_scope.

(** * The properties persist *)
Lemma point_at_ext h h' v p : hext h h' -> point_at h v p -> point_at h' v p.
Proof.
  intros E (y & Y & K & P). destruct (he_sh _ _ E _ _ Y) as (y' & Y' & XX). exists y'.
  split; auto. rewrite (xe_kind _ _ XX), (xe_point _ _ XX). auto.
Qed.
Lemma ends_ext h h' r a b : hext h h' -> ends h r a b -> ends h' r a b.
Proof.
  intros E (y & Y & Q). destruct (he_sh _ _ E _ _ Y) as (y' & Y' & XX). exists y'.
  split; auto. rewrite (xe_childs _ _ XX). auto.
Qed.
Lemma has_line_ext h h' x x' : hext h h' -> xext x x' -> has_line h x -> has_line h' x'.
Proof.
  intros E XX (a & b & p & q & c & A & B & C & R & L). exists a, b, p, q, c.
  rewrite (xe_childs _ _ XX). split; auto. split; [eapply point_at_ext; eauto|]. split; [eapply point_at_ext; eauto|].
  destruct (xe_repr _ _ XX) as [e Q]. rewrite Q. split; [apply in_or_app; auto|].
  destruct (he_c3 _ _ E) as [e3 Q3]. rewrite Q3. apply nth_app_l; auto.
Qed.
Lemma drawn_ext h h' sf g e : hext h h' -> drawn h sf g e -> drawn h' sf g e.
Proof.
  intros E (y & a & b & l & c & ua & ub & pa & pb & qa & qb & Y & S & R & L & Pa & Pb & O).
  destruct (he_sh _ _ E _ _ Y) as (y' & Y' & XX).
  exists y', a, b, l, c, ua, ub, pa, pb, qa, qb. split; auto. rewrite (xe_childs _ _ XX). split; auto.
  destruct (xe_repr _ _ XX) as [e' Q]. rewrite Q. split; [apply in_or_app; auto|].
  destruct (he_c2 _ _ E) as [e3 Q3]. rewrite Q3. split; [apply nth_app_l; auto|].
  split; [eapply point_at_ext; eauto|]. split; [eapply point_at_ext; eauto|]. auto.
Qed.
Lemma edges_of_ext h h' x x' es : hext h h' -> xext x x' -> edges_of h x es -> edges_of h' x' es.
Proof.
  intros E XX (ws & F & ->). rewrite <- (xe_childs _ _ XX) in F.
  cut (exists ws', Forall2 (fun r w => nth_error (h_sh h') (r_shape r) = Some w) (s_childs x') ws' /\
                   flat_map s_childs ws = flat_map s_childs ws').
  { intros (ws' & A & B). exists ws'. auto. }
  clear - F E. induction F as [|r w l ws H F IH].
  - exists []. auto.
  - destruct IH as (ws' & A & B). destruct (he_sh _ _ E _ _ H) as (w' & W' & XX). exists (w' :: ws').
    split; [constructor; auto|]. cbn. rewrite (xe_childs _ _ XX), B. auto.
Qed.
Lemma two_ended_back h h' r : hext h h' -> two_ended h' r -> (exists y, nth_error (h_sh h) (r_shape r) = Some y) ->
  two_ended h r.
Proof.
  intros E (a & b & y' & Y' & Q) (y & Y). destruct (he_sh _ _ E _ _ Y) as (y2 & Y2 & XX).
  assert (y2 = y') by congruence. subst. exists a, b, y. split; auto. rewrite <- (xe_childs _ _ XX). auto.
Qed.
Lemma has_patch_ext h h' x x' : hext h h' -> xext x x' -> s_kind x = Fa -> has_patch h x -> has_patch h' x'.
Proof.
  intros E XX Kx (es & vs & pts & sf & g & A & B & C & R & G & O & Dr).
  exists es, vs, pts, sf, g. split; [eapply edges_of_ext; eauto|]. split.
  { clear - B E. induction B; constructor; auto. eapply point_at_ext; eauto. }
  split.
  { intros TE. destruct C as [C1 C2].
    - rewrite Forall_forall in *. intros r Hr. eapply two_ended_back; eauto.
      destruct (Dr r Hr) as (y & ? & ? & ? & ? & ? & ? & ? & ? & ? & ? & Y & _). eauto.
    - split; auto. intros i r Hi. eapply ends_ext; eauto. }
  split. { rewrite (xe_fixed _ _ XX); auto; [congruence|]. left. congruence. }
  split. { destruct (he_s _ _ E) as [e3 Q3]. rewrite Q3. apply nth_app_l; auto. }
  split; auto. intros r Hr. eapply drawn_ext; eauto.
Qed.

(** * The walk *)
Lemma evens_concat {A} (l : list (A * A)) : evens (concat (map (fun p => [fst p; snd p]) l)) = map fst l.
Proof. induction l as [|p l IH]; cbn; auto. rewrite IH. auto. Qed.
Lemma evens_snoc {A} (l : list (A * A)) x : evens (concat (map (fun p => [fst p; snd p]) l) ++ [x]) = map fst l ++ [x].
Proof. induction l as [|p l IH]; cbn; auto. rewrite IH. auto. Qed.
Lemma odds_rot {A} (p : A * A) l : odds (rotate (concat (map (fun p => [fst p; snd p]) (p :: l)))) = map fst (l ++ [p]).
Proof. cbn [map concat app rotate]. cbn. rewrite evens_snoc, map_app. auto. Qed.
Lemma evens_rot {A} (l : list (A * A)) (x y : A) :
  evens (y :: concat (map (fun p => [fst p; snd p]) l) ++ [x]) = y :: map snd l.
Proof.
  revert y. induction l as [|p l IH]; intros y; auto.
  change (y :: concat (map (fun p => [fst p; snd p]) (p :: l)) ++ [x]) with
    (y :: fst p :: (snd p :: concat (map (fun p => [fst p; snd p]) l) ++ [x])).
  change (y :: evens (snd p :: concat (map (fun p => [fst p; snd p]) l) ++ [x]) = y :: map snd (p :: l)).
  rewrite IH. auto.
Qed.
Lemma evens_rot' {A} (p : A * A) l : evens (rotate (concat (map (fun p => [fst p; snd p]) (p :: l)))) = map snd (p :: l).
Proof.
  change (rotate (concat (map (fun p => [fst p; snd p]) (p :: l)))) with
    (snd p :: concat (map (fun p => [fst p; snd p]) l) ++ [fst p]).
  apply evens_rot.
Qed.
Lemma pairs_eqb_eq a : forall b, pairs_eqb a b = true <-> a = b.
Proof.
  induction a as [|[i v] a IH]; intros [|[j w] b]; cbn; split; intros H; try discriminate; auto.
  - apply andb_true_iff in H. destruct H as [H1 H3]. apply andb_true_iff in H1. destruct H1 as [H1 H2].
    apply Nat.eqb_eq in H1, H2. apply IH in H3. subst. auto.
  - injection H as -> -> ->. rewrite !Nat.eqb_refl. cbn. apply IH. auto.
Qed.
(** From the i-th pair to the next one. *)
Lemma chain_walk {A} (l : list (A * A)) (d : A) : l <> [] ->
  odds (rotate (concat (map (fun p => [fst p; snd p]) l))) =
  evens (rotate (concat (map (fun p => [fst p; snd p]) l))) ->
  odds (rotate (concat (map (fun p => [fst p; snd p]) l))) = map snd l /\
  forall i p, nth_error l i = Some p ->
    fst p = nth ((i + length l - 1) mod length l) (map snd l) d /\ snd p = nth i (map snd l) d.
Proof.
  destruct l as [|p0 l]; [congruence|]. intros _ H.
  rewrite odds_rot in *. rewrite evens_rot' in *. split; auto.
  intros i p Hi. set (n := length (p0 :: l)) in *.
  assert (Li : i < n) by (eapply nth_some_lt; eauto).
  assert (Hs : nth i (map snd (p0 :: l)) d = snd p).
  { apply nth_error_nth. rewrite nth_error_map, Hi. auto. }
  split; auto. rewrite <- H.
  destruct i as [|i].
  - cbn in Hi. injection Hi as ->. replace (0 + n - 1) with (length l) by (unfold n; cbn; lia).
    rewrite Nat.mod_small by (unfold n; cbn; lia).
    symmetry. apply nth_error_nth. rewrite nth_error_map, nth_snoc_new. auto.
  - replace (S i + n - 1) with (i + 1 * n) by lia. rewrite Nat.mod_add by (unfold n; cbn; lia).
    rewrite Nat.mod_small by lia. symmetry. apply nth_error_nth. rewrite nth_error_map.
    cbn in Hi. rewrite (nth_app_l _ _ _ _ Hi). auto.
Qed.

Lemma patch_at pts g uvs : patch pts = Some (g, uvs) ->
  ((exists a b c, pts = [a; b; c] /\ g = Plane a b c) \/
   (exists a b c d, pts = [a; b; c; d] /\ g = Bilinear a b c d)) /\
  length uvs = length pts /\
  forall i u p, nth_error uvs i = Some u -> nth_error pts i = Some p -> exists q, geom_at g u = Some q /\ pt_eq q p.
Proof.
  destruct pts as [|a [|b [|c [|d [|]]]]]; cbn; try discriminate; intros H; injection H as <- <-.
  - split; [left; eauto|]. split; auto.
    intros [|[|[|i]]] u p Hu Hp; cbn in Hu, Hp; try (destruct i; discriminate);
    injection Hu as <-; injection Hp as <-; eexists; (split; [reflexivity|]);
    unfold pt_eq, pt_map; cbn -[Qplus Qmult Qminus]; repeat split; ring.
  - split; [right; eexists _, _, _, _; eauto|]. split; auto.
    intros [|[|[|[|i]]]] u p Hu Hp; cbn in Hu, Hp; try (destruct i; discriminate);
    injection Hu as <-; injection Hp as <-; eexists; (split; [reflexivity|]);
    unfold pt_eq, pt_map; cbn -[Qplus Qmult Qminus]; repeat split; ring.
Qed.

Lemma dict_set_keys {B} k (v : B) d : In (k, v) (dict_set k v d) /\
  forall k' , (exists v', In (k', v') d) -> exists v', In (k', v') (dict_set k v d).
Proof.
  induction d as [|[j w] d [IH1 IH2]]; cbn.
  - split; auto. intros k' [v' []].
  - destruct (Nat.eqb_spec k j) as [->|N]; cbn.
    + split; auto. intros k' [v' [Q|Q]]; [injection Q as <- <-|]; eauto.
    + split; auto. intros k' [v' [Q|Q]]; [injection Q as <- <-; eauto|].
      destruct (IH2 k') as [u Hu]; eauto.
Qed.
Lemma dict_fold_keys {B} (l : list (nat * B)) : forall d k,
  (exists v, In (k, v) l) \/ (exists v, In (k, v) d) ->
  exists v, In (k, v) (fold_left (fun d p => dict_set (fst p) (snd p) d) l d).
Proof.
  induction l as [|p l IH]; intros d k H; cbn.
  - destruct H as [[v []]|H]; auto.
  - apply IH. destruct H as [[v [->|H]]|H]; eauto; right.
    + exists v. apply (dict_set_keys (fst (k, v)) (snd (k, v)) d).
    + apply (dict_set_keys (fst p) (snd p) d). auto.
Qed.
Lemma dict_set_pair {B} k (v : B) d q : In q (dict_set k v d) -> In q d \/ q = (k, v).
Proof.
  induction d as [|[k' v'] d IH]; cbn.
  - intros [<-|[]]; auto.
  - destruct (Nat.eqb_spec k k') as [->|N]; cbn.
    + intros [<-|H]; auto.
    + intros [<-|H]; auto. destruct (IH H); auto.
Qed.
Lemma dict_fold_pair {B} (l : list (nat * B)) : forall d q,
  In q (fold_left (fun d p => dict_set (fst p) (snd p) d) l d) -> In q d \/ In q l.
Proof.
  induction l as [|p l IH]; intros d q H; cbn in *; auto.
  destruct (IH _ _ H) as [H'|H']; auto. apply dict_set_pair in H'. destruct H' as [H'|H']; auto.
  subst. destruct p; auto.
Qed.
Lemma dict_get_in {B} k (v : B) d : dict_get k d = Some v -> In (k, v) d.
Proof.
  induction d as [|[k' v'] d IH]; cbn; [discriminate|]. destruct (Nat.eqb_spec k k') as [->|N]; auto.
  intros H. injection H as ->. auto.
Qed.
Lemma dict_get_total {B} k d : (exists v : B, In (k, v) d) -> exists v, dict_get k d = Some v.
Proof.
  induction d as [|[k' v'] d IH]; cbn; [intros [v []]|]. intros [v [Q|Q]].
  - injection Q as -> ->. rewrite Nat.eqb_refl. eauto.
  - destruct (k =? k'); eauto.
Qed.

(** * Attaching the edges *)
Definition line_on (s : st) (sf : nat) (d : list (nat * uv)) (e : nat) : Prop :=
  exists y a b l c ua ub ia ib, get_shape s e = Some y /\ subshapes y = a :: b :: l /\
    In (R2 0 1 c sf 0) (s_repr y) /\ nth_error (h_c2 (hp s)) c = Some (Line2 ua ub) /\
    ids s SH a = Some ia /\ ids s SH b = Some ib /\ dict_get ia d = Some ua /\ dict_get ib d = Some ub.
Record attached (s s' : st) (es : list nat) : Prop := {
  a_ids : ids s' = ids s;
  a_c2 : exists e, h_c2 (hp s') = h_c2 (hp s) ++ e;
  a_c3 : h_c3 (hp s') = h_c3 (hp s); a_s : h_s (hp s') = h_s (hp s);
  a_other : forall p, ~ In p es -> get_shape s' p = get_shape s p;
  a_sh : forall p x, get_shape s p = Some x -> exists e, get_shape s' p = Some (with_repr (s_repr x ++ e) x) }.
Lemma line_on_more s s' sf d es e : attached s s' es -> line_on s sf d e -> line_on s' sf d e.
Proof.
  intros [a b c3 c4 c5 c6] (y & p & q & l & c & ua & ub & ia & ib & Y & S & R & L & O).
  destruct (c6 _ _ Y) as [r Y']. destruct b as [r2 Q2].
  exists (with_repr (s_repr y ++ r) y), p, q, l, c, ua, ub, ia, ib. split; auto. split; auto.
  split; [cbn; apply in_or_app; auto|]. rewrite Q2. split; [apply nth_app_l; auto|]. rewrite a. auto.
Qed.
Lemma attach_edge_l sf d p s s' : attach_edge sf d p s = Some s' ->
  attached s s' [snd p] /\ line_on s' sf d (snd p).
Proof.
  intros H. unfold attach_edge in H. destruct (get_shape s (snd p)) as [y|] eqn:Y; [|discriminate].
  destruct (subshapes y) as [|a [|b l]] eqn:S; try discriminate.
  destruct (ids s SH a) as [ia|] eqn:Ia; [|discriminate]. destruct (ids s SH b) as [ib|] eqn:Ib; [|discriminate].
  destruct (dict_get ia d) as [ua|] eqn:Ua; [|discriminate]. destruct (dict_get ib d) as [ub|] eqn:Ub; [|discriminate].
  unfold attach_to_plane, add_repr in H.
  change (get_shape (new_c2 (Line2 ua ub) s) (snd p)) with (get_shape s (snd p)) in H. rewrite Y in H.
  injection H as <-. unfold get_shape in Y. pose proof (nth_some_lt _ _ _ Y) as L.
  assert (Y' : forall e, get_shape (set_shape (snd p) e (new_c2 (Line2 ua ub) s)) (snd p) = Some e).
  { intros e. unfold get_shape. cbn. apply update_same; auto. }
  split.
  - constructor; auto.
    + cbn. eauto.
    + intros q Hq. unfold get_shape. cbn. apply update_other. intros Q. apply Hq. cbn; auto.
    + intros q x X. destruct (Nat.eq_dec q (snd p)) as [->|N].
      * unfold get_shape in X. assert (x = y) by congruence. subst x. rewrite Y'. eauto.
      * exists []. unfold get_shape in *. cbn. rewrite update_other by auto. rewrite X, app_nil_r. destruct x; auto.
  - exists (with_repr (s_repr y ++ [R2 0 1 (length (h_c2 (hp s))) sf 0]) y), a, b, l, (length (h_c2 (hp s))), ua, ub, ia, ib.
    split; [apply Y'|]. split; auto. split; [cbn; apply in_or_app; cbn; auto|]. split; [cbn; apply nth_snoc_new|]. auto.
Qed.
Lemma attached_trans s s1 s2 a b : attached s s1 a -> attached s1 s2 b -> attached s s2 (a ++ b).
Proof.
  intros [a1 [e1 a2] a3 a4 a5 a6] [b1 [e2 b2] b3 b4 b5 b6]. constructor; try congruence.
  - exists (e1 ++ e2). rewrite b2, a2, app_assoc. auto.
  - intros p Hp. rewrite in_app_iff in Hp. rewrite b5, a5; tauto.
  - intros p x X. destruct (a6 _ _ X) as [e X1]. destruct (b6 _ _ X1) as [e' X2]. exists (e ++ e').
    rewrite X2. cbn. rewrite app_assoc. destruct x; auto.
Qed.
Lemma attach_all_l sf d edges : forall s s', foldo (attach_edge sf d) edges s = Some s' ->
  attached s s' (map snd edges) /\ forall p, In p edges -> line_on s' sf d (snd p).
Proof.
  induction edges as [|p edges IH]; intros s s' H; cbn [foldo] in H.
  - injection H as <-. split; [|intros p []]. constructor; auto. + exists []. rewrite app_nil_r. auto.
    + intros p x X. exists []. rewrite X, app_nil_r. destruct x; auto.
  - destruct (attach_edge sf d p s) as [s1|] eqn:A; [|discriminate].
    destruct (attach_edge_l _ _ _ _ _ A) as [A1 A2]. destruct (IH _ _ H) as [B1 B2]. split.
    + change (map snd (p :: edges)) with ([snd p] ++ map snd edges). eapply attached_trans; eauto.
    + intros q [<-|Hq]; auto. eapply line_on_more; eauto.
Qed.

(** * implicit_surface *)
Lemma Forall2_nth {A B} (R : A -> B -> Prop) l m : Forall2 R l m -> forall i x, nth_error l i = Some x ->
  exists y, nth_error m i = Some y /\ R x y.
Proof. induction 1; intros [|i] z Hz; cbn in *; try discriminate; eauto. injection Hz as <-. eauto. Qed.
Lemma Forall2_nth' {A B} (R : A -> B -> Prop) l m : Forall2 R l m -> forall i y, nth_error m i = Some y ->
  exists x, nth_error l i = Some x /\ R x y.
Proof. induction 1; intros [|i] z Hz; cbn in *; try discriminate; eauto. injection Hz as <-. eauto. Qed.
Lemma Forall2_len {A B} (R : A -> B -> Prop) l m : Forall2 R l m -> length l = length m.
Proof. induction 1; cbn; auto. Qed.
Lemma in_combine_nth {A B} (l : list A) (m : list B) x y : In (x, y) (combine l m) ->
  exists i, nth_error l i = Some x /\ nth_error m i = Some y.
Proof.
  revert m. induction l as [|a l IH]; intros [|b m] H; cbn in H; try tauto.
  destruct H as [H|H]; [injection H as -> ->; exists 0; auto|].
  destruct (IH m H) as (i & P & Q). exists (S i). auto.
Qed.
Lemma face_refs_edges s x refs : face_refs s x = Some refs -> edges_of (hp s) x refs.
Proof.
  unfold face_refs, subshapes, edges_of. revert refs. induction (s_childs x) as [|r l IH]; intros refs H; cbn in H.
  - injection H as <-. exists []. split; constructor.
  - destruct (get_shape s (r_shape r)) as [y|] eqn:Y; [|discriminate].
    destruct (fold_right _ _ (map r_shape l)) as [m|] eqn:F; [|discriminate]. injection H as <-.
    destruct (IH m eq_refl) as (ws & A & ->). exists (y :: ws). split; auto.
Qed.

Section Patch.
Variable D T : cls -> nat -> Prop.
Hypothesis NT : forall o, D SH o -> ~ T SH o.
Lemma ids_inj s v w i : ok D T s -> D SH v -> D SH w -> ids s SH v = Some i -> ids s SH w = Some i -> v = w.
Proof.
  intros K Dv Dw Iv Iw.
  destruct (i_num _ _ _ (o_inv _ _ _ K) SH v i Dv Iv) as [Q|[_ Q]]; [exfalso; apply (NT v); auto|].
  destruct (i_num _ _ _ (o_inv _ _ _ K) SH w i Dw Iw) as [Q'|[_ Q']]; [exfalso; apply (NT w); auto|]. congruence.
Qed.

Lemma implicit_surface_l o x s s' : implicit_surface o s = Some s' -> ok D T s -> D SH o ->
  get_shape s o = Some x -> s_kind x = Fa ->
  exists sf es, s_repr x = [] -> 
    ids s' = ids s /\ edges_of (hp s) x es /\
    (forall r, In r es -> ids s SH (r_shape r) <> None) /\
    get_shape s' o = Some (with_repr [RF sf 0] x) /\
    (forall p, p <> o -> ~ In p (map r_shape es) -> get_shape s' p = get_shape s p) /\
    has_patch (hp s') (with_repr [RF sf 0] x).
Proof.
  intros H K Hd X Kx. pose proof H as H0.
  unfold implicit_surface in H. rewrite X in H.
  destruct (face_refs s x) as [refs|] eqn:FR; [|discriminate].
  match type of H with context [mapo ?f refs] => destruct (mapo f refs) as [keyed|] eqn:KE; [|discriminate] end.
  destruct (mapo (edge_walk s) refs) as [walks|] eqn:WK; [|discriminate].
  destruct (mapo (with_id s) (concat walks)) as [vs|] eqn:VS; [|discriminate].
  cbv zeta in H. destruct (pairs_eqb _ _) eqn:PE; [|discriminate]. cbn [negb] in H.
  destruct (mapo (fun p => point_of s (snd p)) (odds (rotate vs))) as [pts|] eqn:PT; [|discriminate].
  destruct (patch pts) as [[g uvs]|] eqn:GU; [|discriminate].
  set (sf := length (h_s (hp s))) in *. exists sf, refs. intros Rx.
  destruct (implicit_surface_spec D T o x s s' (fun _ => True) H0 K Hd X Kx Rx) as (K' & E' & _ & _).
  { intros p _ N; exfalso; auto. }
  set (s2 := set_shape o (with_repr [RF sf 0] x) (new_s g s)) in *.
  match type of H with foldo (attach_edge _ ?d) ?l _ = _ => set (edges := l) in *; set (dd := d) in * end.
  destruct (attach_all_l _ _ _ _ _ H) as [AT LN].
  assert (EO := face_refs_edges s x refs FR).
  apply mapo_spec in KE.
  assert (RI : forall r, In r refs -> exists i, ids s SH (r_shape r) = Some i /\ In (i, r_shape r) keyed).
  { intros r Hr. clear - KE Hr. induction KE as [|r' k l m F _ IH]; [destruct Hr|].
    destruct Hr as [->|Hr].
    - destruct (ids s SH (r_shape r)) as [i|]; [|discriminate]. injection F as <-. exists i. cbn; auto.
    - destruct (IH Hr) as (i & A & B). exists i. cbn; auto. }
  assert (KI : forall i e, In (i, e) keyed -> ids s SH e = Some i /\ In e (map r_shape refs)).
  { intros i e He. clear - KE He. induction KE as [|r' k l m F _ IH]; [destruct He|].
    destruct He as [->|He].
    - destruct (ids s SH (r_shape r')) as [j|] eqn:J; [|discriminate]. injection F as -> <-. split; auto. cbn; auto.
    - destruct (IH He) as (A & B). split; auto. cbn; auto. }
  assert (RD : forall r, In r refs -> exists y, get_shape s (r_shape r) = Some y /\ D SH (r_shape r) /\
                 (s_kind y = Ed \/ s_kind y = Ve)).
  { intros r Hr. destruct (face_refs_in s x refs r FR Hr) as (w & z & Hw & Z & Hq).
    unfold subshapes in Hw. apply in_map_iff in Hw. destruct Hw as (q & <- & Hqx).
    assert (Dz : D SH (r_shape q)) by (apply (child_D D T s o x q); auto).
    destruct (wx_child _ _ (w_sh _ (g_wf _ (o_good _ _ _ K)) _ _ X) q Hqx) as (z' & Z' & Sz & _).
    unfold get_shape in Z. assert (z' = z) by congruence. subst z'.
    destruct (wx_child _ _ (w_sh _ (g_wf _ (o_good _ _ _ K)) _ _ Z) r Hq) as (y & Y & Sy & _).
    exists y. split; auto. split; [apply (child_D D T s (r_shape q) z r); auto|].
    rewrite Kx in Sz. destruct (s_kind z); try discriminate; destruct (s_kind y); try discriminate; auto. }
  assert (EM : forall e, In e (map snd edges) <-> In e (map r_shape refs)).
  { intros e. split; intros He.
    - apply in_map_iff in He. destruct He as ([i e'] & <- & He). cbn.
      destruct (dict_fold_pair keyed [] (i, e') He) as [[]|Q]. apply (KI i e' Q).
    - apply in_map_iff in He. destruct He as (r & <- & Hr). destruct (RI r Hr) as (i & Ii & Ik).
      destruct (dict_fold_keys keyed [] i) as [e Qe]. { left. eauto. }
      destruct (dict_fold_pair keyed [] (i, e) Qe) as [[]|Q]. destruct (KI i e Q) as [Ie Re].
      assert (e = r_shape r).
      { apply in_map_iff in Re. destruct Re as (r2 & <- & Hr2).
        destruct (RD r Hr) as (_ & _ & D1 & _), (RD r2 Hr2) as (_ & _ & D2 & _). apply (ids_inj s _ _ i); auto. }
      subst e. apply in_map_iff. exists (i, r_shape r). split; auto. }
  assert (ON : ~ In o (map r_shape refs)).
  { intros Ho. apply in_map_iff in Ho. destruct Ho as (r & Q & Hr). destruct (RD r Hr) as (y & Y & _ & Ky).
    rewrite Q in Y. unfold get_shape in *. assert (y = x) by congruence. subst. destruct Ky; congruence. }
  assert (X2 : get_shape s2 o = Some (with_repr [RF sf 0] x)).
  { unfold get_shape, s2. cbn. apply update_same. eapply nth_some_lt; eauto. }
  assert (X3 : get_shape s' o = Some (with_repr [RF sf 0] x)).
  { rewrite (a_other _ _ _ AT); auto. rewrite EM. auto. }
  assert (I2 : ids s' = ids s) by (rewrite (a_ids _ _ _ AT); auto).
  split; auto. split; auto. split.
  { intros r Hr. destruct (RI r Hr) as (i & -> & _). congruence. }
  split; auto. split.
  { intros p Np Hp. rewrite (a_other _ _ _ AT) by (rewrite EM; auto).
    unfold get_shape, s2. cbn. apply update_other. auto. }
  (* the surface *)
  assert (VI : Forall2 (fun v p => p = (fst p, v) /\ ids s SH v = Some (fst p)) (concat walks) vs).
  { apply mapo_spec in VS. clear - VS. induction VS as [|v p l m F _ IH]; constructor; auto.
    unfold with_id in F. destruct (ids s SH v) eqn:Q; [|discriminate]. injection F as <-. auto. }
  assert (VD : forall v, In v (concat walks) -> D SH v).
  { intros v Hv. apply in_concat in Hv. destruct Hv as (w & Hw & Hv). apply mapo_spec in WK.
    apply In_nth_error in Hw. destruct Hw as [i Hi]. destruct (Forall2_nth' _ _ _ WK i w Hi) as (r & Hr & Q).
    apply nth_error_In in Hr. destruct (RD r Hr) as (y & Y & Dr & _).
    unfold edge_walk in Q. rewrite Y in Q. injection Q as <-.
    assert (Hv' : In v (subshapes y)) by (destruct (is_rev (r_or r)); [apply in_rev; auto|auto]).
    unfold subshapes in Hv'. apply in_map_iff in Hv'. destruct Hv' as (q & <- & Hq).
    apply (child_D D T s (r_shape r) y q); auto. }
  set (cs := odds (rotate vs)) in *.
  assert (CI : forall p, In p cs -> In p vs).
  { intros p Hp. unfold cs in Hp. clear - Hp. destruct vs as [|v0 vs]; [destruct Hp|]. cbn [rotate] in Hp.
    assert (EV : forall l : list (nat * nat), forall q, (In q (evens l) -> In q l) /\ (In q (odds l) -> In q l)).
    { clear. intros l. assert (A : forall n l, length l <= n -> forall q : nat * nat, In q (evens l) -> In q l).
      { clear l. induction n as [|n IH]; intros [|a [|b l]] L q Hq; cbn in *; try lia; auto.
        destruct Hq as [<-|Hq]; auto. right; right. apply IH; auto. lia. }
      intros q. split; [apply (A (length l)); auto|]. destruct l as [|a l]; auto. cbn. intros Hq. right.
      apply (A (length l) l); auto. }
    apply EV in Hp. apply in_app_iff in Hp. cbn in *. tauto. }
  assert (CV : forall p, In p cs -> ids s SH (snd p) = Some (fst p) /\ D SH (snd p)).
  { intros p Hp. apply CI in Hp. apply In_nth_error in Hp. destruct Hp as [i Hi].
    destruct (Forall2_nth' _ _ _ VI i p Hi) as (v & Hv & Q & Iv). rewrite Q. cbn. split; auto.
    apply VD. eapply nth_error_In; eauto. }
  apply mapo_spec in PT.
  destruct (patch_at _ _ _ GU) as (SHP & LU & AT2).
  assert (PA : Forall2 (point_at (hp s)) (map snd cs) pts).
  { clear - PT. induction PT as [|p q l m F _ IH]; cbn; constructor; auto.
    unfold point_of, get_shape in F. destruct (nth_error (h_sh (hp s)) (snd p)) as [y|] eqn:Y; [|discriminate].
    exists y. destruct (s_kind y) eqn:Ky; try discriminate. injection F as <-. auto. }
  assert (G2 : nth_error (h_s (hp s')) sf = Some g).
  { rewrite (a_s _ _ _ AT). unfold s2, sf. cbn. apply nth_snoc_new. }
  assert (EH : hext (hp s) (hp s')) by apply (e_heap _ _ E').
  assert (XX : xext x (with_repr [RF sf 0] x)).
  { constructor; auto. - rewrite Rx. exists [RF sf 0]. auto. - intros _ [Q|Q]; congruence. }
  assert (PA' : Forall2 (point_at (hp s')) (map snd cs) pts).
  { clear - PA EH. induction PA; constructor; auto. eapply point_at_ext; eauto. }
  exists refs, (map snd cs), pts, sf, g. split; [eapply edges_of_ext; eauto|]. split; auto. split.
  2:{ split; auto. split; auto. split; auto.
    intros r Hr. assert (Hm : In (r_shape r) (map snd edges)) by (apply EM, in_map; auto).
    apply in_map_iff in Hm. destruct Hm as (pe & Qe & Hpe). specialize (LN pe Hpe). rewrite Qe in LN.
    destruct LN as (y & a & b & l & c & ua & ub & ia & ib & Y & Sy & R & Lc & Ia & Ib & Ua & Ub).
    assert (Y0 : exists y0, get_shape s (r_shape r) = Some y0 /\ s_childs y0 = s_childs y /\ D SH (r_shape r)).
    { destruct (RD r Hr) as (y0 & Y0 & Dr & _). exists y0. split; auto. split; auto.
      destruct (he_sh _ _ EH _ _ Y0) as (y1 & Y1 & X1). unfold get_shape in Y. assert (y1 = y) by congruence. subst.
      symmetry. apply (xe_childs _ _ X1). }
    destruct Y0 as (y0 & Y0 & Cy & Dr).
    assert (PV : forall v i u, In v [a; b] -> ids s' SH v = Some i -> dict_get i dd = Some u ->
              exists p q, point_at (hp s') v p /\ geom_at g u = Some q /\ pt_eq q p).
    { intros v i u Hv Iv Hu. rewrite I2 in Iv. apply dict_get_in in Hu.
      destruct (dict_fold_pair _ [] _ Hu) as [[]|Hu']. apply in_combine_nth in Hu'.
      destruct Hu' as (k & Hk & Hku). rewrite nth_error_map in Hk.
      destruct (nth_error cs k) as [[i' v']|] eqn:Ck; [|discriminate]. cbn in Hk. injection Hk as ->.
      destruct (CV (i, v')) as [Iv' Dv']; [eapply nth_error_In; eauto|]. cbn in Iv', Dv'.
      assert (Dv : D SH v).
      { assert (In v (subshapes y0)).
        { unfold subshapes in *. rewrite Cy, Sy. cbn in *. tauto. }
        unfold subshapes in H1. apply in_map_iff in H1. destruct H1 as (q & <- & Hq).
        apply (child_D D T s (r_shape r) y0 q); auto. }
      assert (v' = v) by (apply (ids_inj s _ _ i); auto). subst v'.
      assert (Mk : nth_error (map snd cs) k = Some v) by (rewrite nth_error_map, Ck; auto).
      destruct (Forall2_nth _ _ _ PA' k v Mk) as (p & Hp & PAp).
      destruct (AT2 k u p Hku Hp) as (q & Gq & Pq). exists p, q. auto. }
    destruct (PV a ia ua) as (pa & qa & A1 & A2 & A3); [cbn; auto|auto|auto|].
    destruct (PV b ib ub) as (pb & qb & B1 & B2 & B3); [cbn; auto|auto|auto|].
    exists y, a, b, l, c, ua, ub, pa, pb, qa, qb. split; auto. split; auto. split; auto. split; auto 10. }
  (* the walk *)
  intros TE. assert (TE0 : Forall (two_ended (hp s)) refs).
  { rewrite Forall_forall in *. intros r Hr. eapply two_ended_back; eauto. destruct (RD r Hr) as (y & Y & _). eauto. }
  assert (W2 : exists ps : list (nat * nat), walks = map (fun p => [fst p; snd p]) ps /\
                 Forall2 (fun r p => ends (hp s) r (fst p) (snd p)) refs ps).
  { apply mapo_spec in WK. clear - WK TE0. induction WK as [|r w l m F _ IH]; [exists []; auto|].
    inversion TE0 as [|? ? (a & b & y & Y & Q) TE1]; subst. destruct (IH TE1) as (ps & -> & Fp).
    exists ((a, b) :: ps). unfold edge_walk, get_shape in F. rewrite Y in F. injection F as <-. split.
    - cbn. f_equal. unfold subshapes. rewrite Q. destruct (is_rev (r_or r)); auto.
    - constructor; auto. exists y. auto. }
  destruct W2 as (ps & -> & Fp).
  assert (V2 : exists qs : list ((nat * nat) * (nat * nat)), vs = concat (map (fun p => [fst p; snd p]) qs) /\
            map (fun q => (snd (fst q), snd (snd q))) qs = ps).
  { clear - VI. revert vs VI. induction ps as [|[a b] ps IH]; intros vs VI; cbn in VI.
    - inversion VI. exists []. auto.
    - inversion VI as [|? p ? m [F1 _] VI1]; subst. inversion VI1 as [|? q ? m' [F2 _] VI2]; subst.
      destruct (IH _ VI2) as (qs & -> & Q). exists ((p, q) :: qs). cbn. rewrite Q, F1, F2. auto. }
  destruct V2 as (qs & Vq & Qp).
  assert (Lq : length qs = length refs).
  { rewrite (Forall2_len _ _ _ Fp), <- Qp, map_length. auto. }
  assert (Ne : qs <> []).
  { intros ->. cbn in Vq. subst vs. unfold cs in PT. cbn in PT. inversion PT; subst. discriminate. }
  apply pairs_eqb_eq in PE. unfold cs in *. rewrite Vq in *.
  destruct (chain_walk qs (0, 0) Ne PE) as [CW CN]. rewrite CW.
  split. { rewrite !map_length. auto. }
  intros i r Hi. destruct (Forall2_nth _ _ _ Fp i r Hi) as (p & Hp & En). rewrite <- Qp in Hp.
  rewrite nth_error_map in Hp. destruct (nth_error qs i) as [q|] eqn:Qi; [|discriminate]. cbn in Hp. injection Hp as <-.
  destruct (CN i q Qi) as [N1 N2]. apply (ends_ext (hp s)); auto. cbn [fst snd] in En.
  rewrite !map_length.
  assert (MN : forall k, nth k (map snd (map snd qs)) 0 = snd (nth k (map snd qs) (0, 0))).
  { intros k. apply (map_nth snd (map snd qs) (0, 0)). }
  rewrite !MN.
  rewrite <- N1, <- N2. auto.
Qed.
End Patch.
