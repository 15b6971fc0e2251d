(** What the calls of the decomposition do to wires and polygons. *)
From stdpp Require Import gmap list relations.
From Verif Require Import Decomp_Model Decomp_Perm Decomp_Surgery Decomp_Eff.
Local Open Scope nat_scope.

Notation par_of s := (parent <$> wires s).
Notation pol_of s := (w_poly <$> wires s).
Notation sg_of s := (w_seg <$> wires s).

Definition chl (W : gmap nat wire) (x c : nat) : Prop := exists wx, W !! x = Some wx /\ c ∈ childs wx.
(** Children and parents agree; a wire of [X] may be missing among the children. *)
Definition tl (X : gset nat) (W : gmap nat wire) : Prop :=
  (forall x c, chl W x c -> (parent <$> W) !! c = Some (Some x)) /\
  (forall x c, (parent <$> W) !! c = Some (Some x) -> is_Some (W !! x) -> c <> x -> c ∉ X -> chl W x c).

Lemma chl_insert W p y x c : chl (<[p := y]> W) x c <-> (x = p /\ c ∈ childs y) \/ (x <> p /\ chl W x c).
Proof.
  unfold chl. split.
  - intros (wx & E & C). apply lookup_insert_Some in E as [[-> ->]|[D E]]; [by left|]. right. split; [done|]. eauto.
  - intros [[-> C]|[D (wx & E & C)]]; [exists y; by rewrite lookup_insert|]. exists wx. by rewrite lookup_insert_ne.
Qed.
Lemma chl_same W w x y : W !! w = Some x -> childs y = childs x -> forall p c, chl (<[w := y]> W) p c <-> chl W p c.
Proof.
  intros E C p c. rewrite chl_insert. destruct (decide (p = w)) as [-> | D]; [|tauto].
  unfold chl. split.
  - intros [[_ H]|[? _]]; [|done]. exists x. by rewrite <- C.
  - intros (wx & E' & H). left. split; [done|]. rewrite C. congruence.
Qed.
Lemma dom_insert_same {A} (W : gmap nat A) w x y z : W !! w = Some x -> is_Some (<[w := y]> W !! z) <-> is_Some (W !! z).
Proof.
  intros E. destruct (decide (z = w)) as [-> | D]; [rewrite lookup_insert, E; split; eauto|]. by rewrite lookup_insert_ne.
Qed.
Lemma tl_same X W w x y : W !! w = Some x -> childs y = childs x -> parent y = parent x -> tl X W -> tl X (<[w := y]> W).
Proof.
  intros E C P [T1 T2]. split.
  - intros p c H. rewrite (fmap_insert_same _ _ _ x) by done. apply T1. by apply (chl_same _ _ _ _ E C) in H.
  - intros p c H I D N. rewrite (fmap_insert_same _ _ _ x) in H by done. apply (chl_same _ _ _ _ E C). apply T2; try done.
    by apply (dom_insert_same _ _ _ _ _ E) in I.
Qed.

Lemma set_parent_inv w q s u s' : set_parent w q s = (Ok u, s') ->
  exists W, s' = set_wires W s /\ parent <$> W = <[w := q]> (par_of s) /\ w_poly <$> W = pol_of s /\ w_seg <$> W = sg_of s /\
    is_Some (wires s !! w) /\ (forall p, q = Some p -> is_Some (wires s !! p)) /\ (forall X, tl X (wires s) -> tl X W).
Proof.
  unfold set_parent. intros H. rd H as x Ex. bnd H as u1 s1 E1.
  assert (K1 : exists W, s1 = set_wires W s /\ parent <$> W = par_of s /\ w_poly <$> W = pol_of s /\ w_seg <$> W = sg_of s /\
     (forall p c, chl W p c -> chl (wires s) p c) /\
     (forall p c, chl (wires s) p c -> c <> w -> chl W p c) /\
     (forall p, parent x = Some p -> ~ chl W p w)).
  { destruct (parent x) as [p|] eqn:Ep.
    - rd E1 as y Ey. chk E1 as C. apply bool_decide_eq_true in C. unf E1. apply upd_inv in E1. subst s1.
      eexists. split; [done|]. split; [by apply (fmap_insert_same _ _ _ y)|]. split; [by apply (fmap_insert_same _ _ _ y)|].
      split; [by apply (fmap_insert_same _ _ _ y)|]. split; [|split].
      + intros p' c H'. apply chl_insert in H' as [[-> H']|[_ H']]; [|done]. cbn in H'. exists y. split; [done|]. set_solver.
      + intros p' c H' D. apply chl_insert. destruct (decide (p' = p)) as [-> | Dp]; [|by right]. left. split; [done|]. cbn.
        destruct H' as (y' & Y1 & Y2). replace y with y' by congruence. set_solver.
      + intros p' [= <-] H'. apply chl_insert in H' as [[_ H']|[? _]]; [|done]. cbn in H'. set_solver.
    - apply ret_inv in E1 as [_ ->]. exists (wires s). split; [by destruct s|]. repeat (split; [done|]). done. }
  destruct K1 as (W1 & -> & V1 & V2 & V3 & C1 & C2 & C3).
  bnd H as u2 s2 E2. rd E2 as x' Ex'. unf E2. apply upd_inv in E2. subst s2. cbn [wires set_wires] in *.
  assert (Pw : par_of s !! w = Some (parent x)) by (by rewrite lookup_fmap, Ex).
  set (W2 := <[w := Wi q (childs x') (w_poly x') (w_seg x')]> W1) in *.
  assert (U1 : parent <$> W2 = <[w := q]> (par_of s)) by (unfold W2; by rewrite fmap_insert, V1).
  assert (U2 : w_poly <$> W2 = pol_of s) by (unfold W2; rewrite <- V2; by apply (fmap_insert_same _ _ _ x')).
  assert (U3 : w_seg <$> W2 = sg_of s) by (unfold W2; rewrite <- V3; by apply (fmap_insert_same _ _ _ x')).
  assert (U4 : forall p c, chl W2 p c <-> chl W1 p c) by (intros p c; by apply (chl_same _ _ x')).
  assert (D2 : forall p, is_Some (W2 !! p) <-> is_Some (wires s !! p)).
  { intros p. unfold W2. rewrite (dom_insert_same _ _ x') by done.
    rewrite <- (fmap_is_Some parent (W1 !! p)), <- (fmap_is_Some parent (wires s !! p)), <- !lookup_fmap. by rewrite V1. }
  assert (Fin : forall W, parent <$> W = parent <$> W2 -> (forall p c, chl W p c <-> chl W2 p c \/ (q = Some p /\ c = w)) ->
    forall X, tl X (wires s) -> tl X W).
  { intros W P C X [T1 T2]. split.
    - intros p c H'. rewrite P, U1. apply C in H' as [H'|[-> ->]]; [|by rewrite lookup_insert].
      apply U4 in H'. destruct (decide (c = w)) as [-> | D].
      + exfalso. assert (H2 := T1 _ _ (C1 _ _ H')). rewrite Pw in H2. injection H2 as H2. by apply (C3 p H2).
      + rewrite lookup_insert_ne by done. by apply T1, C1.
    - intros p c H' I D N. rewrite P, U1 in H'. apply C. destruct (decide (c = w)) as [-> | Dw].
      + rewrite lookup_insert in H'. injection H' as ->. by right.
      + left. rewrite lookup_insert_ne in H' by done. apply U4, C2; [|done]. apply T2; try done.
        apply D2. rewrite <- (fmap_is_Some parent), <- lookup_fmap, <- P, lookup_fmap. by apply fmap_is_Some. }
  destruct q as [p|].
  - rd H as y Ey. unf H. apply upd_inv in H. subst s'. cbn [wires set_wires] in *. fold W2 in Ey |- *.
    eexists. split; [done|]. split; [rewrite <- U1; by apply (fmap_insert_same _ _ _ y)|].
    split; [rewrite <- U2; by apply (fmap_insert_same _ _ _ y)|]. split; [rewrite <- U3; by apply (fmap_insert_same _ _ _ y)|].
    split; [eauto|]. split; [intros p' [= <-]; apply D2; eauto|].
    apply Fin; [by apply (fmap_insert_same _ _ _ y)|].
    intros p' c. rewrite chl_insert. cbn. destruct (decide (p' = p)) as [-> | D].
    + rewrite elem_of_union, elem_of_singleton. split.
      * intros [[_ [H|H]]|[? _]]; [left; by exists y|by right|done].
      * intros [(y' & Y1 & Y2)|[_ ->]]; left; split; [done|left; congruence|done|by right].
    + split; [intros [[? _]|[_ H]]; [done|by left]|]. intros [H|[H _]]; [by right|congruence].
  - apply ret_inv in H as [_ ->]. exists W2. split; [done|]. split; [done|]. split; [done|]. split; [done|].
    split; [eauto|]. split; [done|]. apply Fin; [done|]. intros p c. split; [by left|]. intros [H|[? _]]; done.
Qed.
Lemma put_wire_poly_inv w g s u s' : put_wire_poly w g s = (Ok u, s') ->
  exists W, s' = set_wires W s /\ parent <$> W = par_of s /\ w_poly <$> W = <[w := Some g]> (pol_of s) /\ w_seg <$> W = sg_of s /\
    is_Some (wires s !! w) /\ (forall X, tl X (wires s) -> tl X W).
Proof.
  unfold put_wire_poly. intros H. rd H as x Ex. unf H. apply upd_inv in H. subst s'. eexists. split; [done|].
  split; [by apply (fmap_insert_same _ _ _ x)|]. split; [by rewrite fmap_insert|]. split; [by apply (fmap_insert_same _ _ _ x)|].
  split; [eauto|]. intros X T. by eapply tl_same.
Qed.
Lemma put_wire_seg_inv w h s u s' : put_wire_seg w h s = (Ok u, s') ->
  exists W, s' = set_wires W s /\ parent <$> W = par_of s /\ w_poly <$> W = pol_of s /\ w_seg <$> W = <[w := Some h]> (sg_of s) /\
    is_Some (wires s !! w) /\ (forall X, tl X (wires s) -> tl X W).
Proof.
  unfold put_wire_seg. intros H. rd H as x Ex. unf H. apply upd_inv in H. subst s'. eexists. split; [done|].
  split; [by apply (fmap_insert_same _ _ _ x)|]. split; [by apply (fmap_insert_same _ _ _ x)|]. split; [by rewrite fmap_insert|].
  split; [eauto|]. intros X T. by eapply tl_same.
Qed.
Lemma drop_child_inv p w s u s' : drop_child p w s = (Ok u, s') ->
  exists W, s' = set_wires W s /\ parent <$> W = par_of s /\ w_poly <$> W = pol_of s /\ w_seg <$> W = sg_of s /\
    chl (wires s) p w /\ ~ chl W p w /\ (forall x, chl W x w -> chl (wires s) x w) /\ (forall X, tl X (wires s) -> tl ({[w]} ∪ X) W).
Proof.
  unfold drop_child. intros H. rd H as y Ey. destruct (decide (w ∈ childs y)) as [D|D]; [|by apply raise_inv in H].
  unf H. apply upd_inv in H. subst s'. eexists. split; [done|].
  split; [by apply (fmap_insert_same _ _ _ y)|]. split; [by apply (fmap_insert_same _ _ _ y)|]. split; [by apply (fmap_insert_same _ _ _ y)|].
  split; [by exists y|].
  assert (C1 : forall x c, chl (<[p := Wi (parent y) (childs y ∖ {[w]}) (w_poly y) (w_seg y)]> (wires s)) x c -> chl (wires s) x c).
  { intros x c H. apply chl_insert in H as [[-> H]|[_ H]]; [|done]. cbn in H. exists y. split; [done|]. set_solver. }
  split; [|split].
  - intros H. apply chl_insert in H as [[_ H]|[? _]]; [|done]. cbn in H. set_solver.
  - intros x. apply C1.
  - intros X [T1 T2]. split.
    + intros x c H. rewrite (fmap_insert_same _ _ _ y) by done. by apply T1, C1.
    + intros x c H I N NX. rewrite (fmap_insert_same _ _ _ y) in H by done. apply chl_insert.
      assert (Hc : chl (wires s) x c) by (apply T2; [done|by apply (dom_insert_same _ _ _ _ _ Ey) in I|done|set_solver]).
      destruct (decide (x = p)) as [-> | Dx]; [|by right]. left. split; [done|]. cbn.
      destruct Hc as (y' & Y1 & Y2). replace y with y' by congruence. set_solver.
Qed.
Lemma new_wire_inv s w s' : new_wire s = (Ok w, s') ->
  exists c W, new_id (iw s) = (w, c) /\ s' = set_wires W (set_iw c s) /\
    parent <$> W = <[w := Some w]> (par_of s) /\ w_poly <$> W = <[w := None]> (pol_of s) /\ w_seg <$> W = <[w := None]> (sg_of s) /\
    (wires s !! w = None -> (forall c, par_of s !! c <> Some (Some w)) -> forall X, tl X (wires s) -> tl X W).
Proof.
  unfold new_wire. intros H. destruct (new_id (iw s)) as [i c] eqn:E. injection H as <- <-.
  eexists c, _. split; [done|]. split; [done|]. split; [by rewrite fmap_insert|]. split; [by rewrite fmap_insert|]. split; [by rewrite fmap_insert|].
  intros N NP X [T1 T2]. split.
  - intros x k H. rewrite fmap_insert. apply chl_insert in H as [[_ H]|[Dx H]]; [cbn in H; set_solver|].
    assert (H2 := T1 _ _ H). rewrite lookup_insert_ne; [done|]. intros <-. rewrite lookup_fmap, N in H2. done.
  - intros x k H I D NX. rewrite fmap_insert in H. apply chl_insert.
    destruct (decide (k = i)) as [-> | Dk]; [rewrite lookup_insert in H; cbn in H; congruence|]. rewrite lookup_insert_ne in H by done.
    right. assert (Dx : x <> i) by (intros ->; by apply (NP k)). split; [done|]. apply T2; try done. by rewrite lookup_insert_ne in I.
Qed.
Lemma rm_wire_inv w s u s' : rm_wire w s = (Ok u, s') ->
  exists W, s' = set_wires W (set_iw (old_id w (iw s)) s) /\
    parent <$> W = delete w (par_of s) /\ w_poly <$> W = delete w (pol_of s) /\ w_seg <$> W = delete w (sg_of s) /\ is_Some (wires s !! w) /\
    (forall X, (forall x, chl (wires s) x w -> x = w) -> tl ({[w]} ∪ X) (wires s) -> tl X W).
Proof.
  unfold rm_wire. intros H. rd H as y Ey. apply upd_inv in H. subst s'. eexists. split; [done|].
  split; [apply fmap_delete|]. split; [apply fmap_delete|]. split; [apply fmap_delete|]. split; [eauto|].
  intros X C [T1 T2].
  assert (C1 : forall x c, chl (delete w (wires s)) x c <-> x <> w /\ chl (wires s) x c).
  { intros x c. unfold chl. split.
    - intros (wx & H1 & H2). apply lookup_delete_Some in H1 as [H0 H1]. split; [congruence|]. eauto.
    - intros (D & wx & H1 & H2). exists wx. by rewrite lookup_delete_ne. }
  split.
  - intros x c H. apply C1 in H as [D H]. rewrite fmap_delete. assert (H2 := T1 _ _ H). rewrite lookup_delete_ne; [done|].
    intros <-. by apply D, C.
  - intros x c H I D NX. rewrite fmap_delete in H. apply lookup_delete_Some in H as [Dc H]. apply C1.
    destruct I as [z I]. apply lookup_delete_Some in I as [Dx I]. split; [done|]. apply T2; [done|eauto|done|set_solver].
Qed.
Lemma put_outer_inv g w s u s' : put_outer g w s = (Ok u, s') ->
  exists G, s' = set_polys G s /\ outer <$> G = <[g := w]> (outer_of s) /\ is_Some (polys s !! g) /\ (forall P, free_ok P (polys s) -> free_ok P G).
Proof.
  unfold put_outer. intros H. rd H as x Ex. unf H. apply upd_inv in H. subst s'. eexists. split; [done|].
  split; [by rewrite fmap_insert|]. split; [eauto|]. intros P [F1 F2]. split.
  - intros p y Ey. specialize (F1 p y Ey). destruct (p_seg y); [done|]. destruct F1 as (g' & z & G1 & G2 & G3).
    destruct (decide (g' = g)) as [-> | D].
    + eexists g, _. rewrite lookup_insert. split; [done|]. split; [done|]. cbn. congruence.
    + exists g', z. by rewrite lookup_insert_ne.
  - intros g' y p G1 G2. apply lookup_insert_Some in G1 as [[<- <-]|[D G1]]; [|by eapply F2]. cbn in G2. by eapply F2.
Qed.
Lemma new_poly_inv w s g s' : new_poly w s = (Ok g, s') ->
  exists c, new_id (ig s) = (g, c) /\ s' = set_polys (<[g := Po w ∅]> (polys s)) (set_ig c s) /\
    (polys s !! g = None -> forall P, free_ok P (polys s) -> free_ok P (<[g := Po w ∅]> (polys s))).
Proof.
  unfold new_poly. intros H. destruct (new_id (ig s)) as [i c] eqn:E. injection H as <- <-.
  exists c. split; [done|]. split; [done|]. intros N P [F1 F2]. split.
  - intros p y Ey. specialize (F1 p y Ey). destruct (p_seg y); [done|]. destruct F1 as (g' & z & G1 & G2 & G3).
    exists g', z. rewrite lookup_insert_ne; [done|]. intros <-. congruence.
  - intros g' y p G1 G2. apply lookup_insert_Some in G1 as [[<- <-]|[D G1]]; [by apply elem_of_empty in G2|]. by eapply F2.
Qed.
Lemma rm_poly_inv g s u s' : rm_poly g s = (Ok u, s') ->
  exists y, polys s !! g = Some y /\ s' = set_polys (delete g (polys s)) (set_ig (old_id g (ig s)) s) /\
    (free y = ∅ -> forall P, free_ok P (polys s) -> free_ok P (delete g (polys s))).
Proof.
  unfold rm_poly. intros H. rd H as y Ey. apply upd_inv in H. subst s'. exists y. split; [done|]. split; [done|].
  intros N P [F1 F2]. split.
  - intros p x Ex. specialize (F1 p x Ex). destruct (p_seg x); [done|]. destruct F1 as (g' & z & G1 & G2 & G3).
    exists g', z. rewrite lookup_delete_ne; [done|]. intros <-. replace z with y in G3 by congruence. rewrite N in G3. by apply elem_of_empty in G3.
  - intros g' z p G1 G2. apply lookup_delete_Some in G1 as [D G1]. by eapply F2.
Qed.

Lemma get_parent_inv w s q s' : get_parent w s = (Ok q, s') -> s' = s /\ par_of s !! w = Some q.
Proof. intros H. unf H. apply need_inv in H as [H ->]. split; [done|]. by rewrite lookup_fmap. Qed.
Lemma children_inv w s l s' : children w s = (Ok l, s') -> s' = s /\ exists x, wires s !! w = Some x /\ forall c, c ∈ l <-> c ∈ childs x.
Proof.
  unfold children. intros H. rd H as x Ex. apply ret_inv in H as [-> ->]. split; [done|]. exists x. split; [done|].
  intros c. apply elem_of_elements.
Qed.
Lemma wire_segments_inv w st en s l s' : wire_segments w st en s = (Ok l, s') ->
  s' = s /\ exists q, par_of s !! w = Some q /\
    match q with
    | None => l = []
    | Some _ => exists a, match st with Some x => a = x | None => sg_of s !! w = Some (Some a) end /\
                  walk (fuel s) (nxt s) a (match en with Some e => e | None => a end) a = Ok l
    end.
Proof.
  unfold wire_segments. intros H. rd H as x Ex. destruct (parent x) as [q|] eqn:Eq.
  - bnd H as a s1 E. assert (Ha : s1 = s /\ match st with Some x => a = x | None => sg_of s !! w = Some (Some a) end).
    { destruct st as [st|]; [by apply ret_inv in E as [-> ->]|]. apply need_inv in E as [E ->]. split; [done|].
      rewrite lookup_fmap, Ex. cbn. by rewrite E. }
    destruct Ha as [-> Ha]. cbv beta in H. apply pair_equal_spec in H as [H <-]. split; [done|]. exists (Some q).
    split; [rewrite lookup_fmap, Ex; cbn; by rewrite Eq|]. eauto.
  - apply ret_inv in H as [-> ->]. split; [done|]. exists None. split; [rewrite lookup_fmap, Ex; cbn; by rewrite Eq|]. done.
Qed.
Lemma relabel_inv old new l s u s' : relabel old new l s = (Ok u, s') ->
  exists L, s' = set_wir L s /\ (forall h, h ∈ l -> L !! h = Some new) /\ (forall h, h ∉ l -> L !! h = wir s !! h) /\
    (old <> new -> forall h, h ∈ l -> wir s !! h = Some old).
Proof.
  revert s u. induction l as [|h l IH]; intros s u H.
  - apply ret_inv in H as [_ ->]. exists (wir s). split; [by destruct s|]. split; [by intros h ?%elem_of_nil|]. split; [done|].
    by intros _ h ?%elem_of_nil.
  - unfold relabel in H. cbn [each] in H. fold (relabel old new l) in H. bnd H as u1 s1 E. rd E as w Ew. chk E as C.
    apply bool_decide_eq_true in C. subst w. unf E. apply upd_inv in E. subst s1.
    apply IH in H as (L & -> & H1 & H2 & H3). cbn [wir set_wir] in *. exists L. split; [done|]. split; [|split].
    + intros k Hk. destruct (decide (k ∈ l)) as [D|D]; [by apply H1|]. apply elem_of_cons in Hk as [-> | Hk]; [|done].
      rewrite H2 by done. apply lookup_insert.
    + intros k Hk. rewrite H2 by (intros ?; apply Hk; by right). apply lookup_insert_ne. intros <-. apply Hk. left.
    + intros D k [-> | Hk]%elem_of_cons; [done|]. specialize (H3 D k Hk). destruct (decide (k = h)) as [-> | Dk]; [done|].
      by rewrite lookup_insert_ne in H3.
Qed.
(** A wire keeps a segment of its own that is not [g]. *)
Lemma disconnect_side_inv h s u s' : disconnect_side h s = (Ok u, s') ->
  exists w W, wir s !! h = Some w /\ s' = set_wires W s /\ parent <$> W = par_of s /\ w_poly <$> W = pol_of s /\ (forall X, tl X (wires s) -> tl X W) /\
    ((w_seg <$> W = sg_of s /\ sg_of s !! w <> Some (Some h)) \/
     exists k, w_seg <$> W = <[w := Some k]> (sg_of s) /\ sg_of s !! w = Some (Some h) /\ wir s !! k = Some w /\ fst k <> fst h /\
       (nxt s !! h = Some k \/ exists j, nxt s !! h = Some j /\ nxt s !! j = Some k)).
Proof.
  unfold disconnect_side. intros H. rd H as w Ew. rd H as x Ex. exists w.
  destruct (decide (w_seg x = Some h)) as [D|D].
  - rd H as k Ek. bnd H as k' s1 E. assert (Hk : s1 = s /\ (nxt s !! h = Some k' \/ exists j, nxt s !! h = Some j /\ nxt s !! j = Some k')).
    { destruct (decide (fst k = fst h)); [unf E; apply need_inv in E as [E ->]; eauto|]. apply ret_inv in E as [-> ->]. eauto. }
    destruct Hk as [-> Hk]. bnd H as u1 s1 E1. apply put_wire_seg_inv in E1 as (W & -> & V1 & V2 & V3 & _ & V4).
    rd H as w' Ew'. chk H as C. apply bool_decide_eq_true in C. subst w'. apply check_inv in H as [C ->]. apply bool_decide_eq_true in C.
    exists W. split; [done|]. split; [done|]. split; [done|]. split; [done|]. split; [done|]. right. exists k'.
    split; [done|]. split; [rewrite lookup_fmap, Ex; cbn; by rewrite D|]. split; [done|]. split; [done|]. exact Hk.
  - apply ret_inv in H as [_ ->]. exists (wires s). split; [done|]. split; [by destruct s|]. split; [done|]. split; [done|]. split; [done|].
    left. split; [done|]. rewrite lookup_fmap, Ex. cbn. congruence.
Qed.
