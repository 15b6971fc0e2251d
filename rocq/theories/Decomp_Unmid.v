(** A point leaves the inside of a line: join_segments of segments that go on keeps the invariant. *)
From stdpp Require Import gmap list relations.
From Coq Require Import QArith.
From Verif Require Import Decomp_Model Decomp_Perm Decomp_Surgery Decomp_Eff Decomp_Tree Decomp_Inv Decomp_Add Decomp_Join Decomp_Del Decomp_Mid Decomp_Planar Decomp_Nest Decomp_Good.
Local Open Scope nat_scope.

(** * Links *)
Section Unmid.
Context (v : gmap he nat) (f : gmap he he) (l : gmap he nat) (e n : nat).
Hypothesis T : topo v f l.
Context (nx pv : he) (b mid : nat).
Hypothesis Ee : f !! (e, true) = Some (n, true).
Hypothesis Ef : f !! (n, false) = Some (e, false).
Hypothesis Et : f !! (n, true) = Some nx.
Hypothesis Ep : f !! pv = Some (n, false).
Hypothesis Vb : v !! (n, true) = Some b.
Hypothesis Vm : v !! (n, false) = Some mid.
Hypothesis Dn : e <> n.
Hypothesis Dab : v !! (e, false) <> Some b.
Definition pw : he := if decide (pv = (n, true)) then (e, true) else pv.
Definition u1 : gmap he he := swap f (e, true) (n, true).
Definition u2 : gmap he he := swap u1 pw (n, false).

Lemma pv_ne : pv <> (e, true) /\ pv <> (n, false).
Proof. split; intros ->; congruence. Qed.
Lemma u1_e : u1 !! (e, true) = Some nx.
Proof. by eapply swap_l. Qed.
Lemma u1_t : u1 !! (n, true) = Some (n, true).
Proof. by eapply swap_r. Qed.
Lemma u1_old h : h <> (e, true) -> h <> (n, true) -> u1 !! h = f !! h.
Proof. apply swap_ne. Qed.
Lemma u1_f : u1 !! (n, false) = Some (e, false).
Proof. rewrite u1_old; [done|congruence|done]. Qed.
Lemma u1_p : u1 !! pw = Some (n, false).
Proof.
  unfold pw. destruct pv_ne as [D1 D2]. destruct (decide (pv = (n, true))) as [-> | D]; [rewrite u1_e; congruence|]. by rewrite u1_old.
Qed.
Lemma pw_ne : pw <> (n, true) /\ pw <> (n, false).
Proof. unfold pw. destruct pv_ne as [D1 D2]. destruct (decide (pv = (n, true))); split; congruence. Qed.
Lemma u2_f : u2 !! (n, false) = Some (n, false).
Proof. eapply swap_r; [apply u1_p|apply u1_f]. Qed.
Lemma u2_t : u2 !! (n, true) = Some (n, true).
Proof. destruct pw_ne. unfold u2. rewrite swap_ne by congruence. apply u1_t. Qed.
Lemma u2_p : u2 !! pw = Some (e, false).
Proof. eapply swap_l; [apply u1_p|apply u1_f]. Qed.
Lemma u2_e : pv <> (n, true) -> u2 !! (e, true) = Some nx.
Proof. intros D. destruct pv_ne. unfold u2, pw. rewrite decide_False by done. rewrite swap_ne by congruence. apply u1_e. Qed.
Lemma u2_old h : fst h <> n -> h <> (e, true) -> h <> pv -> u2 !! h = f !! h.
Proof.
  intros D1 D2 D3. unfold u2. rewrite swap_ne; [|unfold pw; by destruct (decide _)|by intros ->]. apply u1_old; [done|by intros ->].
Qed.
Lemma perm_u2 : perm u2.
Proof. apply swap_perm, swap_perm, T. Qed.
Lemma flip_u2 : closed_flip u2.
Proof. intros h. unfold u2, u1. rewrite !swap_dom. apply T. Qed.
Lemma dec_two (h x y : he) : (h = x \/ h = y) \/ ~ (h = x \/ h = y).
Proof. destruct (decide (h = x)); [auto|]. destruct (decide (h = y)); [auto|]. right. tauto. Qed.

Lemma labels_u2 : labels (dels u2 n) (dels l n).
Proof.
  assert (Ll := t_wir _ _ _ T). assert (P := t_perm _ _ _ T).
  assert (Il : is_Some (l !! (n, true))) by (apply (topo_dom_l _ _ _ _ T); eauto). destruct Il as [w Ew].
  assert (If : is_Some (l !! (n, false))) by (apply (topo_dom_l _ _ _ _ T); eauto). destruct If as [wf Ewf].
  destruct (fresh_label l) as [y Fy].
  assert (L1 : labels u1 (<[(n, true) := y]> l)).
  { unfold u1. rewrite swap_comm. eapply (labels_leave f l (n, true) (e, true) w y); [done|done|done|done|congruence|done]. }
  destruct (fresh_label (<[(n, true) := y]> l)) as [z Fz].
  assert (L2 : labels u2 (<[(n, false) := z]> (<[(n, true) := y]> l))).
  { unfold u2. rewrite swap_comm. eapply (labels_leave u1 _ (n, false) pw wf z); [by apply swap_perm|done| |apply u1_p|by apply pw_ne|done].
    by rewrite lookup_insert_ne. }
  assert (Q : dels l n = dels (<[(n, false) := z]> (<[(n, true) := y]> l)) n).
  { apply map_eq. intros h. destruct (side_cases h n) as [D|[-> | ->]]; [|by rewrite !dels_in..].
    rewrite !dels_ne by done. by rewrite !lookup_insert_ne by (by intros <-). }
  rewrite Q. unfold dels. apply labels_del1; [apply perm_del1; [apply perm_u2|apply u2_f]|apply labels_del1; [apply perm_u2|done|apply u2_f]|].
  rewrite lookup_delete_ne by done. apply u2_t.
Qed.
(** The end of the first segment moves to the end of the second. *)
Definition vu : gmap he nat := <[(e, true) := b]> (dels v n).
Lemma mid_two h : v !! h = Some mid <-> h = (e, true) \/ h = (n, false).
Proof.
  assert (Ge : rot f !! (e, true) = Some (n, false)) by (by apply rot_some).
  assert (Gn : rot f !! (n, false) = Some (e, true)) by (by apply rot_some).
  assert (PR : perm (rot f)) by (apply perm_rot; apply T). split.
  - intros Eh. assert (R : reach (rot f) (n, false) h) by (eapply labels_reach; [apply T|done|done]).
    assert (G : forall x, reach (rot f) x h -> x = (e, true) \/ x = (n, false) -> h = (e, true) \/ h = (n, false)); [|apply (G (n, false)); auto].
    clear R. intros x R. induction R as [|x k h S R IH]; [done|]. intros Hx. apply IH; [done|]. unfold step in S.
    destruct Hx as [-> | ->]; [rewrite Ge in S|rewrite Gn in S]; injection S as <-; auto.
  - intros [-> | ->]; [|done]. eapply labels_same; [exact PR|apply T|exact Vm|]. by apply reach_step.
Qed.
Lemma Dmb : mid <> b.
Proof. intros ->. assert (X := t_loop _ _ _ T _ _ Vb). by apply X. Qed.
Lemma labels_vu : labels (rot (dels u2 n)) vu.
Proof.
  assert (PR : perm (rot f)) by (apply perm_rot; apply T). assert (Lv := t_vtx _ _ _ T). assert (D := Dmb).
  set (v1 := (fun w => if decide (w = mid) then b else w) <$> v).
  assert (L1 : labels (rot u1) v1).
  { unfold u1. rewrite rot_swap, swap_comm. eapply (labels_join (rot f) v _ (n, true) (e, true) b mid); [done|done|done|apply mid_two; auto|done|].
    intros h. unfold v1. by rewrite lookup_fmap. }
  assert (P1 : perm (rot u1)) by (unfold u1; rewrite rot_swap; by apply swap_perm).
  destruct (fresh_label v1) as [z Fz].
  set (v2 := <[(n, true) := z]> (<[(n, false) := z]> v1)).
  assert (Gt : rot u2 !! (n, true) = Some (n, false)) by (apply rot_some, u2_t).
  assert (Gf : rot u2 !! (n, false) = Some (n, true)) by (apply rot_some, u2_f).
  assert (V1n : v1 !! (n, false) = Some b) by (unfold v1; rewrite lookup_fmap, Vm; cbn; by rewrite decide_True).
  assert (V1p : v1 !! pw = Some b).
  { eapply (labels_same (rot u1)); [exact P1|exact L1|exact V1n|]. apply reach_sym; [done|apply (proj2 (rot_dom _ _)); rewrite u1_p; eauto|].
    eapply rtc_l; [apply rot_some; rewrite flip_flip; apply u1_p|]. apply rtc_once. apply rot_some. rewrite flip_pair. cbn [negb]. rewrite u1_t. done. }
  assert (L2 : labels (rot u2) v2).
  { unfold u2 in *. rewrite rot_swap in *. eapply (labels_cut (rot u1) v1 _ pw (n, false) b z (fun h => h = (n, true) \/ h = (n, false)));
      [exact P1|exact L1|exact V1p|exact V1n|apply pw_ne|exact Fz| | | |].
    - intros h. split.
      + intros [-> | ->]; [by apply reach_step|apply reach_refl].
      + intros R. assert (G : forall x, reach (swap (rot u1) pw (n, false)) x h -> x = (n, true) \/ x = (n, false) -> h = (n, true) \/ h = (n, false)); [|apply (G (n, false)); auto].
        clear R. intros x R. induction R as [|x k h S R IH]; [done|]. intros Hx. apply IH. unfold step in S.
        destruct Hx as [-> | ->]; [rewrite Gt in S|rewrite Gf in S]; injection S as <-; auto.
    - intros h [-> | ->]; unfold v2; [apply lookup_insert|]. rewrite lookup_insert_ne by done. apply lookup_insert.
    - intros h Hh. unfold v2. rewrite !lookup_insert_ne; [done|intros <-; apply Hh; auto..].
    - intros h. apply dec_two. }
  assert (Q : vu = dels v2 n).
  { apply map_eq. intros h. unfold vu. destruct (side_cases h n) as [Dh|[-> | ->]].
    - rewrite (dels_ne v2) by done. unfold v2. rewrite (lookup_insert_ne _ (n, true)), (lookup_insert_ne _ (n, false)) by (by intros <-).
      unfold v1. rewrite lookup_fmap. destruct (decide (h = (e, true))) as [-> | De].
      + rewrite lookup_insert. rewrite (proj2 (mid_two (e, true))) by auto. cbn. by rewrite decide_True.
      + rewrite lookup_insert_ne, dels_ne by done. destruct (v !! h) as [p|] eqn:E; [|done]. cbn. rewrite decide_False; [done|].
        intros ->. apply mid_two in E as [-> | ->]; done.
    - rewrite lookup_insert_ne by congruence. by rewrite !dels_in.
    - rewrite lookup_insert_ne by congruence. by rewrite !dels_in. }
  rewrite Q. assert (PR2 : perm (rot u2)) by (apply perm_rot; [apply perm_u2|apply flip_u2]).
  assert (Q2 : dels (rot u2) n = rot (dels u2 n)) by (unfold dels; by rewrite !rot_delete). rewrite <- Q2. by apply labels_del2.
Qed.
Lemma topo_unmid : topo vu (dels u2 n) (dels l n).
Proof.
  assert (D := Dmb). constructor.
  - unfold dels. apply perm_del1; [apply perm_del1; [apply perm_u2|apply u2_f]|]. rewrite lookup_delete_ne by done. apply u2_t.
  - apply flip_dels, flip_u2.
  - apply labels_vu.
  - apply labels_u2.
  - intros h p. unfold vu. intros E1 E2. destruct (decide (h = (e, true))) as [-> | D1].
    { rewrite lookup_insert in E1. rewrite flip_pair in E2. cbn [negb] in E2. rewrite lookup_insert_ne, dels_ne in E2 by done. congruence. }
    rewrite lookup_insert_ne in E1 by done. destruct (decide (flip h = (e, true))) as [D2|D2].
    { rewrite D2, lookup_insert in E2. assert (h = (e, false)) as -> by (by rewrite <- (flip_flip h), D2). rewrite dels_ne in E1 by done. congruence. }
    rewrite lookup_insert_ne in E2 by done. exact (loop_dels _ _ _ _ T _ _ E1 E2).
Qed.
End Unmid.

(** * join_segments *)
(** The point goes on with the next segment. *)
Lemma rm_segment_next p h s u s' k : rm_segment p h s = (Ok u, s') -> seg_of s !! p = Some (Some h) -> nxt s !! h = Some k -> fst k <> fst h ->
  pp s s' (<[p := Some (flip k)]> (seg_of s)).
Proof.
  intros H Sp N D. unfold rm_segment in H. rd H as v Ev. chk H as C. rd H as x Ex. rewrite lookup_fmap, Ex in Sp. cbn in Sp. injection Sp as Sp. rewrite Sp in H.
  bnd H as o s1 E. cbv beta in E. apply pair_equal_spec in E as [E <-].
  assert (F : exists m, fuel s = S (S m)).
  { unfold fuel. destruct (size (nxt s)) as [|m] eqn:Z; [|by exists m]. apply map_size_empty_inv in Z. by rewrite Z, lookup_empty in N. }
  destruct F as [m F]. rewrite F in E. cbn [other] in E. rewrite decide_True in E by done. rewrite N in E.
  rewrite decide_False in E by (intros Y; apply D; by rewrite <- Y). rewrite decide_False in E by (by rewrite fst_flip). injection E as <-.
  unf H. apply upd_inv in H. subst s'. exists (<[p := Pt (xy x) (p_poly x) (Some (flip k))]> (points s)), (polys s).
  split; [by destruct s|]. split; [|split; [by apply (fmap_insert_same _ _ _ x)|split; [done|by rewrite fmap_insert]]].
  intros [F1 F2]. assert (Fx := F1 _ _ Ex). rewrite Sp in Fx. split.
  - intros q y Eq. apply lookup_insert_Some in Eq as [[<- <-]|[Dq Eq]]; [done|by apply F1].
  - intros g y q Eg Hq. destruct (F2 _ _ _ Eg Hq) as (z & Z1 & Z2 & Z3). exists z. split; [|done]. rewrite lookup_insert_ne; [done|]. intros <-. congruence.
Qed.
Lemma wire_turn_inv e n c s u s' : (w <~ get_label (n, c) ; x <~ get_wire w ; if decide (w_seg x = Some (n, c)) then put_wire_seg w (e, c) else ret tt) s = (Ok u, s') ->
  exists w W, wir s !! (n, c) = Some w /\ s' = set_wires W s /\ parent <$> W = par_of s /\ w_poly <$> W = pol_of s /\ (forall X, tl X (wires s) -> tl X W) /\
    ((w_seg <$> W = sg_of s /\ sg_of s !! w <> Some (Some (n, c))) \/ w_seg <$> W = <[w := Some (e, c)]> (sg_of s)).
Proof.
  intros H. rd H as w Ew. rd H as x Ex. exists w. destruct (decide (w_seg x = Some (n, c))) as [D|D].
  - apply put_wire_seg_inv in H as (W & -> & V1 & V2 & V3 & _ & V4). exists W. split; [done|]. split; [done|]. split; [done|]. split; [done|]. split; [done|]. by right.
  - apply ret_inv in H as [_ ->]. exists (wires s). split; [done|]. split; [by destruct s|]. split; [done|]. split; [done|]. split; [done|].
    left. split; [done|]. rewrite lookup_fmap, Ex. cbn. congruence.
Qed.
Lemma set_polygon_at p g s u s' : set_polygon p g s = (Ok u, s') -> exists x, points s' !! p = Some x /\ p_poly x = Some g.
Proof.
  unfold set_polygon. intros H. rd H as x E. bnd H as u1 s1 E1. bnd H as u2 s2 E2. unf H. apply upd_inv in H. subst s'. fld. eexists. by rewrite lookup_insert.
Qed.
Lemma turn_end h k s u s' : (b <~ get_vtx h ; put_vtx k b) s = (Ok u, s') -> exists b, vtx s !! h = Some b /\ s' = set_vtx (<[k := b]> (vtx s)) s.
Proof. intros H. rd H as b E. exists b. split; [done|]. by apply upd_inv in H. Qed.
Lemma join_segments_eff mid e n s m s' a b : inv s -> vtx s !! (e, true) = Some mid -> vtx s !! (n, false) = Some mid ->
  vtx s !! (e, false) = Some a -> vtx s !! (n, true) = Some b -> p2s s !! (a, b) = None -> p2s s !! (b, a) = None ->
  join_segments mid e n s = (Ok m, s') ->
  m = mid /\ inv s' /\ exists nx pv wt wf gp kb,
    nxt s !! (e, true) = Some (n, true) /\ nxt s !! (n, false) = Some (e, false) /\ nxt s !! (n, true) = Some nx /\ nxt s !! pv = Some (n, false) /\
    wir s !! (n, true) = Some wt /\ wir s !! (n, false) = Some wf /\ wir s !! (e, true) = Some wt /\ wir s !! (e, false) = Some wf /\
    pol_of s !! wt = Some (Some gp) /\ e <> n /\ a <> b /\ mid <> a /\ mid <> b /\
    vtx s' = vu (vtx s) e n b /\ nxt s' = dels (u2 (nxt s) e n pv) n /\ wir s' = dels (wir s) n /\
    par_of s' = par_of s /\ pol_of s' = pol_of s /\ (tl ∅ (wires s) -> tl ∅ (wires s')) /\ outer_of s' = outer_of s /\ xy_of s' = xy_of s /\
    vec s' = delete n (vec s) /\
    p2s s' = delete (b, mid) (delete (mid, b) (<[(a, b) := e]> (delete (a, mid) (delete (mid, b) (p2s s))))) /\
    seg_of s' = <[mid := None]> (<[b := Some kb]> (seg_of s)) /\
    (exists x, points s' !! mid = Some x /\ p_poly x = Some gp) /\ last_change s' = last_change s.
Proof.
  intros I Vem Vnm Va Vb E1 E2 H. assert (TT := i_topo _ I).
  assert (Dn : e <> n) by (intros ->; by apply (t_loop _ _ _ TT _ _ Vem)).
  assert (Dma : mid <> a) by (intros ->; by apply (t_loop _ _ _ TT _ _ Vem)).
  assert (Dmb : mid <> b) by (intros ->; by apply (t_loop _ _ _ TT _ _ Vnm)).
  assert (Dab : a <> b).
  { intros ->. destruct (i_pair _ I) as [J1 J2]. assert (X : p2s s !! (mid, b) = Some n) by (by apply J1). assert (Y : p2s s !! (b, mid) = Some e) by (by apply J1).
    apply J2 in X. congruence. }
  unfold join_segments in H. rd H as q Eq. rewrite Vem in Eq. injection Eq as <-. rd H as q Eq. rewrite Vnm in Eq. injection Eq as <-. cbv zeta in H.
  rewrite bool_decide_true in H by done.
  rd H as q Eq. rewrite Vnm in Eq. injection Eq as <-. rd H as q Eq. rewrite Vb in Eq. injection Eq as <-. rd H as k1 K1. up H.
  rd H as q Eq. fld in Eq. rewrite Va in Eq. injection Eq as <-. rd H as q Eq. fld in Eq. rewrite Vem in Eq. injection Eq as <-. rd H as k0 K0. up H. fld in *.
  rd H as n0 Ee. chk H as C. apply bool_decide_eq_true in C. subst n0. rd H as n1 Ef. cbn [negb] in *. chk H as C. apply bool_decide_eq_true in C. subst n1. fld in *.
  bnd H as bi s1 E. 
  match type of E with _ ?s0 = _ => assert (K0' : s1 = s0 /\ exists nx, nxt s !! (n, true) = Some nx /\
    match bi with None => fst nx = n | Some (pv, nx', w) => fst nx <> n /\ nx' = nx /\ wir s !! (n, true) = Some w /\ nxt s !! pv = Some (n, false) end) end.
  { unfold vtx_insert_info in E. rd E as nx Enx. destruct (decide (fst nx = fst (n, true))) as [D|D].
    - apply ret_inv in E as [-> ->]. eauto.
    - rd E as w Ew. bnd E as pv s2 E3. apply previous_inv in E3 as [-> E3]. apply ret_inv in E as [-> ->]. split; [done|]. exists nx. done. }
  destruct K0' as (-> & nx & Enx & Bi). clear E.
  bnd H as y1 s1 E. apply disconnect_vtx_inv in E as (b' & y1' & s2 & pv & Eb & E & Epv & ->). fld in *.
  replace b' with b in * by congruence. clear b' Eb.
  destruct (has_seg _ _ _ I Vb) as [kb0 Mb]. destruct (has_seg _ _ _ I Vem) as [km Mm]. rewrite flip_pair in Epv. cbn [negb] in Epv.
  match type of E with _ ?s0 = _ => assert (Q1 : exists ob, (match ob with Some k => vtx s !! k = Some b /\ fst k <> n | None => forall x, vtx s !! x = Some b -> x = (n, true) end) /\ pp s0 s2 (<[b := ob]> (seg_of s))) end.
  { apply (rm_segment_pp _ _ _ _ _ kb0 (vtx s)) in E as [(k & X1 & X2 & X3)|(X1 & _ & X3)].
    - exists (Some k). done.
    - by exists None.
    - apply perm_rot; apply TT.
    - apply TT.
    - done.
    - by apply (i_pts _ I).
    - intros x Vx Fx. destruct (same_seg x (n, true) Fx) as [-> | ->]; [done|]. rewrite flip_pair in Vx. cbn [negb] in Vx. congruence. }
  destruct Q1 as (ob & Ob & Q1). apply pp_open in Q1 as (P1 & G1 & -> & R1 & M1). clear E. fld in *.
  destruct (pv_ne (nxt s) e n pv Ee Ef Epv Dn) as [Dp1 Dp2].
  set (F1 := swap (nxt s) (n, true) pv) in *.
  assert (PF1 : perm F1) by (apply swap_perm, TT).
  assert (F1f : F1 !! (n, false) = Some (e, false)) by (unfold F1; by rewrite swap_ne by congruence).
  assert (F1t : F1 !! (n, true) = Some (n, false)) by (by eapply swap_l).
  assert (F1p : F1 !! pv = Some nx) by (by eapply swap_r).
  assert (F1e : F1 !! (e, true) = Some (n, true)) by (unfold F1; rewrite swap_ne by congruence; done).
  bnd H as y2 s1 E. apply disconnect_vtx_inv in E as (m' & y2' & s2 & me & Em & E & Eme & ->). fld in *.
  rewrite Vnm in Em. injection Em as <-. rewrite flip_pair in Eme. cbn [negb] in Eme.
  assert (Mmid : km = (e, true) \/ km = (n, false)).
  { eapply (mid_two (vtx s) (nxt s) (wir s) e n TT mid); [exact Ee|exact Ef|exact Vnm|]. by apply (i_pts _ I). }
  match type of E with _ ?s0 = _ => assert (Q2 : pp s0 s2 (<[mid := Some (e, true)]> (p_seg <$> P1))) end.
  { assert (Mm' : (p_seg <$> P1) !! mid = Some (Some km)) by (by rewrite M1, lookup_insert_ne).
    destruct Mmid as [-> | ->].
    - rewrite insert_id by done. eapply rm_segment_far; [exact E|exact Mm'|done].
    - eapply rm_segment_next in E; [|exact Mm'|exact F1f|done]. exact E. }
  apply pp_open in Q2 as (P2 & G2 & -> & R2 & M2). clear E. fld in *.
  assert (me = (e, true)) as -> by (by eapply (proj1 PF1)).
  set (F2 := swap F1 (n, false) (e, true)) in *.
  assert (PF2 : perm F2) by (by apply swap_perm).
  assert (F2e : F2 !! (e, true) = Some (e, false)) by (by eapply swap_r).
  assert (F2o : forall h, h <> (n, false) -> h <> (e, true) -> F2 !! h = F1 !! h) by (intros h ? ?; by apply swap_ne).
  bnd H as y3 s1 E. apply unlink_inv in E as (mu & Emu & _ & ->). fld in *. rewrite flip_pair in Emu. cbn [negb] in Emu.
  assert (mu = (e, true)) as -> by (by eapply (proj1 PF2)).
  assert (F3 : swap F2 (e, true) (e, true) = F2). { rewrite (swap_eq _ _ _ _ _ F2e F2e). rewrite insert_insert, insert_id; done. }
  rewrite F3 in *. clear F3.
  bnd H as y4 s1 E. apply turn_end in E as (b' & Eb' & ->). fld in *. replace b' with b in * by congruence. clear b' Eb'.
  assert (Iw : is_Some (wir s !! (n, true))) by (apply (topo_dom_l _ _ _ _ TT); eauto). destruct Iw as [wt Ewt].
  assert (If : is_Some (wir s !! (n, false))) by (apply (topo_dom_l _ _ _ _ TT); eauto). destruct If as [wf Ewf].
  assert (Ewt' : wir s !! (e, true) = Some wt) by (rewrite <- Ewt; symmetry; by apply (topo_lab _ _ _ _ _ TT)).
  assert (Ewf' : wir s !! (e, false) = Some wf) by (rewrite <- Ewf; by apply (topo_lab _ _ _ _ _ TT)).
  bnd H as y5 s9 E.
  match type of E with _ ?s0 = _ => set (sB := s0) in * end.
  assert (X1 : vtx sB = <[(e, true) := b]> (vtx s)) by reflexivity.
  assert (X2 : nxt sB = F2) by reflexivity.
  assert (X3 : wir sB = wir s) by reflexivity.
  assert (X4 : wires sB = wires s) by reflexivity.
  assert (X5 : points sB = P2) by reflexivity.
  assert (X6 : polys sB = G2) by reflexivity.
  assert (X7 : iw sB = iw s) by reflexivity.
  assert (X8 : ig sB = ig s) by reflexivity.
  assert (X9 : vec sB = vec s) by reflexivity.
  assert (X10 : p2s sB = delete (a, mid) (delete (mid, b) (p2s s))) by reflexivity.
  assert (X11 : last_change sB = last_change s) by reflexivity.
  assert (X12 : is_ sB = is_ s) by reflexivity.
  assert (X13 : ip sB = ip s) by reflexivity.
  clearbody sB.
  assert (Veb : vtx sB !! (e, true) = Some b) by (by rewrite X1, lookup_insert).
  assert (M2' : p_seg <$> P2 = <[mid := Some (e, true)]> (<[b := ob]> (seg_of s))) by (by rewrite M2, M1).
  assert (M2b : (p_seg <$> P2) !! b = Some ob) by (by rewrite M2', lookup_insert_ne, lookup_insert).
  set (kb := default (e, true) ob).
  assert (K2 : exists P G F, s9 = set_nxt F (set_polys G (set_points P sB)) /\ ppr P2 G2 P G /\ p_seg <$> P = <[mid := Some (e, true)]> (<[b := Some kb]> (seg_of s)) /\
     dels F n = dels (u2 (nxt s) e n pv) n).
  { assert (Jn : jn b (e, true) (p_seg <$> P2) = <[mid := Some (e, true)]> (<[b := Some kb]> (seg_of s))).
    { unfold jn. rewrite M2b. destruct ob as [k|]; [done|]. rewrite M2'. rewrite (insert_commute _ b mid) by done. by rewrite insert_insert. }
    destruct bi as [[[pv' nx'] w]|].
    - destruct Bi as (Dx & -> & Ew & Ep'). assert (pv' = pv) as -> by (eapply (t_perm _ _ _ TT); done).
      apply connect_vtx_eff in E as (p4 & P4 & G4 & V4 & _ & R4 & M4 & ->).
      rewrite Veb in V4. injection V4 as <-. rewrite X5, X6 in R4. rewrite X5 in M4. rewrite Jn in M4.
      exists P4, G4, (<[pv := flip (e, true)]> (<[(e, true) := nx]> (nxt sB))). split; [|split; [done|split; [done|]]].
      + assert (w = wt) as -> by congruence. rewrite X3, insert_id by done. rewrite <- X3. by destruct sB.
      + assert (Dpt : pv <> (n, true)). { intros ->. rewrite Enx in Epv. injection Epv as ->. done. }
        rewrite flip_pair. cbn [negb]. rewrite X2. apply map_eq. intros h. destruct (side_cases h n) as [D|[-> | ->]]; [|by rewrite !dels_in..].
        rewrite !dels_ne by done. destruct (decide (h = pv)) as [-> | D1].
        { rewrite lookup_insert. symmetry. rewrite <- (u2_p (nxt s) e n nx pv Ee Ef Enx Epv Dn). f_equal. unfold pw. by rewrite decide_False. }
        rewrite lookup_insert_ne by done. destruct (decide (h = (e, true))) as [-> | D2].
        { rewrite lookup_insert. symmetry. by apply u2_e. }
        rewrite lookup_insert_ne by done. rewrite F2o by (done || by intros ->). unfold F1. rewrite swap_ne by (done || by intros ->). symmetry. by apply u2_old.
    - bnd E as d s1 E3. apply is_dendrite_inv in E3 as (-> & wa & wb & W1 & W2 & ->). chk E as C. apply bool_decide_eq_true in C. subst wb.
      rd E as w Ew. rewrite X3 in W1, W2, Ew.
      apply connect_free_vtx_eff in E as (p4 & P4 & G4 & V4 & _ & R4 & M4 & ->).
      rewrite Veb in V4. injection V4 as <-. rewrite X5, X6 in R4. rewrite X5 in M4. rewrite Jn in M4.
      exists P4, G4, (<[(e, true) := flip (e, true)]> (nxt sB)). split; [|split; [done|split; [done|]]].
      + assert (w = wt) as -> by congruence. rewrite X3, insert_id by done. rewrite <- X3. by destruct sB.
      + assert (nx = (n, false)) as ->.
        { destruct (side_cases nx n) as [?|[-> | ->]]; [done| |done]. exfalso. assert ((n, true) = (e, true)) by (by eapply (t_perm _ _ _ TT)). congruence. }
        assert (pv = (n, true)) as -> by (eapply (t_perm _ _ _ TT); done).
        rewrite flip_pair. cbn [negb]. rewrite X2. apply map_eq. intros h. destruct (side_cases h n) as [D|[-> | ->]]; [|by rewrite !dels_in..].
        rewrite !dels_ne by done. destruct (decide (h = (e, true))) as [-> | D2].
        { rewrite lookup_insert. symmetry. rewrite <- (u2_p (nxt s) e n (n, false) (n, true) Ee Ef Enx Epv Dn). f_equal. unfold pw. by rewrite decide_True. }
        rewrite lookup_insert_ne by done. rewrite F2o by (done || by intros ->). unfold F1. rewrite swap_ne by (done || by intros ->). symmetry. apply u2_old; [done..|by intros ->]. }
  destruct K2 as (P3 & G3 & F & -> & R3 & M3 & QF). clear E.
  bnd H as y6 s1 E. cbn [each] in E. bnd E as y7 s2 E3. apply wire_turn_inv in E3 as (w1 & W1 & L1 & -> & V1 & V2 & V3 & V4).
  bnd E as y8 s2 E3. apply wire_turn_inv in E3 as (w2 & W2 & L2 & -> & V5 & V6 & V7 & V8). apply ret_inv in E as [_ ->]. fld in *.
  rewrite X3 in L1, L2. rewrite X4 in V1, V2, V3, V4. replace w1 with wt in * by congruence. replace w2 with wf in * by congruence. clear w1 w2 L1 L2.
  bnd H as y9 s1 E. rd E as a' Ea'. rd E as b' Eb'. apply upd_inv in E. subst s1. fld in *.
  assert (a' = a) as ->. { rewrite X1, lookup_insert_ne in Ea' by done. congruence. } assert (b' = b) as -> by congruence.
  bnd H as y10 s1 E. apply (destroy_eff _ _ _ _ mid b (Some (e, true)) (Some kb)) in E; fld.
  2: { rewrite X1, lookup_insert_ne by congruence. done. }
  2: { rewrite X1, lookup_insert_ne by congruence. done. }
  2: done.
  2: { exists (Some (e, true)). fld. split; [by rewrite M3, lookup_insert|]. left. done. }
  2: { exists (Some kb). fld. split; [by rewrite M3, lookup_insert_ne, lookup_insert|]. left. split; [|done]. unfold kb. destruct ob as [k|]; cbn; [apply Ob|done]. }
  destruct E as (P4 & G4 & R4 & M4 & ->). fld in *.
  bnd H as y11 s1 E. apply ret_inv in H as [-> ->]. rd E as wt' Ewt''. fld in Ewt''. rewrite X3, dels_ne in Ewt'' by done. rewrite Ewt' in Ewt''. injection Ewt'' as <-.
  bnd E as gp s2 E3. apply wire_poly_inv in E3 as [-> Egp]. fld in Egp. rewrite V6, V2 in Egp.
  assert (Zm := set_polygon_at _ _ _ _ _ E).
  apply set_polygon_eff in E as (_ & _ & P & G & -> & R5 & M5). fld in R5. fld in M5.
  split; [done|].
  match goal with |- inv ?s1 /\ _ => set (s' := s1) in * end.
  assert (Y1 : vtx s' = vu (vtx s) e n b).
  { unfold vu. change (dels (vtx sB) n = <[(e, true) := b]> (dels (vtx s) n)). rewrite X1. apply map_eq. intros h.
    destruct (side_cases h n) as [D|[-> | ->]]; [|rewrite lookup_insert_ne by congruence; by rewrite !dels_in..].
    rewrite dels_ne by done. destruct (decide (h = (e, true))) as [-> | D1]; [by rewrite !lookup_insert|]. rewrite !lookup_insert_ne by done. by rewrite dels_ne. }
  assert (Y2 : nxt s' = dels (u2 (nxt s) e n pv) n) by exact QF.
  assert (Y3 : wir s' = dels (wir s) n) by (change (dels (wir sB) n = dels (wir s) n); by rewrite X3).
  assert (Y4 : wires s' = W2) by reflexivity.
  assert (Y5 : points s' = P) by reflexivity.
  assert (Y6 : polys s' = G) by reflexivity.
  assert (Y7 : iw s' = iw s) by exact X7.
  assert (Y8 : ig s' = ig s) by exact X8.
  assert (Y9 : vec s' = delete n (vec s)) by (rewrite <- X9; reflexivity).
  assert (Y10 : p2s s' = delete (b, mid) (delete (mid, b) (<[(a, b) := e]> (delete (a, mid) (delete (mid, b) (p2s s)))))) by (rewrite <- X10; reflexivity).
  assert (Y11 : last_change s' = last_change s) by exact X11.
  assert (Y12 : is_ s' = old_id n (is_ s)) by (rewrite <- X12; reflexivity).
  assert (Y13 : ip s' = ip s) by exact X13.
  clearbody s'. clear X1 X2 X3 X4 X5 X6 X7 X8 X9 X10 X11 X12 X13 QF.
  assert (RR : ppr (points s) (polys s) P G).
  { eapply ppr_trans; [exact R1|]. eapply ppr_trans; [exact R2|]. eapply ppr_trans; [exact R3|]. by eapply ppr_trans. }
  assert (Mf : seg_of s' = <[mid := None]> (<[b := Some kb]> (seg_of s))).
  { rewrite Y5, M5, M4, M3. apply map_eq. intros q. destruct (decide (q = mid)) as [-> | D1]; [by rewrite !lookup_insert|]. rewrite !(lookup_insert_ne _ mid) by done.
    destruct (decide (q = b)) as [-> | D2]; [by rewrite !lookup_insert|]. rewrite !(lookup_insert_ne _ b) by done. by rewrite !(lookup_insert_ne _ mid), (lookup_insert_ne _ b) by done. }
  assert (VM : forall h, vtx s !! h = Some mid <-> h = (e, true) \/ h = (n, false)).
  { intros h. eapply (mid_two (vtx s) (nxt s) (wir s) e n TT mid); done. }
  assert (Vn : forall h, h <> (e, true) -> fst h <> n -> vu (vtx s) e n b !! h = vtx s !! h).
  { intros h D1 D2. unfold vu. rewrite lookup_insert_ne by done. by rewrite dels_ne. }
  assert (Ve : vu (vtx s) e n b !! (e, true) = Some b) by (apply lookup_insert).
  assert (Vd : forall c, vu (vtx s) e n b !! (n, c) = None) by (intros c; unfold vu; rewrite lookup_insert_ne by congruence; apply dels_in).
  assert (Vc : forall h p, vu (vtx s) e n b !! h = Some p -> (h = (e, true) /\ p = b) \/ (h <> (e, true) /\ fst h <> n /\ p <> mid /\ vtx s !! h = Some p)).
  { intros h p Eh. destruct (decide (h = (e, true))) as [-> | D1]; [left; split; congruence|]. destruct h as [k c]. destruct (decide (k = n)) as [-> | D2]; [by rewrite Vd in Eh|].
    rewrite Vn in Eh by done. right. split; [done|]. split; [done|]. split; [|done]. intros ->. apply VM in Eh as [? | [= ? ?]]; done. }
  destruct (i_pts _ I) as (Q1 & Q2 & Q3).
  assert (DomS : forall k, is_Some (seg_of s' !! k) <-> is_Some (seg_of s !! k)).
  { intros k. rewrite Mf, <- !live_insert. split; [intros [-> | [-> | ?]]; eauto|auto]. }
  split; [constructor|].
  - rewrite Y1, Y2, Y3. apply (topo_unmid (vtx s) (nxt s) (wir s) e n TT nx pv b mid); try done. congruence.
  - rewrite Y1, Mf. split; [|split].
    + intros p h Eh. destruct (decide (p = mid)) as [-> | D1]; [rewrite lookup_insert in Eh; congruence|]. rewrite lookup_insert_ne in Eh by done.
      destruct (decide (p = b)) as [-> | D2].
      * rewrite lookup_insert in Eh. injection Eh as <-. subst kb. destruct ob as [k|]; cbn; [|done]. destruct Ob as [O1 O2]. rewrite Vn; [done| |done]. intros ->. congruence.
      * rewrite lookup_insert_ne in Eh by done. apply Q1 in Eh. rewrite Vn; [done|intros ->; congruence|].
        intros Fh. destruct (side_cases h n) as [?|[-> | ->]]; [done|congruence|congruence].
    + intros p h Eh E3. apply Vc in E3 as [[-> ->]|(Z1 & Z2 & Z3 & Z4)].
      * rewrite lookup_insert_ne, lookup_insert in Eh by done. done.
      * rewrite lookup_insert_ne in Eh by done. destruct (decide (p = b)) as [-> | D2]; [by rewrite lookup_insert in Eh|].
        rewrite lookup_insert_ne in Eh by done. by apply (Q2 p h).
    + intros h p Eh. rewrite <- !live_insert. apply Vc in Eh as [[_ ->]|(_ & _ & _ & Z4)]; [auto..|]. right. right. by eapply Q3.
  - rewrite Y5, Y6. apply RR, I.
  - intros k. rewrite Y9, Y1. rewrite <- live_delete, (i_vec _ I). destruct (decide (k = n)) as [-> | Dk].
    + rewrite Vd. split; [tauto|by intros [? ?]].
    + rewrite Vn by done. tauto.
  - rewrite Y1, Y10. destruct (i_pair _ I) as [J1 J2].
    assert (Emb : p2s s !! (mid, b) = Some n) by (by apply J1).
    assert (Eam : p2s s !! (a, mid) = Some e) by (by apply J1).
    assert (Ebm : p2s s !! (b, mid) = None) by (by eapply J2).
    assert (Sub : forall x y k, delete (b, mid) (delete (mid, b) (<[(a, b) := e]> (delete (a, mid) (delete (mid, b) (p2s s))))) !! (x, y) = Some k <->
       ((x, y) = (a, b) /\ k = e) \/ ((x, y) <> (a, mid) /\ (x, y) <> (mid, b) /\ p2s s !! (x, y) = Some k)).
    { intros x y k. rewrite !lookup_delete_Some, lookup_insert_Some, !lookup_delete_Some. split.
      - intros (D1 & D2 & [[D3 ->]|(D3 & D4 & D5 & D6)]); [left; split; congruence|right; split; [congruence|split; [congruence|done]]].
      - intros [[-> ->]|(D1 & D2 & D3)].
        + split; [congruence|]. split; [congruence|]. by left.
        + split; [intros [= <- <-]; congruence|]. split; [congruence|]. right. split; [intros [= <- <-]; congruence|]. split; [congruence|]. split; [congruence|done]. }
    assert (Nk : forall x y k, p2s s !! (x, y) = Some k -> (x, y) <> (a, mid) -> (x, y) <> (mid, b) -> k <> e /\ k <> n).
    { intros x y k Hk D1 D2. apply J1 in Hk as [Z1 Z2]. split; intros ->; congruence. }
    split.
    + intros x y k. rewrite Sub. split.
      * intros [[Hx ->]|(D1 & D2 & D3)].
        { injection Hx as -> ->. split; [|done]. by rewrite Vn. }
        { destruct (Nk _ _ _ D3 D1 D2) as [N1 N2]. apply J1 in D3 as [D3 D4]. split; rewrite Vn; try done. congruence. }
      * intros [Z1 Z2]. apply Vc in Z1 as [[? _]|(_ & D1 & D2 & Z1)]; [done|]. apply Vc in Z2 as [[Z2 ->]|(D3 & _ & D4 & Z2)].
        { injection Z2 as ->. left. split; [congruence|done]. }
        { right. split; [congruence|]. split; [congruence|]. by apply J1. }
    + intros x y k Hx. apply eq_None_not_Some. intros [k' Hk']. apply Sub in Hx, Hk'.
      destruct Hx as [[Hx ->]|(D1 & D2 & D3)]; [injection Hx as -> ->|].
      * destruct Hk' as [[Hk' _]|(_ & _ & D3)]; congruence.
      * destruct Hk' as [[Hk' _]|(_ & _ & D4)]; [injection Hk' as -> ->; congruence|]. apply J2 in D3. congruence.
  - intros h w. rewrite Y3, Y4. intros Eh. rewrite V5, V1. destruct (side_cases h n) as [D2|[-> | ->]]; [|by rewrite dels_in in Eh..].
    rewrite dels_ne in Eh by done. by apply (i_live _ I h).
  - intros h w. rewrite Y3, Y4. intros Eh. destruct (side_cases h n) as [D2|[-> | ->]]; [|by rewrite dels_in in Eh..]. rewrite dels_ne in Eh by done.
    destruct (i_seg _ I _ _ Eh) as (m & N1 & N2).
    assert (S1 : exists m1, (w_seg <$> W1) !! w = Some (Some m1) /\ wir s !! m1 = Some w /\ m1 <> (n, true)).
    { destruct V4 as [[-> V4]| ->].
      - exists m. split; [done|]. split; [done|]. intros ->. replace w with wt in * by congruence. done.
      - destruct (decide (w = wt)) as [-> | Dw]; [exists (e, true); rewrite lookup_insert; split; [done|split; [done|congruence]]|].
        rewrite lookup_insert_ne by done. exists m. split; [done|]. split; [done|]. intros ->. congruence. }
    destruct S1 as (m1 & S1 & S2 & S3).
    destruct V8 as [[V8 V9]|V8].
    + rewrite V8. exists m1. split; [done|]. rewrite dels_ne; [done|]. intros Fm. destruct (side_cases m1 n) as [?|[-> | ->]]; [done|done|].
      replace w with wf in * by congruence. done.
    + rewrite V8. destruct (decide (w = wf)) as [-> | Dw]; [exists (e, false); rewrite lookup_insert; split; [done|by rewrite dels_ne]|].
      rewrite lookup_insert_ne by done. exists m1. split; [done|]. rewrite dels_ne; [done|]. intros Fm. destruct (side_cases m1 n) as [?|[-> | ->]]; [done|done|congruence].
  - rewrite Y13. eapply src_dom; [|apply (i_ip _ I)]. intros k. symmetry. apply DomS.
  - rewrite Y12, Y9. apply src_delete; [apply I|]. apply (i_vec _ I). eauto.
  - rewrite Y7, Y4, V5, V1. apply I.
  - rewrite Y8, Y6, (p_outer _ _ _ _ RR). apply I.
  - exists nx, pv, wt, wf, gp, kb.
    split; [exact Ee|].
    split; [exact Ef|].
    split; [exact Enx|].
    split; [exact Epv|].
    split; [exact Ewt|].
    split; [exact Ewf|].
    split; [exact Ewt'|].
    split; [exact Ewf'|].
    split; [exact Egp|].
    split; [exact Dn|].
    split; [exact Dab|].
    split; [exact Dma|].
    split; [exact Dmb|].
    split; [exact Y1|].
    split; [exact Y2|].
    split; [exact Y3|].
    split; [exact (eq_trans (f_equal (fmap parent) Y4) (eq_trans V5 V1))|].
    split; [exact (eq_trans (f_equal (fmap w_poly) Y4) (eq_trans V6 V2))|].
    split; [rewrite Y4; intros TL; apply V7, V3, TL|].
    split; [rewrite Y6; apply RR|].
    split; [rewrite Y5; apply RR|].
    split; [exact Y9|].
    split; [exact Y10|].
    split; [exact Mf|].
    split; [exact Zm|].
    exact Y11.
Qed.

Lemma good_unmid s mid e n m s' : good s -> vtx s !! (e, true) = Some mid -> vtx s !! (n, false) = Some mid ->
  (forall a b, vtx s !! (e, false) = Some a -> vtx s !! (n, true) = Some b -> p2s s !! (a, b) = None /\ p2s s !! (b, a) = None) ->
  join_segments mid e n s = (Ok m, s') -> good s'.
Proof.
  intros G Vem Vnm Pr H. assert (I := g_inv _ G). assert (TT := i_topo _ I).
  assert (Ia : is_Some (vtx s !! (e, false))). { apply (topo_dom_v _ _ _ _ TT). change (e, false) with (flip (e, true)). apply (t_flip _ _ _ TT), (topo_dom_v _ _ _ _ TT). eauto. }
  assert (Ib : is_Some (vtx s !! (n, true))). { apply (topo_dom_v _ _ _ _ TT). change (n, true) with (flip (n, false)). apply (t_flip _ _ _ TT), (topo_dom_v _ _ _ _ TT). eauto. }
  destruct Ia as [a Va], Ib as [b Vb]. destruct (Pr a b Va Vb) as [P1 P2].
  destruct (join_segments_eff mid e n s m s' a b I Vem Vnm Va Vb P1 P2 H) as (-> & I' & nx & pv & wt & wf & gp & kb & Ee & Ef & Et & Ep & Wt & Wf & Wt' & Wf' & Lg & Dn & Dab & Dma & Dmb &
    HV & HN & HW & HP & HL & HT & HO & HX & Hv & _ & _ & _ & _).
  assert (Vm := mid_two (vtx s) (nxt s) (wir s) e n TT mid Ee Ef Vnm).
  constructor.
  - done.
  - apply HT, G.
  - rewrite HP, HL, HO. apply G.
  - rewrite HP, HW. intros z Hz Dz. destruct (g_use _ G z Hz Dz) as [h Hh]. destruct (side_cases h n) as [D|[-> | ->]].
    + exists h. by rewrite dels_ne.
    + exists (e, true). rewrite dels_ne by done. congruence.
    + exists (e, false). rewrite dels_ne by done. congruence.
  - rewrite HO, HL, HW. intros x Hx. assert (X := g_conn _ G x Hx). revert X. apply (conn_map (fun z => z)). intros h y z A B. apply rtc_once.
    apply sides_some in A as (u & A1 & A2). apply sides_some in B as (u' & B1 & B2). destruct (side_cases h n) as [D|[-> | ->]].
    + exists h. split; apply sides_some; [exists u|exists u']; rewrite dels_ne; done.
    + exists (e, true). split; apply sides_some; [exists u|exists u']; rewrite dels_ne by done; [rewrite Wt'|rewrite flip_pair in *; cbn [negb] in *; rewrite Wf']; (split; [congruence|done]).
    + exists (e, false). split; apply sides_some; [exists u|exists u']; rewrite dels_ne by done; [rewrite Wf'|rewrite flip_pair in *; cbn [negb] in *; rewrite Wt']; (split; [congruence|done]).
  - rewrite HO, HP. assert (X := g_euler _ G).
    assert (Y : size (vec s) = S (size (vec s'))).
    { rewrite Hv. assert (L : is_Some (vec s !! n)) by (apply (i_vec _ I); eauto). rewrite (map_size_delete_Some _ _ L). assert (size (vec s) <> 0); [|lia]. intros Z. apply map_size_empty_inv in Z. destruct L as [d L]. by rewrite Z in L. }
    assert (Z : img (vtx s) = {[mid]} ∪ img (vtx s')); [|assert (N : mid ∉ img (vtx s')); [|rewrite Z, size_out in X by done; lia]].
    + rewrite HV. apply set_eq. intros x. rewrite elem_of_union, elem_of_singleton, !elem_of_img. unfold vu. split.
      * intros [h Hh]. destruct (decide (h = (e, true))) as [-> | D1]; [left; congruence|]. destruct (side_cases h n) as [D|[-> | ->]].
        -- right. exists h. rewrite lookup_insert_ne by done. by rewrite dels_ne.
        -- right. exists (e, true). rewrite lookup_insert. congruence.
        -- left. congruence.
      * intros [-> |[h Hh]]; [eauto|]. apply lookup_insert_Some in Hh as [[<- <-]|[D Hh]]; [eauto|]. destruct (side_cases h n) as [D2|[-> | ->]]; [|by rewrite dels_in in Hh..].
        rewrite dels_ne in Hh by done. eauto.
    + rewrite HV. apply img_notin. intros h Hh. unfold vu in Hh. apply lookup_insert_Some in Hh as [[<- ?]|[D Hh]]; [done|]. destruct (side_cases h n) as [D2|[-> | ->]]; [|by rewrite dels_in in Hh..].
      rewrite dels_ne in Hh by done. apply Vm in Hh as [-> | ->]; done.
Qed.
