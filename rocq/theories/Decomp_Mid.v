(** A point inside a segment: split_segment keeps the invariant. *)
From stdpp Require Import gmap list relations.
From Coq Require Import QArith.
From Verif Require Import Decomp_Model Decomp_Perm Decomp_Surgery Decomp_Eff Decomp_Tree Decomp_Inv Decomp_Add Decomp_Join.
Local Open Scope nat_scope.

(** * Links *)
Section Mid.
Context (v : gmap he nat) (f : gmap he he) (l : gmap he nat) (e n : nat).
Hypothesis T : topo v f l.
Hypothesis Fr : forall b, f !! (n, b) = None.
Context (nx pv : he) (b mid : nat).
Hypothesis Et : f !! (e, true) = Some nx.
Hypothesis Ep : f !! pv = Some (e, false).
Hypothesis Vb : v !! (e, true) = Some b.
Hypothesis Fm : forall h, v !! h <> Some mid.
Definition pv1 : he := if decide (pv = (e, true)) then (n, true) else pv.
Definition fm : gmap he he := swap (swap (both f n (n, false) (n, true)) (e, true) (n, true)) pv1 (n, false).

Lemma De : e <> n.
Proof. intros ->. by rewrite Fr in Et. Qed.
Lemma Dp : fst pv <> n.
Proof. intros D. destruct pv as [k s]. cbn in D. subst k. by rewrite Fr in Ep. Qed.
Lemma Dnx : fst nx <> n.
Proof. intros D. assert (I : is_Some (f !! nx)) by (by eapply (t_perm _ _ _ T)). destruct nx as [k s]. cbn in D. subst k. rewrite Fr in I. by destruct I. Qed.
Lemma tip_iff : pv = (e, true) <-> nx = (e, false).
Proof. split; [intros ->; congruence|]. intros ->. eapply (t_perm _ _ _ T); done. Qed.

Lemma f0_old h : fst h <> n -> both f n (n, false) (n, true) !! h = f !! h.
Proof. apply both_ne. Qed.
Lemma f1_e : swap (both f n (n, false) (n, true)) (e, true) (n, true) !! (e, true) = Some (n, true).
Proof. assert (D := De). eapply swap_l; [rewrite f0_old by done; exact Et|apply both_t]. Qed.
Lemma f1_n : swap (both f n (n, false) (n, true)) (e, true) (n, true) !! (n, true) = Some nx.
Proof. assert (D := De). eapply swap_r; [rewrite f0_old by done; exact Et|apply both_t]. Qed.
Lemma f1_nf : swap (both f n (n, false) (n, true)) (e, true) (n, true) !! (n, false) = Some (n, false).
Proof. assert (D := De). rewrite swap_ne; [apply both_f|congruence|done]. Qed.
Lemma f1_old h : fst h <> n -> h <> (e, true) -> swap (both f n (n, false) (n, true)) (e, true) (n, true) !! h = f !! h.
Proof. intros D1 D2. rewrite swap_ne; [by apply f0_old|done|]. by intros ->. Qed.
Lemma f1_pv1 : swap (both f n (n, false) (n, true)) (e, true) (n, true) !! pv1 = Some (e, false).
Proof.
  unfold pv1. destruct (decide (pv = (e, true))) as [D|D]; [rewrite f1_n; f_equal; by apply tip_iff|]. rewrite f1_old; [done|apply Dp|done].
Qed.
Lemma pv1_ne : pv1 <> (n, false) /\ pv1 <> (e, true).
Proof.
  unfold pv1. destruct (decide (pv = (e, true))) as [D|D]; [split; [done|]; assert (X := De); congruence|]. split; [|done].
  assert (X := Dp). by intros ->.
Qed.
Lemma fm_e : fm !! (e, true) = Some (n, true).
Proof. assert (D := De). destruct pv1_ne as [D1 D2]. unfold fm. rewrite swap_ne; [apply f1_e|congruence|congruence]. Qed.
Lemma fm_f : fm !! (n, false) = Some (e, false).
Proof. unfold fm. eapply swap_r; [apply f1_pv1|apply f1_nf]. Qed.
Lemma fm_p : fm !! pv1 = Some (n, false).
Proof. unfold fm. eapply swap_l; [apply f1_pv1|apply f1_nf]. Qed.
Lemma fm_t : pv <> (e, true) -> fm !! (n, true) = Some nx.
Proof.
  intros D. unfold fm. rewrite swap_ne; [apply f1_n| |done]. unfold pv1. rewrite decide_False by done. assert (X := Dp). by intros <-.
Qed.
Lemma fm_old h : fst h <> n -> h <> (e, true) -> h <> pv -> fm !! h = f !! h.
Proof.
  intros D1 D2 D3. unfold fm. rewrite swap_ne; [by apply f1_old| |by intros ->]. unfold pv1. destruct (decide (pv = (e, true))); [by intros ->|done].
Qed.

Lemma perm_f0 : perm (both f n (n, false) (n, true)).
Proof. unfold both. apply perm_new1; [apply perm_new1; [apply T|apply Fr]|]. rewrite lookup_insert_ne by done. apply Fr. Qed.
Lemma perm_fm : perm fm.
Proof. apply swap_perm, swap_perm, perm_f0. Qed.
Lemma flip_fm : closed_flip fm.
Proof.
  intros h. unfold fm. rewrite !swap_dom. destruct (side_cases h n) as [D|[-> | ->]]; [|rewrite flip_pair; cbn [negb]; rewrite both_f; eauto|rewrite flip_pair; cbn [negb]; rewrite both_t; eauto].
  assert (D' : fst (flip h) <> n) by (destruct h; done). rewrite !both_ne by done. apply T.
Qed.
Lemma labels_two (F : gmap he he) (L : gmap he nat) x y : perm F -> labels F L -> (forall s, F !! (n, s) = None) -> x <> y -> (forall h, L !! h <> Some x) -> (forall h, L !! h <> Some y) ->
  labels (both F n (n, false) (n, true)) (both L n x y).
Proof.
  intros P HL N D Fx Fy. unfold both. apply labels_new1; [by apply perm_new1| | |].
  - by apply labels_new1.
  - by rewrite lookup_insert_ne.
  - intros k E. apply lookup_insert_Some in E as [[_ ?]|[_ E]]; [done|]. by apply (Fy k).
Qed.
Lemma labels_fm w wf : l !! (e, true) = Some w -> l !! (e, false) = Some wf -> labels fm (both l n wf w).
Proof.
  intros Ew Ewf. assert (D := De).
  destruct (fresh_label l) as [z Fz]. destruct (fresh_label (both l n z z)) as [y Fy].
  assert (Fy' : forall h, l !! h <> Some y).
  { intros h E. destruct (side_cases h n) as [Dh|[-> | ->]]; [apply (Fy h); by rewrite both_ne|by rewrite (fresh_l _ _ _ _ T Fr) in E..]. }
  assert (Dzy : z <> y) by (intros ->; apply (Fy (n, true)), both_t).
  assert (L0 := labels_two f l z y (t_perm _ _ _ T) (t_wir _ _ _ T) Fr Dzy Fz Fy').
  assert (Wy : w <> y) by (intros ->; by apply (Fy' (e, true))).
  assert (Wz : w <> z) by (intros ->; by apply (Fz (e, true))).
  assert (Wfz : wf <> z) by (intros ->; by apply (Fz (e, false))).
  assert (L1 : labels (swap (both f n (n, false) (n, true)) (e, true) (n, true)) (both l n z w)).
  { eapply (labels_join _ _ _ (e, true) (n, true) w y); [apply perm_f0|exact L0|by rewrite both_ne|apply both_t|done|].
    intros h. destruct (side_cases h n) as [Dh|[-> | ->]].
    - rewrite !both_ne by done. destruct (l !! h) as [u|] eqn:E; [|done]. cbn. rewrite decide_False; [done|]. intros ->. by apply (Fy' h).
    - rewrite !both_t. cbn. by rewrite decide_True.
    - rewrite !both_f. cbn. by rewrite decide_False. }
  unfold fm. eapply (labels_join _ _ _ pv1 (n, false) wf z); [apply swap_perm, perm_f0|exact L1| |apply both_f|done|].
  - assert (Lp : l !! pv = Some wf) by (rewrite <- Ewf; symmetry; by apply (topo_lab _ _ _ _ _ T)).
    unfold pv1. destruct (decide (pv = (e, true))) as [-> | Dq]; [rewrite both_t; congruence|]. rewrite both_ne by apply Dp. done.
  - intros h. destruct (side_cases h n) as [Dh|[-> | ->]].
    + rewrite !both_ne by done. destruct (l !! h) as [u|] eqn:E; [|done]. cbn. rewrite decide_False; [done|]. intros ->. by apply (Fz h).
    + rewrite !both_t. cbn. by rewrite decide_False.
    + rewrite !both_f. cbn. by rewrite decide_True.
Qed.
(** The new point takes the end of the segment and the start of the new one. *)
Definition vm : gmap he nat := <[(e, true) := mid]> (both v n mid b).
Lemma rot_fm : rot fm = swap (swap (both (rot f) n (n, true) (n, false)) (e, true) (n, true)) pv1 (n, false).
Proof. unfold fm. rewrite !rot_swap. unfold both. by rewrite !rot_insert. Qed.
Lemma labels_fm_v : labels (rot fm) vm.
Proof.
  assert (D := De). assert (PR : perm (rot f)) by (apply perm_rot; apply T).
  assert (Nr : forall s, rot f !! (n, s) = None) by (intros s; by rewrite rot_lookup, Fr).
  assert (Fv := fresh_v _ _ _ _ T Fr).
  destruct (fresh_label v) as [z Fz]. destruct (fresh_label (both v n z z)) as [y Fy].
  assert (Fy' : forall h, v !! h <> Some y).
  { intros h E. destruct (side_cases h n) as [Dh|[-> | ->]]; [apply (Fy h); by rewrite both_ne|by rewrite Fv in E..]. }
  assert (Dzy : z <> y) by (intros ->; apply (Fy (n, true)), both_t).
  assert (L0 := labels_two (rot f) v z y PR (t_vtx _ _ _ T) Nr Dzy Fz Fy').
  assert (P0 : perm (both (rot f) n (n, false) (n, true))).
  { unfold both. apply perm_new1; [by apply perm_new1|]. by rewrite lookup_insert_ne. }
  assert (Q : both (rot f) n (n, true) (n, false) = swap (both (rot f) n (n, false) (n, true)) (n, false) (n, true)).
  { rewrite (swap_eq _ _ _ (n, false) (n, true)) by (apply both_f || apply both_t). apply map_eq. intros h.
    destruct (side_cases h n) as [Dh|[-> | ->]].
    - rewrite !lookup_insert_ne by (by intros <-). by rewrite !both_ne.
    - rewrite both_t, lookup_insert_ne, lookup_insert by done. done.
    - by rewrite both_f, lookup_insert. }
  assert (L1 : labels (both (rot f) n (n, true) (n, false)) (both v n z z)).
  { rewrite Q. eapply (labels_join _ _ _ (n, false) (n, true) z y); [exact P0|exact L0|apply both_f|apply both_t|done|].
    intros h. destruct (side_cases h n) as [Dh|[-> | ->]].
    - rewrite !both_ne by done. destruct (v !! h) as [u|] eqn:E; [|done]. cbn. rewrite decide_False; [done|]. intros ->. by apply (Fy' h).
    - rewrite !both_t. cbn. by rewrite decide_True.
    - rewrite !both_f. cbn. by rewrite decide_False. }
  assert (P1 : perm (both (rot f) n (n, true) (n, false))) by (rewrite Q; by apply swap_perm).
  assert (L2 : labels (swap (both (rot f) n (n, true) (n, false)) (e, true) (n, true)) (both v n b b)).
  { eapply (labels_join _ _ _ (e, true) (n, true) b z); [exact P1|exact L1|by rewrite both_ne|apply both_t|by intros ->; apply (Fz (e, true))|].
    intros h. destruct (side_cases h n) as [Dh|[-> | ->]].
    - rewrite !both_ne by done. destruct (v !! h) as [u|] eqn:E; [|done]. cbn. rewrite decide_False; [done|]. intros ->. by apply (Fz h).
    - rewrite !both_t. cbn. by rewrite decide_True.
    - rewrite !both_f. cbn. by rewrite decide_True. }
  assert (P2 : perm (swap (both (rot f) n (n, true) (n, false)) (e, true) (n, true))) by (by apply swap_perm).
  destruct pv1_ne as [D1 D2]. rewrite rot_fm.
  assert (Ge : rot fm !! (e, true) = Some (n, false)) by (apply rot_some; rewrite flip_pair; apply fm_e).
  assert (Gn : rot fm !! (n, false) = Some (e, true)) by (apply rot_some; rewrite flip_pair; apply fm_f).
  rewrite rot_fm in Ge, Gn.
  eapply (labels_cut _ (both v n b b) _ pv1 (n, false) b mid (fun h => h = (e, true) \/ h = (n, false))); [exact P2|exact L2| |apply both_f|done| | | | |].
  - assert (Lp : v !! pv = Some b).
    { assert (O := topo_org _ _ _ _ _ T Ep). rewrite flip_pair in O. cbn [negb] in O. congruence. }
    unfold pv1. destruct (decide (pv = (e, true))) as [-> | Dq]; [apply both_t|]. rewrite both_ne by apply Dp. done.
  - intros k E. destruct (side_cases k n) as [Dh|[-> | ->]]; [rewrite both_ne in E by done; by apply (Fm k)| |].
    + rewrite both_t in E. apply (Fm (e, true)). congruence.
    + rewrite both_f in E. apply (Fm (e, true)). congruence.
  - intros h. split.
    + intros [-> | ->]; [by apply reach_step|apply reach_refl].
    + intros R. assert (G : forall x, reach (swap (swap (both (rot f) n (n, true) (n, false)) (e, true) (n, true)) pv1 (n, false)) x h -> x = (e, true) \/ x = (n, false) -> h = (e, true) \/ h = (n, false));
        [|apply (G (n, false)); [done|by right]].
      clear R. intros x R. induction R as [|x k h S R IH]; [done|]. intros Hx. apply IH. unfold step in S.
      destruct Hx as [-> | ->]; [rewrite Ge in S|rewrite Gn in S]; injection S as <-; auto.
  - intros h [-> | ->]; unfold vm; [apply lookup_insert|]. rewrite lookup_insert_ne by congruence. apply both_f.
  - intros h Hh. unfold vm. rewrite lookup_insert_ne by (intros <-; apply Hh; by left).
    destruct (side_cases h n) as [Dh|[-> | ->]]; [by rewrite !both_ne|by rewrite !both_t|]. exfalso. apply Hh. by right.
  - intros h. destruct (decide (h = (e, true))); [auto|]. destruct (decide (h = (n, false))); [auto|]. right. tauto.
Qed.
Lemma topo_mid w wf : l !! (e, true) = Some w -> l !! (e, false) = Some wf -> topo vm fm (both l n wf w).
Proof.
  intros Ew Ewf. assert (D := De). constructor; [apply perm_fm|apply flip_fm|apply labels_fm_v|by apply labels_fm|].
  assert (Dmb : mid <> b) by (intros ->; by apply (Fm (e, true))).
  assert (Vn : forall h, h <> (e, true) -> fst h <> n -> vm !! h = v !! h).
  { intros h D1 D2. unfold vm. rewrite lookup_insert_ne by done. by rewrite both_ne. }
  assert (Ve : vm !! (e, true) = Some mid) by (apply lookup_insert).
  assert (Vt : vm !! (n, true) = Some b) by (unfold vm; rewrite lookup_insert_ne by congruence; apply both_t).
  assert (Vf : vm !! (n, false) = Some mid) by (unfold vm; rewrite lookup_insert_ne by congruence; apply both_f).
  intros h p E E2. destruct (side_cases h n) as [Dh|[-> | ->]]; [|rewrite flip_pair in E2; cbn in E2; congruence..].
  destruct (side_cases h e) as [De'|[-> | ->]].
  - assert (fst (flip h) <> n) by (destruct h; done). assert (flip h <> (e, true)) by (intros X; apply De'; by rewrite <- (flip_flip h), X).
    rewrite Vn in E, E2 by (done || by intros ->). by apply (t_loop _ _ _ T _ _ E).
  - rewrite flip_pair in E2. cbn [negb] in E2. rewrite Vn in E2 by done. apply (Fm (e, false)). congruence.
  - rewrite flip_pair in E2. cbn [negb] in E2. rewrite Vn in E by done. apply (Fm (e, false)). congruence.
Qed.
End Mid.

(** * split_segment *)
Lemma split_segment_eff e mid s i s' : inv s -> seg_of s !! mid = Some None -> split_segment e mid s = (Ok i, s') ->
  inv s' /\ exists nx pv a b wt wf xa xb xm kb,
    nxt s !! (e, true) = Some nx /\ nxt s !! pv = Some (e, false) /\ vtx s !! (e, false) = Some a /\ vtx s !! (e, true) = Some b /\
    wir s !! (e, true) = Some wt /\ wir s !! (e, false) = Some wf /\ vec s !! i = None /\ mid <> b /\ mid <> a /\
    xy_of s !! a = Some xa /\ xy_of s !! b = Some xb /\ xy_of s !! mid = Some xm /\
    vtx s' = vm (vtx s) e i b mid /\ nxt s' = fm (nxt s) e i pv /\ wir s' = both (wir s) i wf wt /\
    wires s' = wires s /\ outer_of s' = outer_of s /\ xy_of s' = xy_of s /\
    vec s' = <[e := vminus xm xa]> (<[i := vminus xb xm]> (vec s)) /\
    p2s s' = <[(mid, b) := i]> (<[(a, mid) := e]> (delete (a, b) (p2s s))) /\
    seg_of s' = <[mid := Some (i, false)]> (<[b := Some kb]> (seg_of s)) /\ last_change s' = last_change s.
Proof.
  intros I Mm H. unfold split_segment in H. assert (TT := i_topo _ I).
  bnd H as bi s1 E. assert (K0 : s1 = s /\ exists nx, nxt s !! (e, true) = Some nx /\
    match bi with None => fst nx = e | Some (pv, nx', w) => fst nx <> e /\ nx' = nx /\ wir s !! (e, true) = Some w /\ nxt s !! pv = Some (e, false) end).
  { unfold vtx_insert_info in E. rd E as nx Enx. destruct (decide (fst nx = fst (e, true))) as [D|D].
    - apply ret_inv in E as [-> ->]. eauto.
    - rd E as w Ew. bnd E as pv s2 E1. apply previous_inv in E1 as [-> E1]. apply ret_inv in E as [-> ->]. split; [done|]. exists nx. done. }
  destruct K0 as (-> & nx & Enx & Bi). clear E.
  rd H as wf Ewf.
  bnd H as y1 s1 E. apply disconnect_vtx_inv in E as (b & u1 & s2 & pv & Eb & E & Epv & ->).
  assert (Fm : forall h, vtx s !! h <> Some mid) by (intros h; by apply (i_pts _ I)).
  destruct (has_seg _ _ _ I Eb) as [k0 Mb].
  assert (Dmb : mid <> b) by (intros ->; congruence).
  assert (K1 : exists ob, (match ob with Some k => vtx s !! k = Some b /\ fst k <> e | None => forall x, vtx s !! x = Some b -> x = (e, true) end) /\ pp s s2 (<[b := ob]> (seg_of s))).
  { apply (rm_segment_pp _ _ _ _ _ k0 (vtx s)) in E as [(k & K1 & K2 & K3)|(K1 & _ & K3)].
    - exists (Some k). done.
    - by exists None.
    - apply perm_rot; apply TT.
    - apply TT.
    - done.
    - by apply (i_pts _ I).
    - intros x Vx Fx. destruct (same_seg x (e, true) Fx) as [-> | ->]; [done|]. rewrite flip_pair in Vx. cbn [negb] in Vx.
      exfalso. apply (t_loop _ _ _ TT _ _ Eb). by rewrite flip_pair. }
  destruct K1 as (ob & Ob & K1). apply pp_open in K1 as (P1 & G1 & -> & R1 & M1). clear E. fld in *. rewrite flip_pair in Epv. cbn [negb] in Epv.
  rd H as a Ea. rd H as b' Eb'. fld in *. replace b' with b in * by congruence. clear b' Eb'.
  assert (Dma : mid <> a) by (intros ->; by apply (Fm (e, false))).
  assert (Dab : a <> b) by (intros ->; by apply (t_loop _ _ _ TT _ _ Ea)).
  bnd H as e' s1 E. apply need_inv in E as [Ee' ->]. fld in *. up H.
  bnd H as i' s1 E. apply make_segment_eff in E as (_ & xm & xb & c & P2 & G2 & Xm & Xb & Ni & R2 & M2 & ->). fld in *.
  up H. bnd H as y2 s1 E. rd E as zm Zm. rd E as za Za. fld in *. apply upd_inv in E. subst s1.
  bnd H as y3 s1 E. apply connect_vtx_eff in E as (p3 & P3 & G3 & V3 & _ & R3 & M3 & ->). fld in *.
  assert (Fi : vec s !! i' = None) by (eapply (src_insert _ _ _ _ (0, 0)%Q (i_is _ I)); exact Ni).
  assert (Fn := fresh_nxt _ _ I Fi). assert (Fv := fresh_v _ _ _ _ TT Fn).
  assert (De : e <> i') by (intros ->; by rewrite Fn in Enx).
  assert (p3 = mid) as ->. { rewrite lookup_insert_ne, both_f in V3 by congruence. congruence. }
  assert (Im : is_Some (wir s !! (e, true))) by (apply (topo_dom_l _ _ _ _ TT); eauto). destruct Im as [wt Ewt].
  (* segments of the points *)
  assert (M2' : p_seg <$> P2 = <[mid := Some (i', false)]> (<[b := Some (default (i', true) ob)]> (seg_of s))).
  { rewrite M2, M1. unfold jn at 2. rewrite lookup_insert_ne by done. rewrite Mm. unfold jn. rewrite lookup_insert_ne, lookup_insert by done.
    destruct ob as [k|]; [done|]. cbn. rewrite (insert_commute _ b mid) by done. by rewrite insert_insert. }
  assert (M3' : p_seg <$> P3 = p_seg <$> P2).
  { rewrite M3. eapply jn_id. rewrite M2', lookup_insert. done. }
  bnd H as y4 s9 E. apply ret_inv in H as [-> ->].
  match type of E with _ ?s0 = _ => set (sB := s0) in * end.
  assert (X1 : vtx sB = vm (vtx s) e i' b mid) by reflexivity.
  assert (X2 : nxt sB = <[(e, true) := (i', true)]> (<[(i', false) := (e, false)]> (swap (nxt s) (e, true) pv))) by reflexivity.
  assert (X3 : wir sB = <[(i', false) := wf]> (wir s)) by reflexivity.
  assert (X4 : wires sB = wires s) by reflexivity.
  assert (X5 : points sB = P3) by reflexivity.
  assert (X6 : polys sB = G3) by reflexivity.
  assert (X7 : iw sB = iw s) by reflexivity.
  assert (X8 : ig sB = ig s) by reflexivity.
  assert (X9 : vec sB = <[e := vminus (xy zm) (xy za)]> (<[i' := vminus xb xm]> (vec s))) by reflexivity.
  assert (X10 : p2s sB = <[(mid, b) := i']> (<[(a, mid) := e]> (delete (a, b) (p2s s)))) by reflexivity.
  assert (X11 : last_change sB = last_change s) by reflexivity.
  assert (X12 : is_ sB = c) by reflexivity.
  assert (X13 : ip sB = ip s) by reflexivity.
  clearbody sB.
  assert (Vt : vtx sB !! (i', true) = Some b).
  { rewrite X1. unfold vm. rewrite lookup_insert_ne by congruence. apply both_t. }
  assert (Xxm : xy zm = xm).
  { assert (Y : (xy <$> P2) !! mid = Some (xy zm)) by (by rewrite lookup_fmap, Zm). rewrite (p_xy _ _ _ _ R2) in Y. congruence. }
  assert (Xa : xy_of s !! a = Some (xy za)).
  { rewrite <- (p_xy _ _ _ _ R1), <- (p_xy _ _ _ _ R2). by rewrite lookup_fmap, Za. }
  rewrite (p_xy _ _ _ _ R1) in Xm, Xb.
  assert (K2 : exists P G L, s9 = set_wir L (set_nxt (fm (nxt s) e i' pv) (set_polys G (set_points P sB))) /\ ppr P3 G3 P G /\ p_seg <$> P = p_seg <$> P3 /\
     L = both (wir s) i' wf wt).
  { assert (Mb' : (p_seg <$> P3) !! b = Some (Some (default (i', true) ob))).
    { rewrite M3', M2'. rewrite lookup_insert_ne by done. by rewrite lookup_insert. }
    destruct bi as [[[pv' nx'] w]|].
    - destruct Bi as (Dn & -> & Ew & Ep'). assert (pv' = pv) as -> by (eapply (t_perm _ _ _ TT); done).
      apply connect_vtx_eff in E as (p4 & P4 & G4 & V4 & _ & R4 & M4 & ->).
      rewrite Vt in V4. injection V4 as <-. rewrite X5, X6 in R4. rewrite X5 in M4. rewrite (jn_id _ _ _ _ Mb') in M4.
      exists P4, G4, (<[(i', true) := w]> (wir sB)). split; [|split; [done|split; [done|rewrite X3; by replace w with wt by congruence]]].
      f_equal. f_equal. rewrite X2. rewrite flip_pair. cbn [negb].
      assert (Dpv : pv <> (e, true)). { intros ->. rewrite Enx in Epv. injection Epv as ->. done. }
      assert (Dpn := Dp _ _ _ Fn _ Epv).
      apply map_eq. intros h. destruct (decide (h = pv)) as [-> | D1].
      { rewrite lookup_insert. symmetry. rewrite <- (fm_p _ _ _ _ _ TT Fn _ _ _ Enx Epv Eb) at 1. f_equal. unfold pv1. by rewrite decide_False. }
      rewrite lookup_insert_ne by done. destruct (side_cases h i') as [D2|[-> | ->]].
      + rewrite lookup_insert_ne by (by intros <-). destruct (decide (h = (e, true))) as [-> | D3].
        * rewrite lookup_insert. symmetry. exact (fm_e _ _ _ _ Fn _ _ _ Enx Epv Eb).
        * rewrite lookup_insert_ne by done. rewrite lookup_insert_ne by (by intros <-). rewrite swap_ne by done. symmetry. by apply fm_old.
      + rewrite lookup_insert. symmetry. exact (fm_t _ _ _ _ Fn _ _ _ Enx Epv Eb Dpv).
      + rewrite lookup_insert_ne by done. rewrite lookup_insert_ne by congruence. rewrite lookup_insert. symmetry. exact (fm_f _ _ _ _ _ TT Fn _ _ _ Enx Epv Eb).
    - bnd E as d s1 E1. apply is_dendrite_inv in E1 as (-> & wa & wb & W1 & W2 & ->). chk E as C. apply bool_decide_eq_true in C. subst wb.
      rd E as w Ew. rewrite X3 in W1, W2, Ew. rewrite lookup_insert_ne in W1, W2, Ew by congruence.
      apply connect_free_vtx_eff in E as (p4 & P4 & G4 & V4 & _ & R4 & M4 & ->).
      rewrite Vt in V4. injection V4 as <-. rewrite X5, X6 in R4. rewrite X5 in M4. rewrite (jn_id _ _ _ _ Mb') in M4.
      exists P4, G4, (<[(i', true) := w]> (wir sB)). split; [|split; [done|split; [done|rewrite X3; by replace w with wt by congruence]]].
      assert (nx = (e, false)) as ->.
      { destruct (side_cases nx e) as [?|[-> | ->]]; [done| |done]. exfalso.
        assert (O := topo_org _ _ _ _ _ TT Enx). rewrite flip_pair in O. cbn [negb] in O. congruence. }
      assert (pv = (e, true)) as -> by (eapply (t_perm _ _ _ TT); done).
      f_equal. f_equal. rewrite X2. rewrite flip_pair. cbn [negb].
      apply map_eq. intros h. destruct (side_cases h i') as [D2|[-> | ->]].
      + rewrite lookup_insert_ne by (by intros <-). destruct (decide (h = (e, true))) as [-> | D3].
        * rewrite lookup_insert. symmetry. exact (fm_e _ _ _ _ Fn _ _ _ Enx Epv Eb).
        * rewrite lookup_insert_ne by done. rewrite lookup_insert_ne by (by intros <-). rewrite swap_ne by done. symmetry. by apply fm_old.
      + rewrite lookup_insert. symmetry. rewrite <- (fm_p _ _ _ _ _ TT Fn _ _ _ Enx Epv Eb) at 1. f_equal. unfold pv1. by rewrite decide_True.
      + rewrite lookup_insert_ne by done. rewrite lookup_insert_ne by congruence. rewrite lookup_insert. symmetry. exact (fm_f _ _ _ _ _ TT Fn _ _ _ Enx Epv Eb). }
  destruct K2 as (P & G & L & -> & R & M & ->). clear E.
  match goal with |- inv ?s1 /\ _ => set (s' := s1) end.
  assert (Y1 : vtx s' = vm (vtx s) e i' b mid) by exact X1.
  assert (Y4 : wires s' = wires s) by exact X4.
  assert (Y7 : iw s' = iw s) by exact X7.
  assert (Y8 : ig s' = ig s) by exact X8.
  assert (Y9 : vec s' = <[e := vminus xm (xy za)]> (<[i' := vminus xb xm]> (vec s))) by (rewrite <- Xxm at 1; exact X9).
  assert (Y10 : p2s s' = <[(mid, b) := i']> (<[(a, mid) := e]> (delete (a, b) (p2s s)))) by exact X10.
  assert (Y11 : last_change s' = last_change s) by exact X11.
  assert (Y12 : is_ s' = c) by exact X12.
  assert (Y13 : ip s' = ip s) by exact X13.
  assert (Y2 : nxt s' = fm (nxt s) e i' pv) by reflexivity.
  assert (Y3 : wir s' = both (wir s) i' wf wt) by reflexivity.
  assert (Y5 : points s' = P) by reflexivity.
  assert (Y6 : polys s' = G) by reflexivity.
  clearbody s'. clear X1 X2 X3 X4 X5 X6 X7 X8 X9 X10 X11 X12 X13.
  assert (RR : ppr (points s) (polys s) P G) by (eapply ppr_trans; [exact R1|]; eapply ppr_trans; [exact R2|]; by eapply ppr_trans).
  set (kb := default (i', true) ob) in *.
  assert (Mf : seg_of s' = <[mid := Some (i', false)]> (<[b := Some kb]> (seg_of s))) by (by rewrite Y5, M, M3').
  assert (Vn : forall h, h <> (e, true) -> fst h <> i' -> vm (vtx s) e i' b mid !! h = vtx s !! h).
  { intros h D1 D2. unfold vm. rewrite lookup_insert_ne by done. by rewrite both_ne. }
  assert (Ve : vm (vtx s) e i' b mid !! (e, true) = Some mid) by (apply lookup_insert).
  assert (Vt' : vm (vtx s) e i' b mid !! (i', true) = Some b) by (unfold vm; rewrite lookup_insert_ne by congruence; apply both_t).
  assert (Vf : vm (vtx s) e i' b mid !! (i', false) = Some mid) by (unfold vm; rewrite lookup_insert_ne by congruence; apply both_f).
  assert (Old : forall h p, vtx s !! h = Some p -> fst h <> i'). { intros h p Eh Dh. destruct h as [x y]. cbn in Dh. subst x. by rewrite Fv in Eh. }
  assert (Vc : forall h p, vm (vtx s) e i' b mid !! h = Some p -> (h = (e, true) /\ p = mid) \/ (h = (i', false) /\ p = mid) \/ (h = (i', true) /\ p = b) \/ (h <> (e, true) /\ fst h <> i' /\ vtx s !! h = Some p)).
  { intros h p Eh. destruct (decide (h = (e, true))) as [-> | D1]; [left; split; congruence|]. destruct (side_cases h i') as [D2|[-> | ->]].
    - rewrite Vn in Eh by done. right. right. right. done.
    - rewrite Vt' in Eh. right. right. left. split; congruence.
    - rewrite Vf in Eh. right. left. split; congruence. }
  destruct (i_pts _ I) as (Q1 & Q2 & Q3).
  assert (DomS : forall k, is_Some (seg_of s' !! k) <-> is_Some (seg_of s !! k)).
  { intros k. rewrite Mf, <- !live_insert. split; [intros [-> | [-> | ?]]; eauto|auto]. }
  split; [constructor|].
  - rewrite Y1, Y2, Y3. apply (topo_mid (vtx s) (nxt s) (wir s) e i' TT Fn nx pv b mid Enx Epv Eb Fm wt wf Ewt Ewf).
  - rewrite Y1, Mf. split; [|split].
    + intros p h Eh. destruct (decide (p = mid)) as [-> | D1]; [rewrite lookup_insert in Eh; congruence|]. rewrite lookup_insert_ne in Eh by done.
      destruct (decide (p = b)) as [-> | D2].
      * rewrite lookup_insert in Eh. injection Eh as <-. subst kb. destruct ob as [k|]; cbn; [|done]. destruct Ob as [O1 O2]. rewrite Vn; [done|by intros ->|by eapply Old].
      * rewrite lookup_insert_ne in Eh by done. apply Q1 in Eh. rewrite Vn; [done|intros ->; congruence|by eapply Old].
    + intros p h Eh E2. destruct (decide (p = mid)) as [-> | D1]; [rewrite lookup_insert in Eh; congruence|]. rewrite lookup_insert_ne in Eh by done.
      destruct (decide (p = b)) as [-> | D2]; [rewrite lookup_insert in Eh; congruence|]. rewrite lookup_insert_ne in Eh by done.
      apply Vc in E2 as [[_ ?]|[[_ ?]|[[_ ?]|(_ & _ & E2)]]]; [done..|]. by apply (Q2 p h).
    + intros h p Eh. rewrite <- !live_insert. apply Vc in Eh as [[_ ->]|[[_ ->]|[[_ ->]|(_ & _ & E2)]]]; [auto..|]. right. right. by eapply Q3.
  - rewrite Y5, Y6. apply RR, I.
  - intros k. rewrite Y9, Y1. rewrite <- !live_insert, (i_vec _ I). split.
    + intros [-> | [-> | Hk]]; [|rewrite Vf; eauto|].
      * rewrite Vn by done. eauto.
      * destruct Hk as [p Hk]. rewrite Vn; [eauto|done|by eapply Old].
    + intros [p Hk]. apply Vc in Hk as [[? _]|[[Hk _]|[[? _]|(_ & _ & E2)]]]; [done| |done|right; right; eauto]. injection Hk as ->. auto.
  - rewrite Y1, Y10. destruct (i_pair _ I) as [J1 J2].
    assert (Pm : forall x k, p2s s !! (x, mid) = Some k -> False) by (intros x k Hk; apply J1 in Hk as [_ Hk]; by apply (Fm (k, true))).
    assert (Pm' : forall x k, p2s s !! (mid, x) = Some k -> False) by (intros x k Hk; apply J1 in Hk as [Hk _]; by apply (Fm (k, false))).
    assert (Eab : p2s s !! (a, b) = Some e) by (by apply J1).
    assert (Sub : forall x y k, <[(mid, b) := i']> (<[(a, mid) := e]> (delete (a, b) (p2s s))) !! (x, y) = Some k <->
       ((x, y) = (mid, b) /\ k = i') \/ ((x, y) = (a, mid) /\ k = e) \/ ((x, y) <> (a, b) /\ p2s s !! (x, y) = Some k)).
    { intros x y k. rewrite lookup_insert_Some, lookup_insert_Some, lookup_delete_Some. split.
      - intros [[? ?]|[D1 [[? ?]|[D2 [D3 D4]]]]]; [left; split; congruence|right; left; split; congruence|right; right; split; [congruence|done]].
      - intros [[-> ->]|[[Hx ->]|[D1 D2]]]; [by left| |].
        + injection Hx as -> ->. right. split; [congruence|]. left. done.
        + right. split; [intros [= <- <-]; by apply (Pm' _ _ D2)|]. right. split; [intros [= <- <-]; by apply (Pm _ _ D2)|]. split; [congruence|done]. }
    split.
    + intros x y k. rewrite Sub. split.
      * intros [[Hx ->]|[[Hx ->]|[D1 D2]]].
        { injection Hx as -> ->. done. }
        { injection Hx as -> ->. split; [|done]. by rewrite Vn. }
        { apply J1 in D2 as [D2 D3]. split; [rewrite Vn; [done|done|by eapply Old]|]. rewrite Vn; [done| |by eapply Old]. intros [= ->]. congruence. }
      * intros [Z1 Z2]. apply Vc in Z1 as [[? _]|[[Z1 ->]|[[? _]|(_ & D1 & Z1)]]]; [done| |done|].
        { injection Z1 as ->. left. split; [|done]. congruence. }
        { apply Vc in Z2 as [[Z2 ->]|[[? _]|[[Z2 ->]|(D3 & _ & Z2)]]]; [|done| |].
          - injection Z2 as ->. right. left. split; [congruence|done].
          - injection Z2 as ->. by rewrite Fv in Z1.
          - right. right. split; [|by apply J1]. intros [= -> ->]. assert (Y : p2s s !! (a, b) = Some k) by (by apply J1). congruence. }
    + intros x y k Hx. apply eq_None_not_Some. intros [k' Hk']. apply Sub in Hx, Hk'.
      destruct Hx as [[Hx ->]|[[Hx ->]|[D1 D2]]]; [injection Hx as -> ->|injection Hx as -> ->|].
      * destruct Hk' as [[Hk' _]|[[Hk' _]|[_ D2]]]; [congruence|congruence|by apply (Pm _ _ D2)].
      * destruct Hk' as [[Hk' _]|[[Hk' _]|[_ D2]]]; [congruence|congruence|by apply (Pm' _ _ D2)].
      * destruct Hk' as [[Hk' _]|[[Hk' _]|[_ D3]]]; [injection Hk' as -> ->; by apply (Pm _ _ D2)|injection Hk' as -> ->; by apply (Pm' _ _ D2)|].
        apply J2 in D2. congruence.
  - intros h w. rewrite Y3, Y4. intros Eh. destruct (side_cases h i') as [D2|[-> | ->]].
    + rewrite both_ne in Eh by done. by apply (i_live _ I h).
    + rewrite both_t in Eh. apply (i_live _ I (e, true)). congruence.
    + rewrite both_f in Eh. apply (i_live _ I (e, false)). congruence.
  - intros h w. rewrite Y3, Y4. intros Eh.
    assert (W : exists h', wir s !! h' = Some w).
    { destruct (side_cases h i') as [D2|[-> | ->]]; [rewrite both_ne in Eh by done; eauto|rewrite both_t in Eh; exists (e, true); congruence|rewrite both_f in Eh; exists (e, false); congruence]. }
    destruct W as [h' W]. destruct (i_seg _ I _ _ W) as (m & N1 & N2). exists m. split; [done|]. rewrite both_ne; [done|]. by apply (old_side _ _ _ _ I Fi N2).
  - rewrite Y13. eapply src_dom; [|apply (i_ip _ I)]. intros k. symmetry. apply DomS.
  - rewrite Y12, Y9. destruct (src_insert _ _ _ _ (vminus xb xm) (i_is _ I) Ni) as [_ Sn]. eapply src_ext; [|exact Sn].
    intros k. rewrite <- !live_insert. split; [auto|]. intros [-> | ?]; [|done]. right. apply (i_vec _ I). eauto.
  - rewrite Y7, Y4. apply I.
  - rewrite Y8, Y6, (p_outer _ _ _ _ RR). apply I.
  - exists nx, pv, a, b, wt, wf, (xy za), xb, xm, kb. split; [done|]. split; [done|]. split; [done|]. split; [done|]. split; [done|]. split; [done|]. split; [done|].
    split; [done|]. split; [done|]. split; [done|]. split; [done|]. split; [done|]. split; [done|]. split; [done|]. split; [done|]. split; [done|].
    split; [rewrite Y6; apply RR|]. split; [rewrite Y5; apply RR|]. split; [done|]. split; [done|]. split; [done|]. done.
Qed.
