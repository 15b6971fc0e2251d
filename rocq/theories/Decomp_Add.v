(** Adding points and segments keeps the invariant. *)
From stdpp Require Import gmap list relations.
From Coq Require Import QArith.
From Verif Require Import Decomp_Model Decomp_Perm Decomp_Surgery Decomp_Eff Decomp_Tree Decomp_Inv.
Local Open Scope nat_scope.

Lemma fresh_nxt s g : inv s -> vec s !! g = None -> forall b, nxt s !! (g, b) = None.
Proof.
  intros I E b. apply eq_None_not_Some. intros H.
  assert (F : is_Some (nxt s !! (g, false))).
  { destruct b; [|done]. apply (t_flip _ _ _ (i_topo _ I)) in H. done. }
  apply (topo_dom_v _ _ _ _ (i_topo _ I)), (i_vec _ I) in F. rewrite E in F. by destruct F.
Qed.
Lemma seg_dom s p : is_Some (seg_of s !! p) <-> is_Some (xy_of s !! p).
Proof. rewrite !lookup_fmap, !fmap_is_Some. done. Qed.

(** What all new segments have in common. *)
Lemma add_common s s' g a b c d : inv s -> a <> b -> is_Some (seg_of s !! a) -> is_Some (seg_of s !! b) ->
  p2s s !! (a, b) = None -> p2s s !! (b, a) = None -> new_id (is_ s) = (g, c) ->
  vtx s' = both (vtx s) g a b -> is_ s' = c -> ip s' = ip s -> vec s' = <[g := d]> (vec s) -> p2s s' = <[(a, b) := g]> (p2s s) ->
  seg_of s' = jn b (g, true) (jn a (g, false) (seg_of s)) ->
  vec s !! g = None /\ pts_ok (seg_of s') (vtx s') /\ (forall g, is_Some (vec s' !! g) <-> is_Some (vtx s' !! (g, false))) /\
  pairs (vtx s') (p2s s') /\ src_ok (is_ s') (fun i => is_Some (vec s' !! i)) /\ src_ok (ip s') (fun i => is_Some (seg_of s' !! i)).
Proof.
  intros I D Ma Mb E1 E2 En Hv Hc Hi Hd Hp HM. destruct (src_insert _ _ _ _ d (i_is _ I) En) as [N S].
  assert (Fn := fresh_nxt _ _ I N). assert (Fv : forall b, vtx s !! (g, b) = None) by (intros b'; by eapply fresh_v; [apply I|]).
  split; [done|]. rewrite Hv, Hc, Hi, Hd, Hp, HM. split; [|split; [|split; [|split]]].
  - apply pts_new; try done. apply I.
  - intros k. rewrite <- live_insert, (i_vec _ I). destruct (decide (k = g)) as [-> | Dk].
    + rewrite both_f. split; eauto.
    + rewrite both_ne by done. split; [intros [? | ?]; done|tauto].
  - apply pairs_new; try done. apply I.
  - done.
  - eapply src_dom; [|apply (i_ip _ I)]. intros k. by rewrite !jn_dom.
Qed.

Lemma label_fresh s w : inv s -> par_of s !! w = None -> forall h, wir s !! h <> Some w.
Proof. intros I N h E. apply (i_live _ I) in E as [q E]. congruence. Qed.

Lemma old_side s g h w : inv s -> vec s !! g = None -> wir s !! h = Some w -> fst h <> g.
Proof.
  intros I N E Eh. assert (is_Some (nxt s !! h)) as [k Ek] by (apply (topo_dom_l _ _ _ _ (i_topo _ I)); eauto).
  destruct h as [h b]. cbn in Eh. subst h. by rewrite (fresh_nxt _ _ I N) in Ek.
Qed.

(** A new wire of one segment. *)
Lemma new_wire_op_eff g a b s i s' : inv s -> seg_of s !! a = Some None -> seg_of s !! b = Some None ->
  p2s s !! (a, b) = None -> p2s s !! (b, a) = None -> new_wire_op g a b s = (Ok i, s') ->
  inv s' /\ exists w q, par_of s !! w = None /\ outer_of s !! g = Some q /\ (q = w \/ is_Some (par_of s !! q)) /\
    par_of s' = <[w := Some q]> (par_of s) /\ pol_of s' = <[w := Some g]> (pol_of s) /\ outer_of s' = outer_of s /\
    ((forall c, par_of s !! c <> Some (Some w)) -> tl ∅ (wires s) -> tl ∅ (wires s')) /\
    a <> b /\ vec s !! i = None /\ vtx s' = both (vtx s) i a b /\ xy_of s' = xy_of s /\
    nxt s' = iso (nxt s) i /\ wir s' = both (wir s) i w w /\
    seg_of s' = jn b (i, true) (jn a (i, false) (seg_of s)) /\ last_change s' = last_change s /\
    (exists x y, xy_of s !! a = Some x /\ xy_of s !! b = Some y /\ vec s' = <[i := vminus y x]> (vec s)) /\
    p2s s' = <[(a, b) := i]> (p2s s).
Proof.
  intros I Ma Mb E1 E2 H. unfold new_wire_op in H.
  bnd H as w s1 E. apply new_wire_inv in E as (cw & W1 & Nw & -> & PV1 & GV1 & SV1 & T1).
  destruct (src_insert _ _ _ _ (Some w) (i_iw _ I) Nw) as [Fw Sw].
  bnd H as u1 s1 E. apply put_wire_poly_inv in E as (W2 & -> & PV2 & GV2 & SV2 & _ & T2).
  rd H as x Ex. fld in *. bnd H as u2 s1 E. apply set_parent_inv in E as (W3 & -> & PV3 & GV3 & SV3 & _ & Q3 & T3). fld in *.
  bnd H as i' s1 E. apply make_segment_eff in E as (D & xa & xb & c & P1 & G1 & Ea & Eb & Ni & R1 & M1 & ->). fld in *.
  bnd H as u3 s1 E. apply connect_free_vtx_eff in E as (p & P2 & G2 & V2 & _ & R2 & M2 & ->). fld in *.
  bnd H as u4 s1 E. apply connect_free_vtx_eff in E as (p3 & P3 & G3 & V3 & _ & R3 & M3 & ->). fld in *.
  bnd H as u5 s1 E. apply put_wire_seg_inv in E as (W4 & -> & PV4 & GV4 & SV4 & _ & T4). fld in *.
  apply ret_inv in H as [-> ->]. fld in *.
  rewrite both_f in V2. injection V2 as <-. rewrite both_t in V3. injection V3 as <-.
  assert (Xa : jn b (i', true) (jn a (i', false) (seg_of s)) !! a = Some (Some (i', false))) by (rewrite jn_other by done; by rewrite (jn_here _ _ _ None)).
  assert (Xb : jn b (i', true) (jn a (i', false) (seg_of s)) !! b = Some (Some (i', true))) by (rewrite (jn_here _ _ _ None); [done|by rewrite jn_other]).
  rewrite M1 in M2. rewrite (jn_id _ _ _ _ Xa) in M2. rewrite M2 in M3. rewrite (jn_id _ _ _ _ Xb) in M3.
  assert (R : ppr (points s) (polys s) P3 G3) by (eapply ppr_trans; [exact R1|]; by eapply ppr_trans).
  assert (PV : parent <$> W4 = <[w := Some (outer x)]> (par_of s)) by (by rewrite PV4, PV3, PV2, PV1, insert_insert).
  assert (GV : w_poly <$> W4 = <[w := Some g]> (pol_of s)) by (by rewrite GV4, GV3, GV2, GV1, insert_insert).
  assert (SV : w_seg <$> W4 = <[w := Some (i', false)]> (sg_of s)) by (by rewrite SV4, SV3, SV2, SV1, insert_insert).
  assert (AC := add_common s (St P3 (both (vtx s) i' a b) (<[(i', true):=flip (i', true)]> (<[(i', false):=flip (i', false)]> (nxt s)))
    (<[(i', true):=w]> (<[(i', false):=w]> (wir s))) (<[i':=vminus xb xa]> (vec s)) (<[(a, b):=i']> (p2s s)) W4 G3 (ip s) c cw (ig s) (last_change s))
    i' a b c _ I D (mk_is_Some _ _ Ma) (mk_is_Some _ _ Mb) E1 E2 Ni eq_refl eq_refl eq_refl eq_refl eq_refl M3).
  fld in AC. destruct AC as (Fi & C1 & C2 & C3 & C4 & C5).
  assert (Lf := label_fresh _ _ I Fw).
  split; [constructor; fld; try done|].
  - apply (topo_alone _ _ _ _ (i_topo _ I) (fresh_nxt _ _ I Fi) a b w D); [| |done]; intros h; by apply (i_pts _ I).
  - apply R, I.
  - intros h k. rewrite PV. intros Eh. fold (both (wir s) i' w w) in Eh.
    destruct (side_cases h i') as [Dh|[-> | ->]]; [|rewrite both_t in Eh|rewrite both_f in Eh].
    + rewrite both_ne in Eh by done. destruct (i_live _ I _ _ Eh) as [q Eq]. exists q. rewrite lookup_insert_ne; [done|]. intros <-. congruence.
    + injection Eh as <-. rewrite lookup_insert. eauto.
    + injection Eh as <-. rewrite lookup_insert. eauto.
  - intros j k. rewrite SV. fold (both (wir s) i' w w). intros Ek. destruct (decide (k = w)) as [-> | Dk].
    + exists (i', false). rewrite lookup_insert, both_f. done.
    + rewrite lookup_insert_ne by done. assert (Ej : wir s !! j = Some k).
      { destruct (side_cases j i') as [Dj|[-> | ->]]; [by rewrite both_ne in Ek|rewrite both_t in Ek; congruence|rewrite both_f in Ek; congruence]. }
      destruct (i_seg _ I _ _ Ej) as (h & H1 & H2). exists h. split; [done|]. rewrite both_ne; [done|]. by apply (old_side _ _ _ _ I Fi H2).
  - rewrite PV. eapply src_ext; [|exact Sw]. intros j. by rewrite <- !live_insert.
  - eapply src_dom; [|apply (i_ig _ I)]. intros j. by rewrite (p_outer _ _ _ _ R).
  - exists w, (outer x). split; [done|]. split; [by rewrite lookup_fmap, Ex|].
    split. { destruct (Q3 _ eq_refl) as [z Z]. assert (Hq : is_Some (<[w := Some w]> (par_of s) !! outer x)).
      { rewrite <- PV1, <- PV2, lookup_fmap, Z. eauto. } apply live_insert in Hq. tauto. }
    split; [done|]. split; [done|]. split; [apply R|].
    split. { intros NP T. apply T4, T3, T2, T1; [|done|done]. rewrite lookup_fmap in Fw. by destruct (wires s !! w). }
    split; [done|]. split; [done|]. split; [done|]. split; [apply R|]. split; [done|]. split; [done|]. split; [done|]. split; [done|]. split; [eauto 10|done].
Qed.

(** A segment from a wire to a free point. *)
Lemma add_dendrite_eff (a b : nat) prev next w (root : bool) s i s' : inv s -> seg_of s !! (if root then a else b) = Some None ->
  fits s (if root then b else a) (prev, next, w) ->
  p2s s !! (a, b) = None -> p2s s !! (b, a) = None -> add_dendrite a b (prev, next, w) root s = (Ok i, s') ->
  inv s' /\ wires s' = wires s /\ outer_of s' = outer_of s /\
    a <> b /\ vec s !! i = None /\ vtx s' = both (vtx s) i a b /\ xy_of s' = xy_of s /\
    nxt s' = f1 (nxt s) i root prev /\ wir s' = both (wir s) i w w /\
    seg_of s' = jn b (i, true) (jn a (i, false) (seg_of s)) /\
    (exists x, points s !! (if root then a else b) = Some x /\ last_change s' = CShape (p_poly x)) /\
    (exists x y, xy_of s !! a = Some x /\ xy_of s !! b = Some y /\ vec s' = <[i := vminus y x]> (vec s)) /\
    p2s s' = <[(a, b) := i]> (p2s s).
Proof.
  intros I Mt (F1 & F2 & F3) E1 E2 H. unfold add_dendrite in H. rd H as x Ex.
  bnd H as i' s1 E. apply make_segment_eff in E as (D & xa & xb & c & P1 & G1 & Ea & Eb & Ni & R1 & M1 & ->). fld in *.
  bnd H as u3 s1 E. apply connect_vtx_eff in E as (p2 & P2 & G2 & V2 & _ & R2 & M2 & ->). fld in *.
  bnd H as u4 s1 E. apply connect_free_vtx_eff in E as (p3 & P3 & G3 & V3 & _ & R3 & M3 & ->). fld in *.
  up H. apply ret_inv in H as [-> ->]. fld in *.
  assert (Ia : is_Some (seg_of s !! a)) by (apply seg_dom; eauto).
  assert (Ib : is_Some (seg_of s !! b)) by (apply seg_dom; eauto).
  assert (V2' : p2 = if root then b else a) by (destruct root; [rewrite both_t in V2|rewrite both_f in V2]; congruence).
  assert (V3' : p3 = if root then a else b) by (destruct root; cbn in V3; [rewrite both_f in V3|rewrite both_t in V3]; congruence).
  assert (Xa : exists h, jn b (i', true) (jn a (i', false) (seg_of s)) !! a = Some (Some h)).
  { destruct Ia as [oa Ia]. rewrite jn_other by done. rewrite (jn_here _ _ _ _ Ia). eauto. }
  assert (Xb : exists h, jn b (i', true) (jn a (i', false) (seg_of s)) !! b = Some (Some h)).
  { destruct Ib as [ob Ib]. rewrite (jn_here _ _ _ ob); [eauto|]. by rewrite jn_other. }
  destruct Xa as [ha Xa], Xb as [hb Xb].
  rewrite M1 in M2. rewrite (jn_id p2 _ _ (if root then hb else ha)) in M2 by (subst p2; by destruct root).
  rewrite M2 in M3. rewrite (jn_id p3 _ _ (if root then ha else hb)) in M3 by (subst p3; by destruct root).
  assert (R : ppr (points s) (polys s) P3 G3) by (eapply ppr_trans; [exact R1|]; by eapply ppr_trans).
  match goal with |- inv ?s1 /\ _ => set (s' := s1) end.
  assert (AC := add_common s s' i' a b c _ I D Ia Ib E1 E2 Ni eq_refl eq_refl eq_refl eq_refl eq_refl M3).
  destruct AC as (Fi & C1 & C2 & C3 & C4 & C5).
  assert (Fn := fresh_nxt _ _ I Fi). assert (Op : fst prev <> i') by (by apply (old_side _ _ _ _ I Fi F3)).
  assert (EN : nxt s' = f1 (nxt s) i' root prev).
  { subst s'. fld. apply map_eq. intros h. destruct (ends_cases i' root h) as [Dh|[-> | ->]].
    - rewrite lookup_insert_ne by (intros <-; done). destruct (decide (h = prev)) as [-> | Dp].
      + rewrite lookup_insert. symmetry. by apply (f1_p _ _ Fn _ _ _ F1).
      + rewrite !lookup_insert_ne by (try done; intros <-; done). symmetry. by apply f1_ne.
    - rewrite lookup_insert_ne by (destruct root; done). rewrite lookup_insert_ne by (intros ->; done). rewrite lookup_insert.
      symmetry. by apply (f1_r _ _ Fn _ _ _ F1).
    - rewrite lookup_insert. symmetry. rewrite flip_pair, negb_involutive. by apply (f1_n _ _ Fn _ _ _ F1). }
  assert (EL : wir s' = both (wir s) i' w w).
  { subst s'. fld. unfold both. destruct root; cbn; [apply insert_commute|]; done. }
  assert (EV : vtx s' = ends i' root (vtx s) (if root then b else a) (if root then a else b)) by (subst s'; fld; unfold ends; by destruct root).
  split; [constructor; try done|].
  - rewrite EN, EL, EV. apply (topo_dendrite _ _ _ _ (i_topo _ I) Fn _ _ next _ _ F1 F2 F3).
    intros h. by apply (i_pts _ I).
  - subst s'. fld. apply R, I.
  - intros h k. rewrite EL. intros Eh. apply (i_live _ I (if decide (fst h = i') then prev else h)).
    destruct (side_cases h i') as [Dh|[-> | ->]].
    + rewrite both_ne in Eh by done. by rewrite decide_False.
    + rewrite both_t in Eh. injection Eh as <-. by rewrite decide_True.
    + rewrite both_f in Eh. injection Eh as <-. by rewrite decide_True.
  - intros h k. rewrite EL. intros Eh. destruct (i_seg _ I (if decide (fst h = i') then prev else h) k) as (m & M4 & M5).
    { destruct (side_cases h i') as [Dh|[-> | ->]].
      + rewrite both_ne in Eh by done. by rewrite decide_False.
      + rewrite both_t in Eh. injection Eh as <-. by rewrite decide_True.
      + rewrite both_f in Eh. injection Eh as <-. by rewrite decide_True. }
    exists m. split; [done|]. rewrite both_ne; [done|]. by apply (old_side _ _ _ _ I Fi M5).
  - apply I.
  - subst s'. fld. eapply src_dom; [|apply (i_ig _ I)]. intros j. by rewrite (p_outer _ _ _ _ R).
  - split; [done|]. split; [apply R|]. split; [done|]. split; [done|]. split; [done|]. split; [apply R|]. split; [done|]. split; [done|].
    split; [done|]. split; [eauto|]. split; [eauto 10|done].
Qed.
