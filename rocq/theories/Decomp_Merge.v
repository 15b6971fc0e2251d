(** Removing a segment between two polygons joins them and keeps the invariant. *)
From stdpp Require Import gmap list relations.
From Coq Require Import QArith.
From Verif Require Import Decomp_Model Decomp_Perm Decomp_Surgery Decomp_Eff Decomp_Tree Decomp_Inv Decomp_Add Decomp_Join Decomp_Del Decomp_Cut.
Local Open Scope nat_scope.

(** * Polygons do not change when every point keeps a segment *)
Lemma destroy_polys g s u s' a b ka kb : destroy_segment g s = (Ok u, s') -> vtx s !! (g, false) = Some a -> vtx s !! (g, true) = Some b -> a <> b ->
  seg_of s !! a = Some (Some ka) -> fst ka <> g -> seg_of s !! b = Some (Some kb) -> fst kb <> g -> polys s' = polys s.
Proof.
  intros H Ea Eb D Ha Fa Hb Fb. unfold destroy_segment in H. rd H as a' Ea'. replace a' with a in * by congruence.
  bnd H as y1 s1 E. assert (E' := E). apply rm_segment_far with (a := ka) in E; [|done|done]. apply pp_open in E as (P1 & G1 & -> & R1 & M1).
  eapply rm_segment_polys in E'; [|fld; rewrite M1; exact Ha].
  rd H as b' Eb'. fld in *. replace b' with b in * by congruence.
  bnd H as y2 s1 E. assert (E2 := E). apply rm_segment_far with (a := kb) in E; [|fld; by rewrite M1|done].
  apply pp_open in E as (P2 & G2 & -> & R2 & M2). eapply rm_segment_polys in E2; [|fld; rewrite M2; fld; rewrite M1; exact Hb].
  up H. apply upd_inv in H. fld in *. subst s'. fld. congruence.
Qed.
Definition poly_of (s : st) : gmap nat (option nat) := p_poly <$> points s.
Lemma set_polygon_poly p g s u s' : set_polygon p g s = (Ok u, s') -> poly_of s' = <[p := Some g]> (poly_of s).
Proof.
  unfold set_polygon, poly_of. intros H. rd H as x E. bnd H as y1 s1 E1.
  assert (points s1 = points s).
  { destruct (p_poly x) as [q|]; [|by apply ret_inv in E1 as [_ ->]]. apply drop_free_inv in E1 as (y & Y1 & Y2 & ->). done. }
  bnd H as y2 s2 E2. rd E2 as y Ey. apply upd_inv in E2. subst s2. apply upd_inv in H. subst s'. fld. rewrite fmap_insert. cbn. congruence.
Qed.
Lemma each_polygon g l s u s' : (forall p, p ∈ l -> seg_of s !! p = Some None) -> each (fun p => set_polygon p g) l s = (Ok u, s') ->
  exists P G, s' = set_polys G (set_points P s) /\ ppr (points s) (polys s) P G /\ p_seg <$> P = seg_of s /\
    (forall p, p ∈ l -> (p_poly <$> P) !! p = Some (Some g)) /\ (forall p, p ∉ l -> (p_poly <$> P) !! p = poly_of s !! p).
Proof.
  revert s u. induction l as [|p l IH]; intros s u Hl H.
  - apply ret_inv in H as [_ ->]. exists (points s), (polys s). split; [by destruct s|]. split; [apply ppr_refl|]. split; [done|]. split; [by intros ? ?%elem_of_nil|done].
  - cbn [each] in H. bnd H as y1 s1 E. assert (E' := set_polygon_poly _ _ _ _ _ E). apply set_polygon_eff in E as (_ & _ & P1 & G1 & -> & R1 & M1).
    rewrite insert_id in M1 by (apply Hl; left). fld in *.
    apply IH in H as (P & G & -> & R & M & X1 & X2); [|intros q Hq; fld; rewrite M1; apply Hl; by right].
    fld in *. exists P, G. split; [done|]. split; [by eapply ppr_trans|]. split; [congruence|]. split.
    + intros q Hq. destruct (decide (q ∈ l)) as [Hq'|Hq']; [by apply X1|]. apply elem_of_cons in Hq as [-> | Hq]; [|done].
      rewrite X2 by done. by rewrite E', lookup_insert.
    + intros q Hq. apply not_elem_of_cons in Hq as [Dq Hq]. rewrite X2 by done. by rewrite E', lookup_insert_ne.
Qed.
Lemma free_emptied P G P' G' g n y y' : free_ok P G -> free_ok P' G' -> G !! n = Some y -> G' !! n = Some y' -> g <> n ->
  p_seg <$> P' = p_seg <$> P -> (forall p, p ∈ free y -> (p_poly <$> P') !! p = Some (Some g)) ->
  (forall p, p ∉ free y -> (p_poly <$> P') !! p = (p_poly <$> P) !! p) -> free y' = ∅.
Proof.
  intros F F' Y Y' D M X1 X2. apply set_eq. intros p. split; [|by intros ?%elem_of_empty]. intros Hp. exfalso.
  destruct (proj2 F' _ _ _ Y' Hp) as (x & Ex & E1 & E2).
  assert (Q : (p_poly <$> P') !! p = Some (Some n)) by (rewrite lookup_fmap, Ex; cbn; by rewrite E1).
  destruct (decide (p ∈ free y)) as [I|I]; [rewrite X1 in Q by done; congruence|]. rewrite X2 in Q by done.
  rewrite lookup_fmap in Q. destruct (P !! p) as [z|] eqn:Ez; [|done]. cbn in Q. injection Q as Q.
  assert (Sz : p_seg z = None). { assert (W : (p_seg <$> P') !! p = (p_seg <$> P) !! p) by congruence. rewrite !lookup_fmap, Ex, Ez in W. cbn in W. congruence. }
  assert (W := proj1 F p z Ez). rewrite Sz in W. destruct W as (g' & z' & W1 & W2 & W3). rewrite Q in W1. injection W1 as <-. congruence.
Qed.
(** Children go to the polygon that stays. *)
Lemma each_move g n cs s u s' :
  each (fun c => m <~ wire_poly c ; check (bool_decide (m = n)) ;~
                 (y <~ get_poly g ; set_parent c (Some (outer y)) ;~ put_wire_poly c g)) cs s = (Ok u, s') ->
  exists W, s' = set_wires W s /\
    (forall c, c ∈ cs -> exists o, outer_of s !! g = Some o /\ is_Some (par_of s !! o) /\ (parent <$> W) !! c = Some (Some o) /\ (w_poly <$> W) !! c = Some (Some g) /\ is_Some (par_of s !! c)) /\
    (forall c, c ∉ cs -> (parent <$> W) !! c = par_of s !! c /\ (w_poly <$> W) !! c = pol_of s !! c) /\
    w_seg <$> W = sg_of s /\ (forall X, tl X (wires s) -> tl X W).
Proof.
  revert s u. induction cs as [|c cs IH]; intros s u H.
  - apply ret_inv in H as [_ ->]. exists (wires s). split; [by destruct s|]. split; [by intros c ?%elem_of_nil|]. done.
  - cbn [each] in H. bnd H as y1 s1 E. bnd E as m s2 E1. apply wire_poly_inv in E1 as [-> E1]. chk E as C. rd E as y Ey.
    bnd E as y2 s2 E2. apply set_parent_inv in E2 as (W1 & -> & PV1 & GV1 & SV1 & L1 & L1' & T1).
    apply put_wire_poly_inv in E as (W2 & -> & PV2 & GV2 & SV2 & _ & T2). fld in *.
    assert (Lc : is_Some (par_of s !! c)) by (rewrite lookup_fmap; by apply fmap_is_Some).
    assert (Dm : forall k, is_Some ((parent <$> W2) !! k) <-> is_Some (par_of s !! k)).
    { intros k. rewrite PV2, PV1, <- live_insert. split; [by intros [-> | ?]|tauto]. }
    apply IH in H as (W & -> & H1 & H2 & H3 & T3). fld in *. exists W. split; [done|]. split; [|split; [|split]].
    + intros k Hk. destruct (decide (k ∈ cs)) as [Hk'|Hk'].
      * destruct (H1 k Hk') as (o & O1 & O2 & O3 & O4 & O5). exists o. split; [done|]. split; [by apply Dm|]. split; [done|]. split; [done|]. by apply Dm.
      * apply elem_of_cons in Hk as [-> | Hk]; [|done]. destruct (H2 c Hk') as [X1 X2]. exists (outer y).
        split; [by rewrite lookup_fmap, Ey|]. split; [rewrite lookup_fmap; apply fmap_is_Some; by apply L1'|].
        rewrite X1, X2, PV2, PV1, GV2, !lookup_insert. done.
    + intros k Hk. apply not_elem_of_cons in Hk as [Dk Hk]. destruct (H2 k Hk) as [X1 X2]. rewrite X1, X2, PV2, PV1, GV2, GV1, !lookup_insert_ne by done. done.
    + congruence.
    + auto.
Qed.
(** All sides of one wire. *)
Lemma cycle_walk v f l n a ls : topo v f l -> walk n f a a a = Ok ls -> forall h, h ∈ ls <-> exists w, l !! a = Some w /\ l !! h = Some w.
Proof.
  intros T W. apply walk_ok in W as (W1 & W2 & W3 & _).
  assert (Ia : exists w, l !! a = Some w).
  { destruct (W2 _ W1) as (k & K & _). apply (topo_dom_l _ _ _ _ T). eauto. }
  destruct Ia as [w Ew]. intros h. split.
  - intros Hh. exists w. split; [done|]. specialize (W3 _ Hh). clear Hh. revert Ew. clear W1 W2. induction W3 as [|x y z [S1 S2] R IH]; [done|]. intros Ex. apply IH.
    by rewrite (topo_lab _ _ _ _ _ T S2).
  - intros (w' & E1 & E2). replace w' with w in * by congruence.
    assert (R : reach f a h) by (eapply labels_reach; [apply T|done|done]).
    assert (G : forall x, reach f x h -> x ∈ ls -> h ∈ ls); [|by apply (G a)].
    clear R. intros x R. induction R as [|x y z S R IH]; [done|]. intros Hx. apply IH; [done|]. unfold step in S.
    destruct (W2 _ Hx) as (k & K1 & K2). rewrite S in K1. injection K1 as <-. by destruct K2 as [-> | [_ ?]].
Qed.

(** When one of the wires of a segment is the parent of the other, the other is the outer wire of a polygon of its own. *)
Definition nested_ok (s : st) (g : nat) : Prop :=
  forall b l r gl gr, wir s !! (g, b) = Some l -> wir s !! (g, negb b) = Some r -> l <> r -> par_of s !! l = Some (Some r) ->
    pol_of s !! l = Some (Some gl) -> pol_of s !! r = Some (Some gr) -> outer_of s !! gl = Some l /\ gl <> gr.

Lemma join_poly_eff g s u s' : inv s -> nested_ok s g -> nxt s !! (g, true) <> Some (g, false) -> nxt s !! (g, false) <> Some (g, true) ->
  wir s !! (g, true) <> wir s !! (g, false) -> join_poly g s = (Ok u, s') ->
  inv s' /\ exists keep rm kp n m0 m1 ka kb a b xrm,
    ((wir s !! (g, true) = Some keep /\ wir s !! (g, false) = Some rm) \/ (wir s !! (g, true) = Some rm /\ wir s !! (g, false) = Some keep)) /\ keep <> rm /\
    pol_of s !! keep = Some (Some kp) /\ pol_of s !! rm = Some (Some n) /\ kp <> n /\ outer_of s !! n = Some rm /\
    outer_of s' = delete n (outer_of s) /\ wires s !! rm = Some xrm /\ par_of s' !! rm = None /\ pol_of s' !! rm = None /\
    (forall c, c <> rm -> c ∈ childs xrm -> exists o, outer_of s !! kp = Some o /\ is_Some (par_of s !! o) /\ par_of s' !! c = Some (Some o) /\ pol_of s' !! c = Some (Some kp) /\ is_Some (par_of s !! c)) /\
    (forall c, c <> rm -> c ∉ childs xrm -> par_of s' !! c = par_of s !! c /\ pol_of s' !! c = pol_of s !! c) /\
    vtx s !! (g, false) = Some a /\ vtx s !! (g, true) = Some b /\ a <> b /\ vtx s' = dels (vtx s) g /\ xy_of s' = xy_of s /\
    nxt s !! m0 = Some (g, true) /\ m0 <> (g, false) /\ swap (nxt s) (g, false) m0 !! m1 = Some (g, false) /\
    nxt s' = dels (swap (swap (nxt s) (g, false) m0) (g, true) m1) g /\
    (forall h, fst h <> g -> wir s' !! h = (fun w => if decide (w = rm) then keep else w) <$> wir s !! h) /\
    vec s' = delete g (vec s) /\ p2s s' = delete (b, a) (delete (a, b) (p2s s)) /\
    vtx s !! ka = Some a /\ fst ka <> g /\ vtx s !! kb = Some b /\ fst kb <> g /\
    seg_of s' = <[b := Some kb]> (<[a := Some ka]> (seg_of s)) /\
    ((last_change s' = CJoin kp n /\ par_of s !! keep = par_of s !! rm /\ outer_of s !! kp = Some keep /\ wir s !! (g, false) = Some keep) \/
     (last_change s' = CRemove kp n /\ par_of s !! keep <> par_of s !! rm /\ par_of s !! rm = Some (Some keep))) /\
    (tl ∅ (wires s) -> tl ∅ (wires s')).
Proof.
  intros I NO Nt Nf Dw H. unfold join_poly in H. rd H as lf Wt. rd H as rt Wf.
  bnd H as pl s1 E. apply get_parent_inv in E as [-> Pl]. bnd H as pr s1 E. apply get_parent_inv in E as [-> Pr].
  bnd H as gl s1 E. apply wire_poly_inv in E as [-> Gl]. bnd H as gr s1 E. apply wire_poly_inv in E as [-> Gr].
  bnd H as r sA E. assert (Dlr : lf <> rt) by congruence.
  assert (K1 : exists keep rm kp n lc, r = (kp, n, keep) /\ sA = set_change lc s /\ outer_of s !! n = Some rm /\ keep <> rm /\
    ((wir s !! (g, true) = Some keep /\ wir s !! (g, false) = Some rm) \/ (wir s !! (g, true) = Some rm /\ wir s !! (g, false) = Some keep)) /\
    pol_of s !! keep = Some (Some kp) /\ pol_of s !! rm = Some (Some n) /\ kp <> n /\
    ((lc = CJoin kp n /\ par_of s !! keep = par_of s !! rm /\ outer_of s !! kp = Some keep /\ wir s !! (g, false) = Some keep) \/
     (lc = CRemove kp n /\ par_of s !! keep <> par_of s !! rm /\ par_of s !! rm = Some (Some keep)))).
  { destruct (decide (pl = pr)) as [Dp|Dp].
    - rd E as x Ex. chk E as C1. apply bool_decide_eq_true in C1. rd E as y Ey. chk E as C2. apply bool_decide_eq_true in C2.
      unf E. bnd E as y1 s1 E1. apply upd_inv in E1. subst s1. apply ret_inv in E as [-> ->].
      exists rt, lf, gr, gl, (CJoin gr gl). split; [done|]. split; [done|]. split; [by rewrite lookup_fmap, Ex, C1|]. split; [done|]. split; [by right|].
      split; [done|]. split; [done|]. split; [intros ->; rewrite Ex in Ey; congruence|]. left. split; [done|]. split; [congruence|]. split; [by rewrite lookup_fmap, Ey, C2|done].
    - bnd E as r' s1 E1. destruct (decide (pl = Some rt)) as [D1|D1].
      + apply ret_inv in E1 as [-> ->]. unf E. bnd E as y1 s1 E1. apply upd_inv in E1. subst s1. apply ret_inv in E as [-> ->].
        subst pl. destruct (NO true lf rt gl gr Wt Wf Dlr Pl Gl Gr) as [N1 N2].
        exists rt, lf, gr, gl, (CRemove gr gl). split; [done|]. split; [done|]. split; [done|]. split; [done|]. split; [by right|]. split; [done|]. split; [done|].
        split; [done|]. right. split; [done|]. split; [congruence|done].
      + chk E1 as C1. apply bool_decide_eq_true in C1. subst pr. apply ret_inv in E1 as [-> ->]. unf E. bnd E as y1 s1 E1. apply upd_inv in E1. subst s1. apply ret_inv in E as [-> ->].
        destruct (NO false rt lf gr gl Wf Wt (not_eq_sym Dlr) Pr Gr Gl) as [N1 N2].
        exists lf, rt, gl, gr, (CRemove gl gr). split; [done|]. split; [done|]. split; [done|]. split; [done|]. split; [by left|]. split; [done|]. split; [done|].
        split; [done|]. right. split; [done|]. split; [congruence|done]. }
  destruct K1 as (keep & rm & kp & n & lc & -> & -> & On & Dkr & Sides & Gk & Grm & Dkn & Lc). clear E Pl Pr Gl Gr.
  assert (Hr : exists h0, wir s !! h0 = Some rm) by (destruct Sides as [[? ?]|[? ?]]; eauto).
  assert (Hk : exists h0, wir s !! h0 = Some keep) by (destruct Sides as [[? ?]|[? ?]]; eauto).
  cbv zeta in H. rd H as x Ex. fld in *.
  assert (Ox : outer x = rm) by (rewrite lookup_fmap, Ex in On; cbn in On; congruence). rewrite Ox in H.
  bnd H as y1 s1 E. bnd E as cs s2 E1. apply children_inv in E1 as (-> & xrm & Xrm & Cs). fld in *.
  apply each_move in E as (W1 & -> & Mv1 & Mv2 & SV1 & T1). fld in *.
  bnd H as y2 s1 E. rd E as x' Ex'. fld in *. replace x' with x in * by congruence. clear x' Ex'.
  apply each_polygon in E as (P1 & G1 & -> & R1 & M1 & Q1 & Q2); fld in *.
  2: { intros p Hp. apply elem_of_elements in Hp. destruct (proj2 (i_free _ I) _ _ _ Ex Hp) as (z & Z1 & Z2 & Z3). rewrite lookup_fmap, Z1. cbn. by rewrite Z3. }
  bnd H as y3 s1 E. apply set_parent_inv in E as (W2 & -> & PV2 & GV2 & SV2 & _ & _ & T2). fld in *.
  bnd H as y4 s1 E. bnd E as ls s2 E1. apply wire_segments_inv in E1 as (-> & q & Q & W). fld in *.
  rewrite PV2, lookup_insert in Q. injection Q as <-. destruct W as (a0 & A0 & W).
  rewrite SV2, SV1 in A0. destruct Hr as [h0 Hr]. destruct (i_seg _ I _ _ Hr) as (a1 & A1 & A2). rewrite A0 in A1. injection A1 as <-.
  assert (CW := cycle_walk _ _ _ _ _ _ (i_topo _ I) W). clear W.
  assert (CW' : forall h, h ∈ ls <-> wir s !! h = Some rm) by (intros h; rewrite CW; split; [intros (w & X1 & X2); congruence|eauto]). clear CW.
  apply relabel_inv in E as (L1 & -> & L1a & L1b & _). fld in *.
  assert (Lk : forall h, wir s !! h <> Some rm -> L1 !! h = wir s !! h) by (intros h Hh; apply L1b; by rewrite CW').
  assert (Lr : forall h, wir s !! h = Some rm -> L1 !! h = Some keep) by (intros h Hh; apply L1a; by rewrite CW').
  assert (LL : forall h, L1 !! h = (fun w => if decide (w = rm) then keep else w) <$> wir s !! h).
  { intros h. destruct (decide (wir s !! h = Some rm)) as [Hh|Hh]; [rewrite Lr, Hh by done; cbn; by rewrite decide_True|].
    rewrite Lk by done. destruct (wir s !! h) as [w|]; [|done]. cbn. rewrite decide_False; [done|congruence]. }
  assert (Bt : L1 !! (g, true) = Some keep) by (destruct Sides as [[X1 X2]|[X1 X2]]; [rewrite Lk by congruence; done|by apply Lr]).
  assert (Bf : L1 !! (g, false) = Some keep) by (destruct Sides as [[X1 X2]|[X1 X2]]; [by apply Lr|rewrite Lk by congruence; done]).
  clear L1a L1b CW'.
  bnd H as y5 s1 E. apply (disconnect_wires_eff _ keep) in E as (W3 & -> & PV3 & GV3 & T3 & C3); [|done|done]. fld in *.
  assert (Va : is_Some (vtx s !! (g, false))) by (apply (topo_dom_v _ _ _ _ (i_topo _ I)), (topo_dom_l _ _ _ _ (i_topo _ I)); eauto). destruct Va as [a Va].
  assert (Vb : is_Some (vtx s !! (g, true))) by (apply (topo_dom_v _ _ _ _ (i_topo _ I)), (topo_dom_l _ _ _ _ (i_topo _ I)); eauto). destruct Vb as [b Vb].
  assert (D : a <> b) by (intros ->; by apply (t_loop _ _ _ (i_topo _ I) _ _ Va)).
  bnd H as y6 s1 E1. bnd H as y7 s2 E2.
  match type of E1 with _ ?s0 = _ => set (s0' := s0) in * end.
  assert (Pt : pts_ok (seg_of s0') (vtx s0')) by (subst s0'; fld; rewrite M1; apply I).
  destruct (detach_eff g s0' (wir s) _ _ _ _ a b E1 E2 (i_topo _ I) Pt Va Vb Nt Nf) as
    (m0 & m1 & ka & kb & P & G & E0 & D0 & Em1 & Vka & Fka & Vkb & Fkb & R & M & -> & ->).
  subst s0'. fld in *. clear E1 E2 s1.
  bnd H as y8 s1 E. assert (Hd := E).
  assert (Ha : (p_seg <$> P) !! a = Some (Some ka)) by (rewrite M, lookup_insert_ne, lookup_insert by done; done).
  assert (Hb : (p_seg <$> P) !! b = Some (Some kb)) by (by rewrite M, lookup_insert).
  eapply destroy_polys with (a := a) (b := b) (ka := ka) (kb := kb) in Hd; try done.
  apply destroy_eff with (a := a) (b := b) (oa := Some ka) (ob := Some kb) in E as (P7 & G7 & R7 & M7 & ->); [|done|done|done| |].
  2: { exists (Some ka). split; [done|by left]. }
  2: { exists (Some kb). split; [done|by left]. }
  fld in *. subst G7.
  bnd H as y9 s1 E. apply rm_wire_inv in E as (W8 & -> & PV8 & GV8 & SV8 & L8 & T8). fld in *.
  apply rm_poly_inv in H as (yn & Yn & Es' & Fn). fld in *.
  assert (FR : free_ok P7 G1) by (apply R7, R, R1, I).
  assert (Fy : free yn = ∅).
  { eapply (free_emptied (points s) (polys s) P1 G1 kp n); [apply I|apply R1, I|done|done|done|done| |].
    - intros p Hp. apply Q1. by apply elem_of_elements.
    - intros p Hp. apply Q2. by rewrite elem_of_elements. }
  specialize (Fn Fy _ FR).
  assert (X1 : vtx s' = dels (vtx s) g) by (rewrite Es'; reflexivity).
  assert (X2 : nxt s' = dels (swap (swap (nxt s) (g, false) m0) (g, true) m1) g) by (rewrite Es'; reflexivity).
  assert (X3 : wir s' = dels L1 g) by (rewrite Es'; reflexivity).
  assert (X4 : wires s' = W8) by (rewrite Es'; reflexivity).
  assert (X5 : points s' = P7) by (rewrite Es'; reflexivity).
  assert (X6 : polys s' = delete n G1) by (rewrite Es'; reflexivity).
  assert (X7 : iw s' = old_id rm (iw s)) by (rewrite Es'; reflexivity).
  assert (X8 : ig s' = old_id n (ig s)) by (rewrite Es'; reflexivity).
  assert (X9 : vec s' = delete g (vec s)) by (rewrite Es'; reflexivity).
  assert (X10 : p2s s' = delete (b, a) (delete (a, b) (p2s s))) by (rewrite Es'; reflexivity).
  assert (X11 : last_change s' = lc) by (rewrite Es'; reflexivity).
  assert (X12 : is_ s' = old_id g (is_ s)) by (rewrite Es'; reflexivity).
  assert (X13 : ip s' = ip s) by (rewrite Es'; reflexivity).
  clear Es'.
  assert (Mx : seg_of s' = <[b := Some kb]> (<[a := Some ka]> (seg_of s))).
  { rewrite X5, M7, M, M1. rewrite (insert_commute _ b a) by done. rewrite insert_insert. rewrite (insert_commute _ a b) by done. rewrite insert_insert.
    by rewrite (insert_commute _ b a). }
  assert (AC := del_common s s' g a b (Some ka) (Some kb) I Va Vb (conj Vka Fka) (conj Vkb Fkb) X1 X12 X13 X9 X10 Mx).
  destruct AC as (A1' & A2' & A3' & A4' & A5').
  assert (PV : forall k, k <> rm -> (parent <$> W8) !! k = (parent <$> W1) !! k) by (intros k Dk; by rewrite PV8, lookup_delete_ne, PV3, PV2, lookup_insert_ne).
  assert (GV : forall k, k <> rm -> (w_poly <$> W8) !! k = (w_poly <$> W1) !! k) by (intros k Dk; by rewrite GV8, lookup_delete_ne, GV3, GV2).
  assert (Dm : forall k, k <> rm -> is_Some ((parent <$> W8) !! k) <-> is_Some (par_of s !! k)).
  { intros k Dk. rewrite PV by done. destruct (decide (k ∈ cs)) as [Hc|Hc]; [|by destruct (Mv2 k Hc) as [-> _]].
    destruct (Mv1 k Hc) as (o & _ & _ & -> & _ & ?). split; eauto. }
  assert (O' : outer_of s' = delete n (outer_of s)) by (rewrite X6, fmap_delete, (p_outer _ _ _ _ R1); done).
  assert (Lrm : is_Some (par_of s !! rm)) by (destruct (i_live _ I _ _ Hr) as [q Hq]; eauto).
  assert (Deq : forall h, fst h <> g -> dels L1 g !! h = L1 !! h) by (intros h Dh; by rewrite dels_ne).
  assert (Lab : forall h w, L1 !! h = Some w -> w <> rm /\ exists h', wir s !! h' = Some w).
  { intros h w Eh. rewrite LL in Eh. destruct (wir s !! h) as [w0|] eqn:E3; [|done]. cbn in Eh. injection Eh as <-.
    destruct (decide (w0 = rm)) as [-> | D3]; [by destruct Hk as [h1 Hk]; eauto|eauto]. }
  split; [constructor|].
  - rewrite X1, X2, X3. apply (topo_merge_rm _ _ _ _ (i_topo _ I) m0 m1 E0 D0 Em1 Nt keep rm L1); done.
  - done.
  - by rewrite X5, X6.
  - done.
  - done.
  - intros h w. rewrite X3, X4. intros Eh. destruct (side_cases h g) as [Dh|[-> | ->]]; [|by rewrite dels_in in Eh..]. rewrite Deq in Eh by done.
    destruct (Lab _ _ Eh) as (Dl & h' & Eh'). rewrite PV by done. destruct (decide (w ∈ cs)) as [Hc|Hc]; [destruct (Mv1 _ Hc) as (o & _ & _ & -> & _); eauto|].
    destruct (Mv2 _ Hc) as [-> _]. by apply (i_live _ I h').
  - intros h w. rewrite X3, X4. intros Eh. destruct (side_cases h g) as [Dh|[-> | ->]]; [|by rewrite dels_in in Eh..]. rewrite Deq in Eh by done.
    destruct (Lab _ _ Eh) as (Dl & h' & Eh'). rewrite SV8, lookup_delete_ne by done.
    destruct (i_seg _ I _ _ Eh') as (m & N1 & N2).
    assert (Lm : L1 !! m = Some w) by (rewrite Lk; congruence).
    destruct C3 as [[S1 N3]|(k' & S1 & K1 & K2)].
    + exists m. rewrite S1, SV2, SV1. split; [done|]. rewrite Deq; [done|]. destruct (decide (w = keep)) as [-> | Dj]; [apply N3; congruence|].
      intros Fm. destruct (side_cases m g) as [?|[-> | ->]]; [done|congruence..].
    + rewrite S1. destruct (decide (w = keep)) as [-> | Dj]; [exists k'; rewrite lookup_insert, Deq by done; done|].
      exists m. rewrite lookup_insert_ne by done. rewrite SV2, SV1. split; [done|]. rewrite Deq; [done|].
      intros Fm. destruct (side_cases m g) as [?|[-> | ->]]; [done|congruence..].
  - done.
  - done.
  - rewrite X7. eapply src_ext; [|apply (src_delete _ _ rm (i_iw _ I) Lrm)]. intros k. rewrite X4. destruct (decide (k = rm)) as [-> | Dk].
    + by rewrite PV8, !lookup_delete.
    + rewrite lookup_delete_ne by done. symmetry. by apply Dm.
  - rewrite X8, O'. apply src_delete; [apply I|]. eauto.
  - exists keep, rm, kp, n, m0, m1, ka, kb, a, b, xrm. split; [done|]. split; [done|]. split; [done|]. split; [done|]. split; [done|]. split; [done|].
    split; [exact O'|]. split; [exact Xrm|]. rewrite X4. split; [by rewrite PV8, lookup_delete|]. split; [by rewrite GV8, lookup_delete|].
    split. { intros c Dc Hc. apply Cs in Hc. rewrite PV, GV by done. by apply Mv1. }
    split. { intros c Dc Hc. rewrite <- Cs in Hc. rewrite PV, GV by done. by apply Mv2. }
    split; [done|]. split; [done|]. split; [done|]. split; [done|]. split; [rewrite X5, (p_xy _ _ _ _ R7), (p_xy _ _ _ _ R); apply R1|].
    split; [done|]. split; [done|]. split; [done|]. split; [done|]. split; [intros h Dh; by rewrite X3, Deq|].
    split; [done|]. split; [done|]. split; [done|]. split; [done|]. split; [done|]. split; [done|]. split; [done|]. split; [by rewrite X11|].
    intros TT. apply T1, T2, T3 in TT. apply T8.
    + intros y Hy. apply TT in Hy. rewrite PV3, PV2, lookup_insert in Hy. congruence.
    + destruct TT as [TT1 TT2]. split; [done|]. intros p c Hc Ip Dc Nc. apply TT2; try done.
Qed.
