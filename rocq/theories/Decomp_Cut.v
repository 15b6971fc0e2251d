(** Removing a bridge splits a wire and keeps the invariant. *)
From stdpp Require Import gmap list relations.
From Coq Require Import QArith.
From Verif Require Import Decomp_Model Decomp_Perm Decomp_Surgery Decomp_Eff Decomp_Tree Decomp_Inv Decomp_Add Decomp_Join Decomp_Del.
Local Open Scope nat_scope.

(** * Both ends leave their points *)
Lemma detach_eff g s l y1 s1 y2 s2 a b : disconnect_vtx (g, false) s = (Ok y1, s1) -> disconnect_vtx (g, true) s1 = (Ok y2, s2) ->
  topo (vtx s) (nxt s) l -> pts_ok (seg_of s) (vtx s) -> vtx s !! (g, false) = Some a -> vtx s !! (g, true) = Some b ->
  nxt s !! (g, true) <> Some (g, false) -> nxt s !! (g, false) <> Some (g, true) ->
  exists m0 m1 ka kb P G, nxt s !! m0 = Some (g, true) /\ m0 <> (g, false) /\ swap (nxt s) (g, false) m0 !! m1 = Some (g, false) /\
    vtx s !! ka = Some a /\ fst ka <> g /\ vtx s !! kb = Some b /\ fst kb <> g /\ ppr (points s) (polys s) P G /\
    p_seg <$> P = <[b := Some kb]> (<[a := Some ka]> (seg_of s)) /\
    s2 = set_nxt (swap (swap (nxt s) (g, false) m0) (g, true) m1) (set_polys G (set_points P s)) /\ G = polys s.
Proof.
  intros H1 H2 T Pt Va Vb Nt Nf.
  assert (D : a <> b) by (intros ->; by apply (t_loop _ _ _ T _ _ Va)).
  assert (Ma : exists x, seg_of s !! a = Some (Some x) /\ vtx s !! x = Some a).
  { destruct Pt as (P1 & P2 & P3). destruct (P3 _ _ Va) as [[x|] X]; [exists x; split; [done|by apply P1]|]. exfalso. by apply (P2 _ _ X Va). }
  assert (Mb : exists x, seg_of s !! b = Some (Some x) /\ vtx s !! x = Some b).
  { destruct Pt as (P1 & P2 & P3). destruct (P3 _ _ Vb) as [[x|] X]; [exists x; split; [done|by apply P1]|]. exfalso. by apply (P2 _ _ X Vb). }
  destruct Ma as (xa & Ma & Vxa), Mb as (xb & Mb & Vxb).
  apply (disc_eff _ _ _ (vtx s) _ _ a xa) in H1 as (m0 & ka & P1 & G1 & E0 & D0 & Vka & Fka & R1 & M1 & -> & ->);
    [|apply T|apply T|apply T|done|done|cbn; congruence|done|done|done]. cbn [negb] in E0.
  destruct (fresh_label (vtx s)) as [z Fz].
  assert (Lz := labels_u1_v _ _ _ _ T false m0 E0 D0 z Fz). unfold u1 in Lz.
  assert (Zb : z <> b) by (intros ->; by apply (Fz (g, true))).
  apply (disc_eff _ _ _ (<[(g, false) := z]> (vtx s)) _ _ b xb) in H2 as (m1 & kb & P2 & G2 & E1 & D1 & Vkb & Fkb & R2 & M2 & -> & ->); fld in *;
    [|apply swap_perm, T| |exact Lz|done|by rewrite lookup_insert_ne|cbn; rewrite lookup_insert; congruence| | |].
  - exists m0, m1, ka, kb, P2, (polys s). split; [done|]. split; [done|]. split; [done|]. split; [done|]. split; [done|].
    rewrite lookup_insert_ne in Vkb by (by intros <-). split; [done|]. split; [done|]. split; [by eapply ppr_trans|]. split; [by rewrite M2, M1|]. split; [by destruct s|done].
  - intros h. rewrite !swap_dom. apply T.
  - by rewrite M1, lookup_insert_ne.
  - rewrite lookup_insert_ne; [done|]. intros <-. congruence.
  - assert (X := u1_n _ _ _ _ T false m0 E0). unfold u1 in X. cbn [negb] in X. cbn [negb]. by rewrite X.
Qed.
(** The part behind side true. *)
Lemma cut_walk f g m0 y n ls : f !! (g, true) = Some y -> f !! m0 = Some (g, true) -> m0 <> (g, false) -> is_Some (f !! (g, false)) -> y <> (g, false) -> m0 <> (g, true) ->
  walk n f y (g, false) y = Ok ls ->
  (g, false) ∉ ls /\ (g, true) ∉ ls /\ forall h, (h = (g, false) \/ h = (g, true) \/ h ∈ ls) <-> reach (swap f (g, false) m0) (g, false) h.
Proof.
  intros Ft E0 D0 If Dy Dt W. apply walk_ok in W as (W1 & W2 & W3 & W4). specialize (W4 Dy).
  assert (Nt : (g, true) ∉ ls).
  { intros Ht. destruct (W2 _ Ht) as (k & K1 & K2). rewrite Ft in K1. injection K1 as <-. by destruct K2 as [?|[? _]]. }
  assert (Nm : m0 ∉ ls).
  { intros Ht. destruct (W2 _ Ht) as (k & K1 & K2). rewrite E0 in K1. injection K1 as <-. by destruct K2 as [?|[_ ?]]. }
  split; [done|]. split; [done|].
  destruct If as [k Ek]. assert (Gf := swap_l _ _ _ _ _ Ek E0).
  assert (Gt : swap f (g, false) m0 !! (g, true) = Some y) by (by rewrite swap_ne).
  assert (Gl : forall x, x ∈ ls -> swap f (g, false) m0 !! x = f !! x) by (intros x Hx; apply swap_ne; by intros ->).
  intros h. split.
  - intros [-> | [-> | Hh]]; [apply reach_refl|by apply reach_step|]. eapply reach_l; [exact Gf|]. eapply reach_l; [exact Gt|].
    eapply rtc_subrel; [|by apply W3]. intros p q [X1 X2]. unfold step. by rewrite Gl.
  - intros R. assert (G : forall x, reach (swap f (g, false) m0) x h -> x = (g, false) \/ x = (g, true) \/ x ∈ ls -> h = (g, false) \/ h = (g, true) \/ h ∈ ls); [|apply (G (g, false)); [done|by left]].
    clear R. intros x R. induction R as [|x j h S R IH]; [done|]. intros Hx. apply IH. unfold step in S. destruct Hx as [-> | [-> | Hx]].
    + rewrite Gf in S. injection S as <-. auto.
    + rewrite Gt in S. injection S as <-. auto.
    + rewrite Gl in S by done. destruct (W2 _ Hx) as (j' & J1 & J2). rewrite S in J1. injection J1 as <-. destruct J2 as [-> | [_ ?]]; auto.
Qed.

(** * Changes of parents only *)
Record tsr (W : gmap nat wire) (G : gmap nat poly) (W' : gmap nat wire) (G' : gmap nat poly) : Prop := TSR {
  ts_sg : w_seg <$> W' = w_seg <$> W;
  ts_pol : w_poly <$> W' = w_poly <$> W;
  ts_par k : is_Some ((parent <$> W') !! k) <-> is_Some ((parent <$> W) !! k);
  ts_some k q : (parent <$> W) !! k = Some (Some q) -> exists q', (parent <$> W') !! k = Some (Some q');
  ts_out k : is_Some ((outer <$> G') !! k) <-> is_Some ((outer <$> G) !! k);
  ts_free P : free_ok P G -> free_ok P G';
  ts_tl X : tl X W -> tl X W' }.
Lemma tsr_refl W G : tsr W G W G.
Proof. constructor; try done. eauto. Qed.
Lemma tsr_trans W G W' G' W'' G'' : tsr W G W' G' -> tsr W' G' W'' G'' -> tsr W G W'' G''.
Proof.
  intros [A1 A2 A3 A4 A5 A6 A7] [B1 B2 B3 B4 B5 B6 B7]. constructor; [congruence|congruence| | | |auto|auto].
  - intros k. by rewrite B3.
  - intros k q H. apply A4 in H as [q' H]. eauto.
  - intros k. by rewrite B5.
Qed.
Definition tstep (s s' : st) : Prop := exists W G, s' = set_wires W (set_polys G s) /\ tsr (wires s) (polys s) W G.
Lemma tstep_refl s : tstep s s.
Proof. exists (wires s), (polys s). split; [by destruct s|]. apply tsr_refl. Qed.
Lemma tstep_trans s s' s'' : tstep s s' -> tstep s' s'' -> tstep s s''.
Proof.
  intros (W & G & -> & R) (W' & G' & -> & R'). exists W', G'. split; [by destruct s|]. by eapply tsr_trans.
Qed.
Lemma tstep_parent w q s u s' : set_parent w (Some q) s = (Ok u, s') -> tstep s s'.
Proof.
  intros H. apply set_parent_inv in H as (W & -> & PV & GV & SV & L & _ & T). exists W, (polys s). split; [by destruct s|].
  assert (L' : is_Some (par_of s !! w)) by (rewrite lookup_fmap; by apply fmap_is_Some).
  constructor; try done.
  - intros k. rewrite PV, <- live_insert. split; [by intros [-> | ?]|tauto].
  - intros k q' Hk. rewrite PV. destruct (decide (k = w)) as [-> | D]; [rewrite lookup_insert; eauto|]. rewrite lookup_insert_ne by done. eauto.
Qed.
Lemma tstep_outer g w s u s' : put_outer g w s = (Ok u, s') -> tstep s s'.
Proof.
  intros H. apply put_outer_inv in H as (G & -> & O & L & F). exists (wires s), G. split; [by destruct s|].
  assert (L' : is_Some (outer_of s !! g)) by (rewrite lookup_fmap; by apply fmap_is_Some).
  constructor; try done; [eauto|]. intros k. rewrite O, <- live_insert. split; [by intros [-> | ?]|tauto].
Qed.
Lemma tstep_each {A} (f : A -> M unit) l s u s' : (forall x s u s', f x s = (Ok u, s') -> tstep s s') -> each f l s = (Ok u, s') -> tstep s s'.
Proof.
  intros F. revert s u. induction l as [|x l IH]; intros s u H; cbn [each] in H; [apply ret_inv in H as [_ ->]; apply tstep_refl|].
  bnd H as y1 s1 E. eapply tstep_trans; [by eapply F|by eapply IH].
Qed.

(** * The parents after a bridge was removed *)
Lemma each_adj K iv l s u s' :
  each (fun h => sw <~ get_label (flip h) ;
                 ok <~ (if decide (sw = iv) then ret true else contains_wire K iv sw) ;
                 check ok ;~ set_parent sw (Some iv)) l s = (Ok u, s') ->
  exists W, s' = set_wires W s /\
    (forall c, (parent <$> W) !! c = par_of s !! c \/ ((parent <$> W) !! c = Some (Some iv) /\ exists h, wir s !! h = Some c)) /\
    (forall X, tl X (wires s) -> tl X W).
Proof.
  revert s u. induction l as [|h l IH]; intros s u H; cbn [each] in H.
  - apply ret_inv in H as [_ ->]. exists (wires s). split; [by destruct s|]. split; [by left|done].
  - bnd H as y1 s1 E. rd E as sw Esw. bnd E as ok s2 Et.
    assert (s2 = s) as ->. { destruct (decide _); [apply ret_inv in Et as [_ ->]; done|]. by apply contains_wire_inv in Et as (-> & _). }
    chk E as Cok. apply set_parent_inv in E as (W1 & -> & PV & _ & _ & _ & _ & T1). apply IH in H as (W & -> & H1 & T). fld in *.
    exists W. split; [done|]. split; [|auto]. intros c. destruct (H1 c) as [H2|[H2 H3]]; [|by right]. rewrite H2, PV.
    destruct (decide (c = sw)) as [-> | D]; [rewrite lookup_insert; right; eauto|rewrite lookup_insert_ne by done; by left].
Qed.
Lemma each_pick K wa wb cs s u s' : wa <> wb ->
  each (fun c => i <~ contains_wire K wa c ; set_parent c (Some (if i : bool then wa else wb))) cs s = (Ok u, s') ->
  exists W, s' = set_wires W s /\
    (forall c, (c ∉ cs /\ (parent <$> W) !! c = par_of s !! c) \/ (c ∈ cs /\ ((parent <$> W) !! c = Some (Some wa) \/ (parent <$> W) !! c = Some (Some wb)))).
Proof.
  intros D. revert s u. induction cs as [|h l IH]; intros s u H; cbn [each] in H.
  - apply ret_inv in H as [_ ->]. exists (wires s). split; [by destruct s|]. intros c. left. split; [apply not_elem_of_nil|done].
  - bnd H as y1 s1 E. bnd E as ok s2 Et. apply contains_wire_inv in Et as (-> & _).
    apply set_parent_inv in E as (W1 & -> & PV & _ & _ & _ & _ & T1). apply IH in H as (W & -> & H1). fld in *.
    exists W. split; [done|]. intros c. destruct (H1 c) as [[H2 H3]|[H2 H3]]; [|right; split; [by right|done]]. rewrite H3, PV.
    destruct (decide (c = h)) as [-> | Dc].
    + rewrite lookup_insert. right. split; [left|]. destruct ok; auto.
    + rewrite lookup_insert_ne by done. left. split; [|done]. intros [?|?]%elem_of_cons; done.
Qed.
Lemma cut_tree K wa wb q0 gp (x : poly) s u s' : wa <> wb -> par_of s !! wa = Some (Some q0) ->
  polys s !! gp = Some x ->
  (if decide (outer x = wa) then
         c <~ contains_wire K wa wb ;
         let outer_w := if c then wa else wb in let inner_w := if c then wb else wa in
         put_outer gp outer_w ;~
         set_parent outer_w (Some q0) ;~ set_parent inner_w (Some outer_w) ;~
         (cs <~ children wa ; each (fun c => set_parent c (Some outer_w)) cs ;~
          (l <~ wire_segments inner_w None None ;
           each (fun h => sw <~ get_label (flip h) ;
                          ok <~ (if decide (sw = inner_w) then ret true else contains_wire K inner_w sw) ;
                          check ok ;~ set_parent sw (Some inner_w)) l))
       else
         set_parent wa (Some q0) ;~ set_parent wb (Some q0) ;~
         (cs <~ children wa ;
          each (fun c => i <~ contains_wire K wa c ; set_parent c (Some (if i then wa else wb))) cs)) s = (Ok u, s') ->
  tl ∅ (wires s) ->
  (outer x = wa /\ exists ow iv, ((ow = wa /\ iv = wb) \/ (ow = wb /\ iv = wa)) /\ outer_of s' = <[gp := ow]> (outer_of s) /\
     let P1 := <[iv := Some ow]> (<[ow := Some q0]> (par_of s)) in
     forall c, (par_of s' !! c = Some (Some iv) /\ exists h, wir s !! h = Some c) \/
               (P1 !! c = Some (Some wa) /\ c <> wa /\ par_of s' !! c = Some (Some ow)) \/
               ((P1 !! c <> Some (Some wa) \/ c = wa) /\ par_of s' !! c = P1 !! c)) \/
  (outer x <> wa /\ outer_of s' = outer_of s /\
     let P1 := <[wb := Some q0]> (<[wa := Some q0]> (par_of s)) in
     forall c, par_of s' !! c = P1 !! c \/ (P1 !! c = Some (Some wa) /\ par_of s' !! c = Some (Some wb))).
Proof.
  intros Dw Pa Ex E T.
  assert (La : forall W k, is_Some ((parent <$> W : gmap nat _) !! k) -> is_Some ((W : gmap nat wire) !! k)) by (intros W k; rewrite lookup_fmap; apply fmap_is_Some).
  destruct (decide (outer x = wa)) as [Ox|Ox].
  - left. split; [done|]. bnd E as c s1 E3. apply contains_wire_inv in E3 as (-> & _). cbv zeta in E.
    set (ow := if c then wa else wb) in *. set (iv := if c then wb else wa) in *.
    assert (D : (ow = wa /\ iv = wb) \/ (ow = wb /\ iv = wa)) by (subst ow iv; destruct c; auto). clearbody ow iv. clear c.
    bnd E as z1 s1 E3. apply put_outer_inv in E3 as (G & -> & O & L & F). fld in *.
    bnd E as z2 s2 E3. apply set_parent_inv in E3 as (W1 & -> & PV1 & _ & _ & _ & _ & T1). fld in *.
    bnd E as z3 s3 E3. apply set_parent_inv in E3 as (W2 & -> & PV2 & _ & _ & _ & _ & T2). fld in *.
    bnd E as cs s4 E3. apply children_inv in E3 as (-> & xw & Xw & Hcs). fld in *.
    bnd E as z4 s4 E3. apply each_set_parent in E3 as (W3 & -> & H1 & H2 & _ & _ & T3). fld in *.
    bnd E as l2 s5 E3. apply wire_segments_inv in E3 as (-> & _).
    apply each_adj in E as (W4 & -> & H3 & T4). fld in *.
    exists ow, iv. split; [done|]. split; [done|]. cbv zeta. set (P1 := <[iv := Some ow]> (<[ow := Some q0]> (par_of s))).
    assert (PP : parent <$> W2 = P1) by (rewrite PV2, PV1; done).
    assert (TT : tl ∅ W2) by auto. destruct TT as [TT1 TT2].
    intros c. destruct (H3 c) as [H4|H4]; [|by left]. right. rewrite H4.
    destruct (decide (P1 !! c = Some (Some wa) /\ c <> wa)) as [[D1 D2]|D1].
    + left. split; [done|]. split; [done|]. apply H1. apply Hcs.
      assert (Y : chl W2 wa c) by (apply TT2; [by rewrite PP|by rewrite Xw|done|set_solver]). destruct Y as (xw' & Y1 & Y2). congruence.
    + right. split. { destruct (decide (c = wa)); [by right|]. left. tauto. }
      destruct (decide (c ∈ cs)) as [Hc|Hc]; [|rewrite H2 by done; by rewrite PP]. destruct (H1 _ Hc) as [-> _].
      apply Hcs in Hc. assert (Y : (parent <$> W2) !! c = Some (Some wa)) by (apply TT1; by exists xw).
      rewrite PP in Y. destruct (decide (c = wa)) as [-> | D2]; [|exfalso; auto]. rewrite Y. unfold P1 in Y.
      destruct D as [[-> ->]|[-> ->]]; [done|]. rewrite lookup_insert in Y. congruence.
  - right. split; [done|].
    bnd E as z2 s2 E3. apply set_parent_inv in E3 as (W1 & -> & PV1 & _ & _ & _ & _ & T1). fld in *.
    bnd E as z3 s3 E3. apply set_parent_inv in E3 as (W2 & -> & PV2 & _ & _ & _ & _ & T2). fld in *.
    bnd E as cs s4 E3. apply children_inv in E3 as (-> & xw & Xw & Hcs). fld in *.
    apply each_pick in E as (W3 & -> & H1); [|done]. fld in *. split; [done|]. cbv zeta.
    assert (TT : tl ∅ W2) by auto. destruct TT as [TT1 TT2]. rewrite <- PV1, <- PV2.
    intros c. destruct (H1 c) as [[H2 H3]|[H2 H3]]; [by left|]. apply Hcs in H2.
    assert (Y : (parent <$> W2) !! c = Some (Some wa)) by (apply TT1; by exists xw). destruct H3 as [-> | ->]; auto.
Qed.

Lemma set_nxt_eta s : set_nxt (nxt s) s = s.
Proof. by destruct s. Qed.

(** * A bridge *)
Lemma split_wire_eff K g s u s' : inv s -> nxt s !! (g, true) <> Some (g, false) -> nxt s !! (g, false) <> Some (g, true) ->
  split_wire K g s = (Ok u, s') ->
  inv s' /\ exists wa wb gp m0 m1 ka kb a b,
    wir s !! (g, true) = Some wa /\ wir s !! (g, false) = Some wa /\ par_of s !! wb = None /\ pol_of s !! wa = Some (Some gp) /\
    (forall k, is_Some (par_of s' !! k) <-> k = wb \/ is_Some (par_of s !! k)) /\
    (forall k, is_Some (outer_of s' !! k) <-> is_Some (outer_of s !! k)) /\
    vtx s !! (g, false) = Some a /\ vtx s !! (g, true) = Some b /\ a <> b /\ vtx s' = dels (vtx s) g /\ xy_of s' = xy_of s /\
    nxt s !! m0 = Some (g, true) /\ m0 <> (g, false) /\ swap (nxt s) (g, false) m0 !! m1 = Some (g, false) /\
    nxt s' = dels (swap (swap (nxt s) (g, false) m0) (g, true) m1) g /\
    (forall h, reach (swap (nxt s) (g, false) m0) (g, false) h -> fst h <> g -> wir s' !! h = Some wb) /\
    (forall h, ~ reach (swap (nxt s) (g, false) m0) (g, false) h -> wir s' !! h = wir s !! h) /\
    vec s' = delete g (vec s) /\ p2s s' = delete (b, a) (delete (a, b) (p2s s)) /\
    vtx s !! ka = Some a /\ fst ka <> g /\ vtx s !! kb = Some b /\ fst kb <> g /\
    seg_of s' = <[b := Some kb]> (<[a := Some ka]> (seg_of s)) /\ last_change s' = CShape (Some gp) /\
    pol_of s' = <[wb := Some gp]> (pol_of s) /\
    (tl ∅ (wires s) -> (forall c q, par_of s !! c = Some (Some q) -> is_Some (par_of s !! q)) -> tl ∅ (wires s') /\ exists q0 o,
      par_of s !! wa = Some (Some q0) /\ outer_of s !! gp = Some o /\
      ((o = wa /\ exists ow iv, ((ow = wa /\ iv = wb) \/ (ow = wb /\ iv = wa)) /\ outer_of s' = <[gp := ow]> (outer_of s) /\
         let P1 := <[iv := Some ow]> (<[ow := Some q0]> (par_of s)) in
         forall c, (par_of s' !! c = Some (Some iv) /\ (c = wb \/ exists h, wir s !! h = Some c)) \/
                   (P1 !! c = Some (Some wa) /\ c <> wa /\ par_of s' !! c = Some (Some ow)) \/
                   ((P1 !! c <> Some (Some wa) \/ c = wa) /\ par_of s' !! c = P1 !! c)) \/
       (o <> wa /\ outer_of s' = outer_of s /\
         let P1 := <[wb := Some q0]> (<[wa := Some q0]> (par_of s)) in
         forall c, par_of s' !! c = P1 !! c \/ (P1 !! c = Some (Some wa) /\ par_of s' !! c = Some (Some wb))))).
Proof.
  intros I Nt Nf H. unfold split_wire in H.
  bnd H as d s1 E. apply is_dendrite_inv in E as (-> & wa & w' & Wt & Wf & ->). chk H as C. apply bool_decide_eq_true in C. subst w'.
  rd H as w' Ew'. replace w' with wa in * by congruence. clear w' Ew'.
  bnd H as gp s1 E. apply wire_poly_inv in E as [-> Gp].
  bnd H as wb s1 E. apply new_wire_inv in E as (cw & W1 & Nw & -> & PV1 & GV1 & SV1 & T1).
  destruct (src_insert _ _ _ _ (Some wb) (i_iw _ I) Nw) as [Fw Sw].
  rd H as bn Ebn. fld in *.
  bnd H as ls s1 E. apply wire_segments_inv in E as (-> & qwa & Qwa & W). fld in *.
  destruct (i_live _ I _ _ Wt) as [q0 Q0].
  assert (Dw : wa <> wb) by (intros ->; congruence).
  rewrite PV1, lookup_insert_ne in Qwa by done. replace qwa with (Some q0) in W by congruence. clear Qwa qwa. destruct W as (a0 & -> & W).
  bnd H as y1 s1 E. apply relabel_inv in E as (L1 & -> & L1a & L1b & L1d). specialize (L1d Dw). fld in *.
  rd H as an Ean. fld in *.
  bnd H as y2 s1 E. apply put_wire_seg_inv in E as (W2 & -> & PV2 & GV2 & SV2 & _ & T2). fld in *.
  bnd H as y3 s1 E. apply put_wire_seg_inv in E as (W3 & -> & PV3 & GV3 & SV3 & _ & T3). fld in *.
  assert (PV : parent <$> W3 = <[wb := Some wb]> (par_of s)) by congruence.
  assert (GV : w_poly <$> W3 = <[wb := None]> (pol_of s)) by congruence.
  assert (SV : w_seg <$> W3 = <[wb := Some bn]> (<[wa := Some an]> (sg_of s))).
  { rewrite SV3, SV2, SV1. rewrite (insert_commute _ wa wb) by done. by rewrite insert_insert. }
  assert (T : tl ∅ (wires s) -> (forall c q, par_of s !! c = Some (Some q) -> is_Some (par_of s !! q)) -> tl ∅ W3).
  { intros T0 TP. apply T3, T2, T1; [rewrite lookup_fmap in Fw; by destruct (wires s !! wb)| |done]. intros k Hk. apply TP in Hk as [? Hk]. congruence. }
  clear PV1 PV2 PV3 GV1 GV2 GV3 SV1 SV2 SV3 T1 T2 T3.
  assert (Va : is_Some (vtx s !! (g, false))) by (apply (topo_dom_v _ _ _ _ (i_topo _ I)); eauto). destruct Va as [a Va].
  assert (Vb : is_Some (vtx s !! (g, true))) by (apply (topo_dom_v _ _ _ _ (i_topo _ I)); eauto). destruct Vb as [b Vb].
  assert (D : a <> b) by (intros ->; by apply (t_loop _ _ _ (i_topo _ I) _ _ Va)).
  (* the ends *)
  assert (Fbn : fst bn <> g).
  { intros F. destruct (side_cases bn g) as [?|[-> | ->]]; [done| |by rewrite Ebn in Nt].
    assert (O := topo_org _ _ _ _ _ (i_topo _ I) Ebn). rewrite flip_pair in O; cbn [negb] in O; congruence. }
  assert (Fan : fst an <> g).
  { intros F. destruct (side_cases an g) as [?|[-> | ->]]; [done|by rewrite Ean in Nf|].
    assert (O := topo_org _ _ _ _ _ (i_topo _ I) Ean). rewrite flip_pair in O; cbn [negb] in O; congruence. }
  assert (W1' := walk_ok _ _ _ _ _ _ W). destruct W1' as (Hbn & W2' & W3' & W4').
  assert (Nl : (g, false) ∉ ls) by (apply W4'; congruence).
  assert (Ntl : (g, true) ∉ ls).
  { intros Ht. destruct (W2' _ Ht) as (k & K1 & K2). rewrite Ebn in K1. injection K1 as <-. destruct K2 as [-> | [? _]]; done. }
  clear W2' W3' W4'.
  bnd H as y4 s1 E.
  apply (disconnect_wires_eff _ wa) in E as (W4 & -> & PV4 & GV4 & T4 & C4); [|fld; by rewrite L1b..]. fld in *.
  assert (SV4 : w_seg <$> W4 = w_seg <$> W3 \/ exists k, w_seg <$> W4 = <[wa := Some k]> (w_seg <$> W3) /\ L1 !! k = Some wa /\ fst k <> g).
  { destruct C4 as [[C4 _]|C4]; [by left|by right]. }
  clear C4.
  bnd H as y5 s1 E1. bnd H as y6 s2 E2.
  match type of E1 with _ ?s0 = _ => set (s0' := s0) in * end.
  destruct (detach_eff g s0' (wir s) _ _ _ _ a b E1 E2 (i_topo _ I) (i_pts _ I) Va Vb Nt Nf) as
    (m0 & m1 & ka & kb & P & G & E0 & D0 & Em1 & Vka & Fka & Vkb & Fkb & R & M & -> & _).
  subst s0'. fld in *. clear E1 E2 s1.
  bnd H as g' s1 E. apply wire_poly_inv in E as [-> Gp']. fld in *.
  rewrite GV4, GV, lookup_insert_ne in Gp' by done. replace g' with gp in * by congruence. clear g' Gp'.
  bnd H as y7 s1 E. apply put_wire_poly_inv in E as (W5 & -> & PV5 & GV5 & SV5 & _ & T5). fld in *.
  bnd H as q s1 E. apply get_parent_inv in E as [-> Q]. fld in *. rewrite PV5, PV4, PV, lookup_insert_ne, Q0 in Q by done. injection Q as <-.
  rd H as x Ex. fld in *. bnd H as y8 sA E.
  match type of E with _ ?s0 = _ => set (sB := s0) in * end.
  assert (St : tstep sB sA).
  { destruct (decide (outer x = wa)) as [Ox|Ox].
    - bnd E as c s1 E3. apply contains_wire_inv in E3 as (-> & _). cbv zeta in E.
      bnd E as z1 s1 E3. apply tstep_outer in E3. eapply tstep_trans; [exact E3|]. clear E3.
      bnd E as z2 s2 E3. apply tstep_parent in E3. eapply tstep_trans; [exact E3|]. clear E3.
      bnd E as z3 s3 E3. apply tstep_parent in E3. eapply tstep_trans; [exact E3|]. clear E3.
      bnd E as cs s4 E3. apply children_inv in E3 as (-> & _).
      bnd E as z4 s4 E3. apply tstep_each in E3; [|intros k t z t' Ht; by eapply tstep_parent]. eapply tstep_trans; [exact E3|]. clear E3.
      bnd E as l2 s5 E3. apply wire_segments_inv in E3 as (-> & _).
      eapply tstep_each; [|exact E]. intros h t z t' Ht. rd Ht as sw Esw. bnd Ht as ok t1 Et.
      assert (t1 = t) as ->. { destruct (decide _); [apply ret_inv in Et as [_ ->]; done|]. by apply contains_wire_inv in Et as (-> & _). }
      chk Ht as Cok. by eapply tstep_parent.
    - bnd E as z2 s2 E3. apply tstep_parent in E3. eapply tstep_trans; [exact E3|]. clear E3.
      bnd E as z3 s3 E3. apply tstep_parent in E3. eapply tstep_trans; [exact E3|]. clear E3.
      bnd E as cs s4 E3. apply children_inv in E3 as (-> & _).
      eapply tstep_each; [|exact E]. intros h t z t' Ht. bnd Ht as c t1 Et. apply contains_wire_inv in Et as (-> & _). by eapply tstep_parent. }
  assert (PB : parent <$> W5 = <[wb := Some wb]> (par_of s)) by (by rewrite PV5, PV4).
  assert (Qa : par_of sB !! wa = Some (Some q0)) by (change ((parent <$> W5) !! wa = Some (Some q0)); by rewrite PB, lookup_insert_ne).
  assert (CT := cut_tree K wa wb q0 gp x sB _ _ Dw Qa Ex E). clear E Qa.
  destruct St as (W6 & G6 & -> & [S1 S2 S3 S4 S5 S6 S7]).
  change (par_of (set_wires W6 (set_polys G6 sB))) with (parent <$> W6) in CT. change (par_of sB) with (parent <$> W5) in CT.
  change (outer_of (set_wires W6 (set_polys G6 sB))) with (outer <$> G6) in CT. change (outer_of sB) with (outer <$> G) in CT.
  change (wir sB) with L1 in CT. change (wires sB) with W5 in CT.
  rewrite PB in CT. rewrite (p_outer _ _ _ _ R) in CT.
  assert (Ox : outer_of s !! gp = Some (outer x)) by (rewrite <- (p_outer _ _ _ _ R), lookup_fmap, Ex; done).
  assert (Ins : forall A B, <[wa := A]> (<[wb := B]> (<[wb := Some wb]> (par_of s))) = <[wa := A]> (<[wb := B]> (par_of s))) by (intros A B; by rewrite insert_insert).
  assert (Ins' : forall A B, <[wb := A]> (<[wa := B]> (<[wb := Some wb]> (par_of s))) = <[wb := A]> (<[wa := B]> (par_of s))).
  { intros A B. rewrite (insert_commute _ wa wb) by done. by rewrite insert_insert. }
  assert (CT2 : tl ∅ W5 -> exists o, outer_of s !! gp = Some o /\
      ((o = wa /\ exists ow iv, ((ow = wa /\ iv = wb) \/ (ow = wb /\ iv = wa)) /\ outer <$> G6 = <[gp := ow]> (outer_of s) /\
         let P1 := <[iv := Some ow]> (<[ow := Some q0]> (par_of s)) in
         forall c, ((parent <$> W6) !! c = Some (Some iv) /\ exists h, L1 !! h = Some c) \/
                   (P1 !! c = Some (Some wa) /\ c <> wa /\ (parent <$> W6) !! c = Some (Some ow)) \/
                   ((P1 !! c <> Some (Some wa) \/ c = wa) /\ (parent <$> W6) !! c = P1 !! c)) \/
       (o <> wa /\ outer <$> G6 = outer_of s /\
         let P1 := <[wb := Some q0]> (<[wa := Some q0]> (par_of s)) in
         forall c, (parent <$> W6) !! c = P1 !! c \/ (P1 !! c = Some (Some wa) /\ (parent <$> W6) !! c = Some (Some wb))))).
  { intros Tl. exists (outer x). split; [done|]. destruct (CT Tl) as [(O1 & ow & iv & C1 & C2 & C3)|(O1 & C2 & C3)].
    - left. split; [done|]. exists ow, iv. split; [done|]. split; [done|]. cbv zeta. cbv zeta in C3.
      destruct C1 as [[-> ->]|[-> ->]]; [by rewrite Ins' in C3|by rewrite Ins in C3].
    - right. split; [done|]. split; [done|]. cbv zeta. cbv zeta in C3. by rewrite Ins' in C3. }
  clear CT Ins Ins' Ox PB.
  change (wires sB) with W5 in *. change (polys sB) with G in *.
  assert (PVd : forall k, is_Some ((parent <$> W6) !! k) <-> k = wb \/ is_Some (par_of s !! k)).
  { intros k. rewrite S3, PV5, PV4, PV. symmetry. apply live_insert. }
  assert (PVs : forall k q, k = wb \/ par_of s !! k = Some (Some q) -> exists q', (parent <$> W6) !! k = Some (Some q')).
  { intros k q Hk. destruct (decide (k = wb)) as [-> | Dk].
    - apply (S4 wb wb). by rewrite PV5, PV4, PV, lookup_insert.
    - destruct Hk as [? | Hk]; [done|]. apply (S4 k q). by rewrite PV5, PV4, PV, lookup_insert_ne. }
  assert (SV6 : (w_seg <$> W6) !! wb = Some (Some bn) /\ (exists k, (w_seg <$> W6) !! wa = Some (Some k) /\ fst k <> g /\ L1 !! k = Some wa \/ (w_seg <$> W6) !! wa = Some (Some an)) /\
     forall k, k <> wa -> k <> wb -> (w_seg <$> W6) !! k = sg_of s !! k).
  { rewrite S1, SV5. destruct SV4 as [-> | (k & -> & K1 & K2)]; rewrite SV.
    - split; [by rewrite lookup_insert|]. split; [exists an; right; by rewrite lookup_insert_ne, lookup_insert|]. intros k D1 D2. by rewrite !lookup_insert_ne.
    - split; [by rewrite lookup_insert_ne, lookup_insert|]. split; [exists k; left; by rewrite lookup_insert|]. intros k' D1 D2. by rewrite !lookup_insert_ne. }
  assert (G6f : forall P, free_ok P G -> free_ok P G6) by exact S6.
  assert (T6' : tl ∅ (wires s) -> (forall c q, par_of s !! c = Some (Some q) -> is_Some (par_of s !! q)) -> tl ∅ W5).
  { intros X1 X2. apply T5, T4. by apply T. }
  assert (T6 : tl ∅ (wires s) -> (forall c q, par_of s !! c = Some (Some q) -> is_Some (par_of s !! q)) -> tl ∅ W6).
  { intros X1 X2. apply S7. by apply T6'. }
  assert (GV6 : w_poly <$> W6 = <[wb := Some gp]> (pol_of s)).
  { rewrite S2, GV5, GV4, GV. by rewrite insert_insert. }
  assert (O6 : forall k, is_Some ((outer <$> G6) !! k) <-> is_Some (outer_of s !! k)) by (intros k; rewrite S5, (p_outer _ _ _ _ R); done).
  clear S1 S2 S3 S4 S5 S6 S7 PV PV4 PV5 GV GV4 GV5 SV SV4 SV5 T T4 T5.
  bnd H as y9 s1 E. unf E. apply upd_inv in E. subst s1.
  assert (Mf := M).
  apply destroy_eff with (a := a) (b := b) (oa := Some ka) (ob := Some kb) in H as (P7 & G7 & R7 & M7 & ->); [|exact Va|exact Vb|done| |].
  2: { exists (Some ka). split; [|by left]. change ((p_seg <$> P) !! a = Some (Some ka)). rewrite Mf. by rewrite lookup_insert_ne, lookup_insert. }
  2: { exists (Some kb). split; [|by left]. change ((p_seg <$> P) !! b = Some (Some kb)). by rewrite Mf, lookup_insert. }
  change (ppr P G6 P7 G7) in R7. change (p_seg <$> P7 = <[b := Some kb]> (<[a := Some ka]> (p_seg <$> P))) in M7.
  match goal with |- inv ?s1 /\ _ => set (s' := s1) end.
  assert (X1 : vtx s' = dels (vtx s) g) by reflexivity.
  assert (X2 : nxt s' = dels (swap (swap (nxt s) (g, false) m0) (g, true) m1) g) by reflexivity.
  assert (X3 : wir s' = dels L1 g) by reflexivity.
  assert (X4 : wires s' = W6) by reflexivity.
  assert (X5 : points s' = P7) by reflexivity.
  assert (X6 : polys s' = G7) by reflexivity.
  assert (X7 : iw s' = cw) by reflexivity.
  assert (X8 : ig s' = ig s) by reflexivity.
  assert (X9 : vec s' = delete g (vec s)) by reflexivity.
  assert (X10 : p2s s' = delete (b, a) (delete (a, b) (p2s s))) by reflexivity.
  assert (X11 : last_change s' = CShape (Some gp)) by reflexivity.
  assert (X12 : is_ s' = old_id g (is_ s)) by reflexivity.
  assert (X13 : ip s' = ip s) by reflexivity.
  clearbody s' sB.
  assert (Mx : seg_of s' = <[b := Some kb]> (<[a := Some ka]> (seg_of s))).
  { rewrite X5, M7, Mf. rewrite (insert_commute _ b a) by done. rewrite insert_insert. rewrite (insert_commute _ a b) by done. rewrite insert_insert.
    by rewrite (insert_commute _ b a). }
  assert (AC := del_common s s' g a b (Some ka) (Some kb) I Va Vb (conj Vka Fka) (conj Vkb Fkb) X1 X12 X13 X9 X10 Mx).
  destruct AC as (A1 & A2 & A3 & A4 & A5).
  assert (Dm0 := m0_ne _ _ _ _ (i_topo _ I) m0 E0 D0).
  assert (If : is_Some (nxt s !! (g, false))) by eauto.
  assert (CW := cut_walk _ _ m0 _ _ _ Ebn E0 D0 If (ltac:(congruence)) (ltac:(by intros ->)) W). destruct CW as (_ & _ & SW).
  set (S := fun h => reach (swap (nxt s) (g, false) m0) (g, false) h) in *.
  assert (LS : forall h, S h -> fst h <> g -> L1 !! h = Some wb).
  { intros h Sh Dh. apply SW in Sh as [-> | [-> | Sh]]; [done|done|by apply L1a]. }
  assert (LN : forall h, ~ S h -> L1 !! h = wir s !! h).
  { intros h Sh. apply L1b. intros Hl. apply Sh, SW. auto. }
  assert (Dec : forall h, S h \/ ~ S h).
  { intros h. subst S. cbv beta. rewrite <- SW. destruct (decide (h = (g, false))); [auto|]. destruct (decide (h = (g, true))); [auto|]. destruct (decide (h ∈ ls)); [auto|]. right. tauto. }
  assert (Lf := label_fresh _ _ I Fw).
  (* the other part is not empty *)
  assert (San : ~ S an).
  { assert (Ra : reach (nxt s) (g, false) m0).
    { apply (labels_reach (nxt s) (wir s) _ _ wa); [apply I|done|]. rewrite <- Wt. symmetry. by apply (topo_lab _ _ _ _ _ (i_topo _ I)). }
    assert (NC := swap_cut (nxt s) (g, false) m0 (t_perm _ _ _ (i_topo _ I)) If (mk_is_Some _ _ E0) (fun e => D0 (eq_sym e)) Ra).
    intros Sn. apply NC. assert (Em : swap (nxt s) (g, false) m0 !! m0 = Some an) by (by eapply swap_r).
    assert (Pm : perm (swap (nxt s) (g, false) m0)) by apply swap_perm, I.
    apply (reach_trans _ _ an); [exact Sn|]. apply reach_sym; [done|by rewrite Em|by apply reach_step]. }
  assert (Lan : L1 !! an = Some wa) by (rewrite LN by done; rewrite <- Wf; by apply (topo_lab _ _ _ _ _ (i_topo _ I))).
  assert (Lab : forall h w, L1 !! h = Some w -> w = wb \/ (w <> wb /\ exists h', wir s !! h' = Some w)).
  { intros h w Eh. destruct (decide (h ∈ ls)) as [Hh|Hh]; [rewrite L1a in Eh by done; left; congruence|]. right. rewrite L1b in Eh by done.
    split; [|eauto]. intros ->. by apply (Lf h). }
  assert (Deq : forall h, fst h <> g -> dels L1 g !! h = L1 !! h) by (intros h Dh; by rewrite dels_ne).
  split; [constructor|].
  - rewrite X1, X2, X3. apply (topo_cut_rm _ _ _ _ (i_topo _ I) m0 m1 E0 D0 Em1 Nt wa wb L1 S); try done.
  - done.
  - rewrite X5, X6. apply R7, G6f, R, I.
  - done.
  - done.
  - intros h w. rewrite X3, X4. intros Eh. destruct (side_cases h g) as [Dh|[-> | ->]]; [|by rewrite dels_in in Eh..]. rewrite Deq in Eh by done.
    destruct (Lab _ _ Eh) as [-> | (Dl' & h' & Eh')]; [apply (PVs wb 0); by left|].
    destruct (i_live _ I _ _ Eh') as [q Eq]. apply (PVs w q). by right.
  - intros h w. rewrite X3, X4. intros Eh. destruct (side_cases h g) as [Dh|[-> | ->]]; [|by rewrite dels_in in Eh..]. rewrite Deq in Eh by done.
    destruct SV6 as (Y1 & (k & Y2) & Y3). destruct (Lab _ _ Eh) as [-> | (Dl' & h' & Eh')].
    + exists bn. rewrite Deq by done. split; [done|]. by apply L1a.
    + destruct (decide (w = wa)) as [-> | Dwa].
      * destruct Y2 as [(Z1 & Z2 & Z3)|Z1]; [exists k; by rewrite Deq|exists an; by rewrite Deq].
      * destruct (i_seg _ I _ _ Eh') as (m & N1 & N2). exists m. rewrite Y3 by done. split; [done|].
        assert (Dm : fst m <> g). { intros Fm. destruct (side_cases m g) as [?|[-> | ->]]; [done|congruence..]. }
        rewrite Deq by done. rewrite L1b; [done|]. intros Hm. apply L1d in Hm. congruence.
  - done.
  - done.
  - rewrite X7. eapply src_ext; [|exact Sw]. intros k. rewrite X4, PVd, <- live_insert. done.
  - rewrite X8. eapply src_ext; [|exact (i_ig _ I)]. intros k. rewrite X6, (p_outer _ _ _ _ R7). symmetry. apply O6.
  - exists wa, wb, gp, m0, m1, ka, kb, a, b. split; [done|]. split; [done|]. split; [done|]. split; [done|]. split; [by rewrite X4|].
    split; [intros k; rewrite X6, (p_outer _ _ _ _ R7); apply O6|]. split; [done|]. split; [done|]. split; [done|]. split; [done|].
    split; [rewrite X5, (p_xy _ _ _ _ R7); apply R|]. split; [done|]. split; [done|]. split; [done|]. split; [done|]. rewrite X3.
    split; [intros h Hh Dh; rewrite Deq by done; by apply LS|].
    split. { intros h Hh. destruct (side_cases h g) as [Dh|[-> | ->]]; [rewrite Deq by done; by apply LN| |]; exfalso; apply Hh, SW; auto. }
    rewrite X4. split; [done|]. split; [done|]. split; [done|]. split; [done|]. split; [done|]. split; [done|]. split; [done|]. split; [done|].
    split; [done|]. intros X14 X15. split; [by apply T6|]. specialize (CT2 (T6' X14 X15)). destruct CT2 as (o & Oo & CT2). exists q0, o. split; [done|]. split; [done|].
    rewrite X6, (p_outer _ _ _ _ R7).
    destruct CT2 as [(O1 & ow & iv & C1 & C2 & C3)|CT2]; [|by right]. left. split; [done|]. exists ow, iv. split; [done|]. split; [done|]. cbv zeta. cbv zeta in C3.
    intros c. destruct (C3 c) as [(C4 & h & C5)|C4]; [|by right]. left. split; [done|]. destruct (Lab _ _ C5) as [?|[_ ?]]; auto.
Qed.
