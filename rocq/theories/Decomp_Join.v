(** A segment between two wires keeps the invariant; loops over children and free points. *)
From stdpp Require Import gmap list relations.
From Coq Require Import QArith.
From Verif Require Import Decomp_Model Decomp_Perm Decomp_Surgery Decomp_Eff Decomp_Tree Decomp_Inv Decomp_Add.
Local Open Scope nat_scope.

(** * Loops *)
Lemma each_set_parent q cs s u s' : each (fun c => set_parent c q) cs s = (Ok u, s') ->
  exists W, s' = set_wires W s /\ (forall c, c ∈ cs -> (parent <$> W) !! c = Some q /\ is_Some (par_of s !! c)) /\
    (forall c, c ∉ cs -> (parent <$> W) !! c = par_of s !! c) /\
    w_poly <$> W = pol_of s /\ w_seg <$> W = sg_of s /\ (forall X, tl X (wires s) -> tl X W).
Proof.
  revert s u. induction cs as [|c cs IH]; intros s u H.
  - apply ret_inv in H as [_ ->]. exists (wires s). split; [by destruct s|]. split; [by intros c ?%elem_of_nil|]. done.
  - cbn [each] in H. bnd H as u1 s1 E. apply set_parent_inv in E as (W1 & -> & PV & GV & SV & L & _ & T1).
    apply IH in H as (W & -> & H1 & H2 & H3 & H4 & T2). fld in *. exists W. split; [done|].
    assert (X : forall k, is_Some ((parent <$> W1) !! k) -> is_Some (par_of s !! k)).
    { intros k Hk. rewrite PV in Hk. apply live_insert in Hk as [-> | Hk]; [|done]. rewrite lookup_fmap. by apply fmap_is_Some. }
    split; [|split; [|split; [|split]]].
    + intros k Hk. destruct (decide (k ∈ cs)) as [D|D]; [destruct (H1 _ D); auto|]. apply elem_of_cons in Hk as [-> | Hk]; [|done].
      rewrite H2 by done. rewrite PV, lookup_insert. split; [done|]. rewrite lookup_fmap. by apply fmap_is_Some.
    + intros k Hk. rewrite H2 by (intros ?; apply Hk; by right). rewrite PV. apply lookup_insert_ne. intros <-. apply Hk. left.
    + congruence.
    + congruence.
    + auto.
Qed.
Lemma contains_wire_inv K a b s r s' : contains_wire K a b s = (Ok r, s') -> s' = s /\
  exists qa, par_of s !! a = Some qa /\ (qa = None -> r = true) /\ (qa <> None -> par_of s !! b = Some None -> r = false) /\
    (forall q, qa <> None -> par_of s !! b = Some (Some q) -> r = k_wire K s a b).
Proof.
  unfold contains_wire, is_root. intros H. bnd H as ra s1 E. bnd E as qa s2 E1. apply get_parent_inv in E1 as [-> E1].
  apply ret_inv in E as [-> ->]. destruct qa as [qa|].
  - bnd H as rb s1 E. bnd E as qb s2 E2. apply get_parent_inv in E2 as [-> E2]. apply ret_inv in E as [-> ->]. destruct qb as [qb|].
    + cbv beta in H. injection H as <- <-. split; [done|]. exists (Some qa). split; [done|]. split; [done|]. split; [congruence|done].
    + apply ret_inv in H as [-> ->]. split; [done|]. exists (Some qa). split; [done|]. split; [done|]. split; [done|]. congruence.
  - apply ret_inv in H as [-> ->]. split; [done|]. exists None. split; [done|]. split; [done|]. done.
Qed.
Lemma contains_point_inv K w p s r s' : contains_point K w p s = (Ok r, s') -> s' = s.
Proof.
  unfold contains_point, is_root. intros H. bnd H as ra s1 E. bnd E as qa s2 E1. apply get_parent_inv in E1 as [-> E1].
  apply ret_inv in E as [-> ->]. destruct qa as [qa|]; [by injection H as <- <-|]. by apply ret_inv in H as [-> ->].
Qed.
Lemma set_polygon_eff p g s u s' : set_polygon p g s = (Ok u, s') ->
  is_Some (outer_of s !! g) /\ is_Some (seg_of s !! p) /\
  exists P G, s' = set_polys G (set_points P s) /\ ppr (points s) (polys s) P G /\ p_seg <$> P = <[p := None]> (seg_of s).
Proof.
  intros H. apply set_polygon_pp in H as (H1 & H2 & H). rewrite !lookup_fmap, !fmap_is_Some. split; [done|]. split; [done|]. by apply pp_open.
Qed.
(** Free points go from one polygon to another. *)
Lemma each_points (f : nat -> M unit) l s u s' :
  (forall p s u s', f p s = (Ok u, s') -> s' = s \/ exists P G, s' = set_polys G (set_points P s) /\ ppr (points s) (polys s) P G /\ p_seg <$> P = <[p := None]> (seg_of s)) ->
  (forall p, p ∈ l -> seg_of s !! p = Some None) -> each f l s = (Ok u, s') ->
  exists P G, s' = set_polys G (set_points P s) /\ ppr (points s) (polys s) P G /\ p_seg <$> P = seg_of s.
Proof.
  intros Hf. revert s u. induction l as [|p l IH]; intros s u Hl H.
  - apply ret_inv in H as [_ ->]. exists (points s), (polys s). split; [by destruct s|]. split; [apply ppr_refl|done].
  - cbn [each] in H. bnd H as u1 s1 E. apply Hf in E as [-> | (P & G & -> & R & M)].
    + eapply IH in H; [done|]. intros q Hq. apply Hl. by right.
    + rewrite insert_id in M by (apply Hl; left). apply IH in H as (P' & G' & -> & R' & M').
      * exists P', G'. split; [done|]. fld in *. split; [by eapply ppr_trans|]. congruence.
      * intros q Hq. fld. rewrite M. apply Hl. by right.
Qed.

Lemma has_seg s h p : inv s -> vtx s !! h = Some p -> exists x, seg_of s !! p = Some (Some x).
Proof.
  intros I E. destruct (i_pts _ I) as (P1 & P2 & P3). destruct (P3 _ _ E) as [[x|] Ex]; [eauto|]. exfalso. by apply (P2 _ h Ex).
Qed.

(** * The walk of a removed wire *)
Section JoinWalk.
Context (v : gmap he nat) (f : gmap he he) (l : gmap he nat) (g : nat).
Hypothesis T : topo v f l.
Hypothesis Fr : forall b, f !! (g, b) = None.
Context (f' : gmap he he) (ks : bool) (pr nr pk : he) (rm keep : nat).
Hypothesis Epr : f !! pr = Some nr.
Hypothesis Lr : l !! pr = Some rm.
Hypothesis Lk : l !! pk = Some keep.
Hypothesis D : keep <> rm.
Hypothesis F1 : f' !! (g, negb ks) = Some nr.
Hypothesis F2 : f' !! pr = Some (g, ks).
Hypothesis F3 : forall h, fst h <> g -> h <> pr -> h <> pk -> f' !! h = f !! h.
Lemma join_walk n ls : walk n f' (g, negb ks) (g, ks) (g, negb ks) = Ok ls ->
  (g, negb ks) ∈ ls /\ (g, ks) ∉ ls /\ forall h, fst h <> g -> h ∈ ls <-> l !! h = Some rm.
Proof.
  intros W. apply walk_ok in W as (W1 & W2 & W3 & W4). split; [done|]. split; [apply W4; destruct ks; done|].
  assert (Lnr : l !! nr = Some rm) by (by rewrite (topo_lab _ _ _ _ _ T Epr)).
  intros h Dh. split.
  - intros Hh. specialize (W3 h Hh).
    assert (G : forall x, rtc (fun x y => x ∈ ls /\ f' !! x = Some y) x h -> (x = (g, negb ks) \/ (fst x <> g /\ l !! x = Some rm)) -> l !! h = Some rm).
    { clear W3. intros x R. induction R as [x|x y z [Sx Sy] R IH]; [intros [-> | [_ ?]]; done|]. intros Q. apply IH; [done|done|].
      assert (Hy : y ∈ ls) by (destruct R as [|y y' z [? _] _]; done).
      assert (Dy : y <> (g, ks)) by (intros ->; revert Hy; apply W4; destruct ks; done).
      destruct Q as [-> | [Dx Lx]].
      - rewrite F1 in Sy. injection Sy as <-. right. split; [|done]. by apply (old_ne' _ _ _ _ T Fr _ _ Epr).
      - destruct (decide (x = pr)) as [-> | Dp]; [rewrite F2 in Sy; congruence|]. rewrite F3 in Sy; [|done|done|intros ->; congruence].
        right. split; [by apply (old_ne' _ _ _ _ T Fr _ _ Sy)|]. by rewrite (topo_lab _ _ _ _ _ T Sy). }
    apply (G (g, negb ks)); [done|by left].
  - intros Lh. assert (R : reach f nr h) by (eapply labels_reach; [apply T|done|done]).
    assert (Hn : nr ∈ ls).
    { destruct (W2 _ W1) as (k & K1 & K2). rewrite F1 in K1. injection K1 as <-. destruct K2 as [-> | [_ K2]]; [|done].
      exfalso. by apply (old_ne' _ _ _ _ T Fr _ _ Epr). }
    assert (G : forall x, reach f x h -> x ∈ ls -> l !! x = Some rm -> h ∈ ls); [|by apply (G nr)].
    clear Lh Dh R W3. intros x R. induction R as [|x y z S R IH]; [done|]. intros Hx Lx. unfold step in S.
    assert (Ly : l !! y = Some rm) by (by rewrite (topo_lab _ _ _ _ _ T S)).
    apply IH; [|done]. destruct (decide (x = pr)) as [-> | Dp]. 2: {
      destruct (W2 _ Hx) as (k & K1 & K2). rewrite F3 in K1; [|by apply (old_ne _ _ Fr _ _ S)|done|intros ->; congruence].
      replace k with y in K2 by congruence. destruct K2 as [-> | [_ K2]]; [|done]. exfalso. by apply (old_ne' _ _ _ _ T Fr _ _ S). }
    replace y with nr by congruence. destruct (W2 _ W1) as (k & K1 & K2). rewrite F1 in K1. injection K1 as <-.
    destruct K2 as [-> | [_ K2]]; [|done]. exfalso. by apply (old_ne' _ _ _ _ T Fr _ _ Epr).
Qed.
End JoinWalk.

(** * A segment between two wires *)
Lemma join_wires_eff a b pa na wa pb nb wb s i s' : inv s -> fits s a (pa, na, wa) -> fits s b (pb, nb, wb) ->
  p2s s !! (a, b) = None -> p2s s !! (b, a) = None -> join_wires a b (pa, na, wa) (pb, nb, wb) s = (Ok i, s') ->
  inv s' /\ exists g o side keep rm up xrm,
    wa <> wb /\ pol_of s !! wa = Some (Some g) /\ pol_of s !! wb = Some (Some g) /\ outer_of s !! g = Some o /\
    side = (if decide (o = wa) then Some false else if decide (o = wb) then Some true else None) /\
    keep = (if default true side then wb else wa) /\ rm = (if default true side then wa else wb) /\
    match side with None => up = Some keep | Some _ => par_of s !! keep = Some up end /\
    outer_of s' = match side with None => outer_of s | Some _ => <[g := keep]> (outer_of s) end /\
    wires s !! rm = Some xrm /\
    (forall c, c <> rm -> par_of s' !! c = if decide (c ∈ childs xrm) then Some up else par_of s !! c) /\ par_of s' !! rm = None /\
    pol_of s' = delete rm (pol_of s) /\ (tl ∅ (wires s) -> tl ∅ (wires s')) /\
    a <> b /\ vec s !! i = None /\ vtx s' = both (vtx s) i a b /\ xy_of s' = xy_of s /\
    nxt s' = f2 (nxt s) i pa pb /\
    (forall b, wir s' !! (i, b) = Some keep) /\ (forall h, fst h <> i -> wir s' !! h = (fun w => if decide (w = rm) then keep else w) <$> wir s !! h) /\
    seg_of s' = seg_of s /\ last_change s' = CShape (Some g) /\
    (exists x y, xy_of s !! a = Some x /\ xy_of s !! b = Some y /\ vec s' = <[i := vminus y x]> (vec s)) /\
    p2s s' = <[(a, b) := i]> (p2s s).
Proof.
  intros I (A1 & A2 & A3) (B1 & B2 & B3) E1 E2 H. unfold join_wires in H. chk H as Dw. apply bool_decide_eq_true in Dw.
  bnd H as g s1 E. apply wire_poly_inv in E as [-> Ga]. bnd H as g' s1 E. apply wire_poly_inv in E as [-> Gb]. chk H as C.
  apply bool_decide_eq_true in C. subst g'. up H.
  bnd H as i' s1 E. apply make_segment_eff in E as (D & xa & xb & c & P1 & G1 & Ea & Eb & Ni & R1 & M1 & ->). fld in *.
  bnd H as u3 s1 E. apply connect_vtx_eff in E as (p2 & P2 & G2 & V2 & _ & R2 & M2 & ->). fld in *.
  bnd H as u4 s1 E. apply connect_vtx_eff in E as (p3 & P3 & G3 & V3 & _ & R3 & M3 & ->). fld in *.
  rd H as x Ex. fld in *.
  rewrite both_f in V2. injection V2 as <-. rewrite both_t in V3. injection V3 as <-.
  assert (Ma := has_seg _ _ _ I A2). assert (Mb := has_seg _ _ _ I B2).
  destruct Ma as [ha Ma], Mb as [hb Mb].
  assert (M0 : jn b (i', true) (jn a (i', false) (seg_of s)) = seg_of s) by (rewrite (jn_id a _ _ _ Ma); by apply (jn_id b _ _ hb)).
  assert (M1' := M1). rewrite M0 in M1'.
  rewrite M1' in M2. rewrite (jn_id _ _ _ _ Ma) in M2. rewrite M2 in M3. rewrite (jn_id _ _ _ _ Mb) in M3.
  assert (R : ppr (points s) (polys s) P3 G3) by (eapply ppr_trans; [exact R1|]; by eapply ppr_trans).
  set (side := if decide (outer x = wa) then Some false else if decide (outer x = wb) then Some true else None) in *.
  set (ks := default true side) in *.
  rd H as keep Ek. rd H as rm Er. fld in *.
  change (<[(i', true):=wb]> (<[(i', false):=wa]> (wir s))) with (both (wir s) i' wa wb) in *.
  assert (Keep : keep = if ks then wb else wa) by (destruct ks; [rewrite both_t in Ek|rewrite both_f in Ek]; congruence).
  assert (Rm : rm = if ks then wa else wb) by (destruct ks; cbn in Er; [rewrite both_f in Er|rewrite both_t in Er]; congruence).
  clear Ek Er.
  assert (Fi : vec s !! i' = None) by (eapply (src_insert _ _ _ _ (0, 0)%Q (i_is _ I)); exact Ni).
  assert (Fn := fresh_nxt _ _ I Fi).
  bnd H as up s1 E.
  assert (Up : exists G4, s1 = St P3 (both (vtx s) i' a b) (<[pb:=flip (i', true)]> (<[(i', true):=nb]> (<[pa:=flip (i', false)]> (<[(i', false):=na]> (nxt s)))))
      (both (wir s) i' wa wb) (<[i':=vminus xb xa]> (vec s)) (<[(a, b):=i']> (p2s s)) (wires s) G4 (ip s) c (iw s) (ig s) (CShape (Some g)) /\
      match side with None => up = Some keep | Some _ => par_of s !! keep = Some up end /\
      outer <$> G4 = match side with None => outer_of s | Some _ => <[g := keep]> (outer_of s) end /\
      (forall P, free_ok P G3 -> free_ok P G4) /\ is_Some (outer_of s !! g)).
  { assert (Ig : is_Some (outer_of s !! g)) by (rewrite <- (p_outer _ _ _ _ R), lookup_fmap, Ex; eauto).
    destruct side as [sd|].
    - bnd E as q s2 E0. apply get_parent_inv in E0 as [-> Eq]. bnd E as u6 s2 E0. apply put_outer_inv in E0 as (G4 & -> & O4 & _ & F4).
      apply ret_inv in E as [-> ->]. fld in *. exists G4. split; [done|]. split; [done|]. split; [by rewrite O4, (p_outer _ _ _ _ R)|]. done.
    - apply ret_inv in E as [-> ->]. exists G3. split; [done|]. split; [done|]. split; [apply R|]. done. }
  destruct Up as (G4 & -> & Up & O4 & F4 & Ig). clear E.
  assert (EF : <[pb:=flip (i', true)]> (<[(i', true):=nb]> (<[pa:=flip (i', false)]> (<[(i', false):=na]> (nxt s)))) = f2 (nxt s) i' pa pb).
  { symmetry. apply (f2_inserts (vtx s) (nxt s) (wir s) i' Fn pa na pb nb a b wa A1 B1 A2 B2 D A3). }
  rewrite EF in H. clear EF.
  bnd H as ls s1 E. apply wire_segments_inv in E as (-> & qrm & Qrm & W). fld in *.
  assert (Lrm : wir s !! (if ks then pa else pb) = Some rm) by (subst rm; by destruct ks).
  assert (Lkp : wir s !! (if ks then pb else pa) = Some keep) by (subst keep; by destruct ks).
  assert (Dk : keep <> rm) by (subst keep rm; destruct ks; congruence).
  destruct (i_live _ I _ _ Lrm) as [q0 Q0]. replace qrm with (Some q0) in W by congruence. destruct W as (a0 & -> & W).
  assert (JW : (i', negb ks) ∈ ls /\ (i', ks) ∉ ls /\ forall h, fst h <> i' -> h ∈ ls <-> wir s !! h = Some rm).
  { eapply (join_walk _ _ _ _ (i_topo _ I) Fn _ ks (if ks then pa else pb) (if ks then na else nb) (if ks then pb else pa) rm keep); [| | | | | | |exact W]; try done.
    - by destruct ks.
    - destruct ks; cbn; [by apply (f2_false _ _ Fn _ _ _ nb)|by apply (f2_true (vtx s) _ (wir s) _ Fn pa na pb nb a b wa)].
    - destruct ks; cbn; [by apply (f2_pa (vtx s) _ (wir s) _ Fn pa na pb a b wa)|by apply (f2_pb (vtx s) _ (wir s) _ Fn pa na pb nb a b wa)].
    - intros h X1 X2 X3. apply f2_ne; [done|by destruct ks|by destruct ks]. }
  destruct JW as (J1 & J2 & J3).
  bnd H as u6 s1 E. apply relabel_inv in E as (L1 & -> & L1a & L1b & _). fld in *. up H. fld in *.
  bnd H as cs s1 E. apply children_inv in E as (-> & xrm & Xrm & Cs). fld in *.
  bnd H as u7 s1 E. apply each_set_parent in E as (W5 & -> & PV5a & PV5b & GV5 & SV5 & T5). fld in *.
  bnd H as q s1 E. apply get_parent_inv in E as [-> Eq]. rd H as q' Eq'. subst q. fld in *.
  bnd H as u8 s1 E. apply drop_child_inv in E as (W6 & -> & PV6 & GV6 & SV6 & Ch6 & Nc6 & C6 & T6). fld in *.
  bnd H as u9 s1 E. apply rm_wire_inv in E as (W7 & -> & PV7 & GV7 & SV7 & _ & T7). fld in *.
  apply ret_inv in H as [-> ->]. fld in *.
  set (L2 := <[(i', false):=keep]> L1) in *.
  match goal with |- inv ?s1 /\ _ => set (s' := s1) end.
  assert (LS : forall b, L2 !! (i', b) = Some keep).
  { intros [|]; [|apply lookup_insert]. unfold L2. rewrite lookup_insert_ne by done. destruct ks; cbn in J1.
    - rewrite L1b by done. rewrite both_t. by subst keep.
    - by apply L1a. }
  assert (LO : forall h, fst h <> i' -> L2 !! h = (fun w => if decide (w = rm) then keep else w) <$> wir s !! h).
  { intros h Dh. unfold L2. rewrite lookup_insert_ne by (by intros <-). destruct (decide (h ∈ ls)) as [Hl|Hl].
    - rewrite L1a by done. apply J3 in Hl; [|done]. rewrite Hl. cbn. by rewrite decide_True.
    - rewrite L1b by done. rewrite both_ne by done. rewrite J3 in Hl by done. destruct (wir s !! h) as [w|]; [|done]. cbn. rewrite decide_False; congruence. }
  assert (Mx : seg_of s' = jn b (i', true) (jn a (i', false) (seg_of s))) by (subst s'; fld; by rewrite M3, M0).
  assert (AC := add_common s s' i' a b c _ I D (mk_is_Some _ _ Ma) (mk_is_Some _ _ Mb) E1 E2 Ni eq_refl eq_refl eq_refl eq_refl eq_refl Mx).
  destruct AC as (_ & C1 & C2 & C3 & C4 & C5).
  assert (PV : forall c, c <> rm -> (parent <$> W7) !! c = if decide (c ∈ childs xrm) then Some up else par_of s !! c).
  { intros k Dk'. rewrite PV7, lookup_delete_ne, PV6 by done. destruct (decide (k ∈ childs xrm)) as [Hk|Hk]; rewrite <- Cs in Hk.
    - by apply PV5a.
    - by apply PV5b. }
  assert (UpS : exists q, up = Some q).
  { destruct (i_live _ I _ _ Lkp) as [q1 Q1]. destruct side; [|eauto]. exists q1. congruence. }
  assert (Lab : forall h w, L2 !! h = Some w -> w <> rm /\ exists h', wir s !! h' = Some w).
  { intros h w Eh. destruct (decide (fst h = i')) as [Dh|Dh].
    - destruct h as [h1 h2]. cbn in Dh. subst h1. rewrite LS in Eh. injection Eh as <-. split; [done|]. by eexists.
    - rewrite LO in Eh by done. destruct (wir s !! h) as [w0|] eqn:Ew; [|done]. cbn in Eh. injection Eh as <-.
      destruct (decide (w0 = rm)); [split; [done|]; by eexists|]. split; [done|]. by eexists. }
  split; [constructor; try done; subst s'; fld|].
  - apply (topo_join _ _ _ _ (i_topo _ I) Fn _ _ _ _ _ _ _ _ A1 B1 A2 B2 D A3 B3 keep rm); [done| |done|done].
    subst keep rm. destruct ks; auto.
  - apply F4, R, I.
  - intros h w Eh. destruct (Lab _ _ Eh) as (Dr & h' & Eh'). rewrite PV by done. destruct UpS as [q1 ->].
    destruct (decide (w ∈ childs xrm)); [eauto|]. by apply (i_live _ I h').
  - intros h w Eh. destruct (Lab _ _ Eh) as (Dr & h' & Eh'). destruct (i_seg _ I _ _ Eh') as (m & N1 & N2).
    exists m. rewrite SV7, lookup_delete_ne, SV6, SV5 by done. split; [done|]. rewrite LO by (by apply (old_side _ _ _ _ I Fi N2)).
    rewrite N2. cbn. by rewrite decide_False.
  - rewrite PV7. assert (Ir : is_Some ((parent <$> W6) !! rm)) by (rewrite PV6, Eq; eauto).
    apply src_delete; [|done]. eapply src_dom; [|apply (i_iw _ I)]. intros k. rewrite PV6.
    destruct (decide (k ∈ cs)) as [Hk|Hk]; [destruct (PV5a _ Hk) as [-> ?]; split; eauto|by rewrite PV5b].
  - eapply src_dom; [|apply (i_ig _ I)]. intros j. rewrite O4. destruct side; [|done]. rewrite <- live_insert.
    split; [by right|]. intros [-> | ?]; done.
  - exists g, (outer x), side, keep, rm, up, xrm.
    split; [done|]. split; [done|]. split; [done|]. split; [by rewrite <- (p_outer _ _ _ _ R), lookup_fmap, Ex|]. split; [done|].
    split; [done|]. split; [done|]. split; [done|]. split; [done|]. split; [done|]. split; [done|].
    split; [subst s'; fld; by rewrite PV7, lookup_delete|].
    split; [subst s'; fld; by rewrite GV7, GV6, GV5|].
    split. { intros T. subst s'. fld. apply T7; [|by apply T6, T5]. intros y Hy. exfalso. apply C6 in Hy as Hy'.
      apply (T5 _ T) in Hy'. rewrite Eq in Hy'. injection Hy' as <-. done. }
    split; [done|]. split; [done|]. split; [done|]. split; [apply R|]. split; [done|]. split; [done|]. split; [done|].
    split; [done|]. split; [done|]. split; [eauto 10|done].
Qed.
