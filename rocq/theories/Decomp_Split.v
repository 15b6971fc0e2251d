(** A segment inside a wire splits a polygon and keeps the invariant. *)
From stdpp Require Import gmap list relations.
From Coq Require Import QArith.
From Verif Require Import Decomp_Model Decomp_Spec Decomp_Perm Decomp_Surgery Decomp_Eff Decomp_Tree Decomp_Inv Decomp_Add Decomp_Join.
Local Open Scope nat_scope.

Lemma set_wires_wires W W' s : set_wires W (set_wires W' s) = set_wires W s.
Proof. by destruct s. Qed.
Lemma set_polys_polys G G' s : set_polys G (set_polys G' s) = set_polys G s.
Proof. by destruct s. Qed.
Lemma set_points_points P P' s : set_points P (set_points P' s) = set_points P s.
Proof. by destruct s. Qed.
Lemma set_polys_wires G W s : set_polys G (set_wires W s) = set_wires W (set_polys G s).
Proof. by destruct s. Qed.
Lemma set_points_polys P G s : set_points P (set_polys G s) = set_polys G (set_points P s).
Proof. by destruct s. Qed.
Lemma set_wires_points W P s : set_wires W (set_points P s) = set_points P (set_wires W s).
Proof. by destruct s. Qed.

Lemma same_geo_refl s : same_geo s s.
Proof. done. Qed.
Lemma same_geo_trans s s' s'' : same_geo s s' -> same_geo s' s'' -> same_geo s s''.
Proof. intros (? & ? & ? & ? & ? & ?) (? & ? & ? & ? & ? & ?). unfold same_geo. split; [congruence|]. split; [congruence|]. split; [congruence|]. split; [congruence|]. split; congruence. Qed.

(** Holes go to the new polygon. *)
Lemma each_children K n on q0 cs s u s' : NoDup cs -> outer_of s !! n = Some on -> par_of s !! on = Some (Some q0) ->
  each (fun c => y <~ get_poly n ; i <~ contains_wire K (outer y) c ;
                 if i then set_parent c (Some (outer y)) ;~ put_wire_poly c n else ret tt) cs s = (Ok u, s') ->
  exists W (sel : list nat), s' = set_wires W s /\ (forall c, c ∈ sel -> c ∈ cs) /\
    (forall c, c ∈ sel -> (parent <$> W) !! c = Some (Some on) /\ (w_poly <$> W) !! c = Some (Some n) /\ is_Some (par_of s !! c)) /\
    (forall c, c ∉ sel -> (parent <$> W) !! c = par_of s !! c /\ (w_poly <$> W) !! c = pol_of s !! c) /\
    w_seg <$> W = sg_of s /\ (forall X, tl X (wires s) -> tl X W) /\
    (forall c, c ∈ sel -> exists s1, same_geo s1 s /\ k_wire K s1 on c = true) /\
    (forall c q, c ∈ cs -> c ∉ sel -> par_of s !! c = Some (Some q) -> exists s1, same_geo s1 s /\ k_wire K s1 on c = false).
Proof.
  intros N. revert s u q0. induction cs as [|c cs IH]; intros s u q0 On Pn H.
  - apply ret_inv in H as [_ ->]. exists (wires s), []. split; [by destruct s|]. split; [done|]. split; [by intros ? ?%elem_of_nil|].
    split; [done|]. split; [done|]. split; [done|]. split; [by intros ? ?%elem_of_nil|]. by intros ? ? ?%elem_of_nil.
  - apply NoDup_cons in N as [N1 N2]. cbn [each] in H. bnd H as u1 s1 E. rd E as y Ey.
    assert (Oy : outer y = on) by (rewrite lookup_fmap, Ey in On; cbn in On; congruence). rewrite Oy in E.
    bnd E as r s2 E1. apply contains_wire_inv in E1 as (-> & qa & Q1 & Q2 & Q3 & Q4). rewrite Pn in Q1. injection Q1 as <-.
    destruct r.
    + bnd E as u2 s2 E2. apply set_parent_inv in E2 as (W1 & -> & PV & GV & SV & L & _ & T1).
      apply put_wire_poly_inv in E as (W2 & -> & PV2 & GV2 & SV2 & _ & T2). fld in *.
      assert (Hc : par_of s !! c = Some None \/ exists q, par_of s !! c = Some (Some q)).
      { destruct L as [z Z]. rewrite lookup_fmap, Z. cbn. destruct (parent z); eauto. }
      destruct Hc as [Hc | [q Hc]]; [exfalso; by specialize (Q3 (ltac:(done)) Hc)|].
      assert (Tr := Q4 q (ltac:(done)) Hc).
      assert (Pn' : exists q1, (parent <$> W2) !! on = Some (Some q1)).
      { rewrite PV2, PV. destruct (decide (c = on)) as [-> | D]; [rewrite lookup_insert; eauto|]. rewrite lookup_insert_ne by done. eauto. }
      destruct Pn' as [q1 Pn'].
      apply (IH N2 _ _ q1) in H as (W & sel & -> & S1 & S2 & S3 & S4 & S5 & S6 & S7); [|done|done]. fld in *.
      assert (Sg : same_geo (set_wires W2 (set_wires W1 s)) s).
      { split; [done|]. split; [done|]. split; [done|]. split; [done|]. split; [|done]. fld. congruence. }
      exists W, (c :: sel). split; [done|].
      split; [intros k [-> | Hk]%elem_of_cons; [left|right; by apply S1]|]. split; [|split; [|split; [|split; [|split]]]].
      * intros k Hk. destruct (decide (k ∈ sel)) as [D|D].
        { destruct (S2 k D) as (X1 & X2 & X3). split; [done|]. split; [done|]. rewrite PV2, PV in X3. apply live_insert in X3 as [-> | X3]; [eauto|done]. }
        apply elem_of_cons in Hk as [-> | Hk]; [|done]. destruct (S3 c D) as [X1 X2]. rewrite X1, X2, PV2, PV, GV2, !lookup_insert. eauto.
      * intros k Hk. apply not_elem_of_cons in Hk as [Dk Hk]. destruct (S3 k Hk) as [X1 X2]. rewrite X1, X2, PV2, PV, GV2, GV, !lookup_insert_ne by done. done.
      * congruence.
      * auto.
      * intros k [-> | Hk]%elem_of_cons; [by exists s|]. destruct (S6 k Hk) as (s1 & G1 & G2). exists s1. split; [|done]. by eapply same_geo_trans.
      * intros k q2 Hk Nk Pk. apply not_elem_of_cons in Nk as [Dk Nk]. apply elem_of_cons in Hk as [-> | Hk]; [done|].
        destruct (S7 k q2 Hk Nk) as (s1 & G1 & G2); [by rewrite PV2, PV, lookup_insert_ne|]. exists s1. split; [|done]. by eapply same_geo_trans.
    + apply ret_inv in E as [_ ->]. apply (IH N2 _ _ q0) in H as (W & sel & -> & S1 & S2 & S3 & S4 & S5 & S6 & S7); [|done|done].
      exists W, sel. split; [done|]. split; [intros k Hk; right; by apply S1|]. split; [done|]. split; [done|]. split; [done|]. split; [done|]. split; [done|].
      intros k q2 Hk Nk Pk. apply elem_of_cons in Hk as [-> | Hk]; [|by apply (S7 k q2)]. exists s. split; [done|]. symmetry. by apply (Q4 q2).
Qed.

(** The cycle of the new side. *)
Section SplitWalk.
Context (f' : gmap he he) (x y : he).
Hypothesis F1 : f' !! x = Some y.
Lemma split_walk n ls : walk n f' y x y = Ok ls -> forall h, (h = x \/ h ∈ ls) <-> reach f' x h.
Proof.
  intros W. apply walk_ok in W as (W1 & W2 & W3 & _). intros h. split.
  - intros [-> | Hh]; [apply rtc_refl|]. eapply reach_l; [exact F1|]. eapply rtc_subrel; [|by apply W3]. by intros a b [_ ?].
  - intros R. assert (G : forall z, reach f' z h -> z = x \/ z ∈ ls -> h = x \/ h ∈ ls); [|apply (G x); [done|by left]].
    clear R. intros z R. induction R as [|z k h S R IH]; [done|]. intros Hz. apply IH. unfold step in S. destruct Hz as [-> | Hz].
    + right. congruence.
    + destruct (W2 _ Hz) as (k' & K1 & K2). replace k' with k in K2 by congruence. destruct K2 as [-> | [_ K2]]; auto.
Qed.
End SplitWalk.

Definition tree (s : st) : Prop :=
  tl ∅ (wires s) /\ forall c q, par_of s !! c = Some (Some q) -> is_Some (par_of s !! q).

Definition pol_live (s : st) : Prop := forall w g, pol_of s !! w = Some (Some g) -> is_Some (outer_of s !! g).

Lemma split_poly_eff K a b pa na wa pb nb wb s i s' : inv s ->
  fits s a (pa, na, wa) -> fits s b (pb, nb, wb) ->
  p2s s !! (a, b) = None -> p2s s !! (b, a) = None -> split_poly K a b (pa, na, wa) (pb, nb, wb) s = (Ok i, s') ->
  inv s' /\ exists left n g o q0 on (sel : list nat) par1 pol1,
    wa = wb /\ par_of s !! left = None /\ outer_of s !! n = None /\ pol_of s !! wa = Some (Some g) /\ par_of s !! wa = Some (Some q0) /\
    (forall k, is_Some (par_of s' !! k) <-> k = left \/ is_Some (par_of s !! k)) /\
    outer_of s' = <[n := on]> (outer_of s) /\ (last_change s' = CSplit g n \/ last_change s' = CAdd g n) /\
    a <> b /\ vec s !! i = None /\ vtx s' = both (vtx s) i a b /\ xy_of s' = xy_of s /\
    nxt s' = f2 (nxt s) i pa pb /\ wir s' !! (i, true) = Some left /\ wir s' !! (i, false) = Some wa /\
    (forall h, reach (nxt s') (i, true) h -> wir s' !! h = Some left) /\
    (forall h, ~ reach (nxt s') (i, true) h -> fst h <> i -> wir s' !! h = wir s !! h) /\
    seg_of s' = seg_of s /\
    (exists x y, xy_of s !! a = Some x /\ xy_of s !! b = Some y /\ vec s' = <[i := vminus y x]> (vec s)) /\
    p2s s' = <[(a, b) := i]> (p2s s) /\
  (tree s -> pol_live s -> outer_of s !! g = Some o /\
    ((o = wa /\ on = left /\ par1 = <[left := Some q0]> (par_of s) /\ pol1 = <[left := Some n]> (pol_of s) /\ last_change s' = CSplit g n) \/
     (o <> wa /\ q0 = o /\ exists out,
        ((on = left /\ out = wa /\ exists s1, same_geo s1 s' /\ k_wire K s1 wa left = true) \/
         (on = wa /\ out = left /\ exists s1, same_geo s1 s' /\ k_wire K s1 wa left = false)) /\
        (forall c, par1 !! c = if decide (c = on) then Some (Some out) else if decide (c = out) then Some (Some o)
                               else if decide (par_of s !! c = Some (Some wa)) then Some (Some out) else par_of s !! c) /\
        pol1 = <[on := Some n]> (<[out := Some g]> (pol_of s)) /\ last_change s' = CAdd g n)) /\
    (forall c, c ∈ sel -> par1 !! c = Some (Some o) /\ par_of s' !! c = Some (Some on) /\ pol_of s' !! c = Some (Some n)) /\
    (forall c, c ∉ sel -> par_of s' !! c = par1 !! c /\ pol_of s' !! c = pol1 !! c) /\
    (forall c, c ∈ sel -> exists s1, same_geo s1 s' /\ k_wire K s1 on c = true) /\
    (forall c, c <> o -> par1 !! c = Some (Some o) -> c ∉ sel -> exists s1, same_geo s1 s' /\ k_wire K s1 on c = false) /\
    tl ∅ (wires s')).
Proof.
  intros I (A1 & A2 & A3) (B1 & B2 & B3) E1 E2 H. unfold split_poly in H. chk H as Dw. apply bool_decide_eq_true in Dw.
  bnd H as left s1 E. apply new_wire_inv in E as (cw & W1 & Nw & -> & PV1 & GV1 & SV1 & T1).
  destruct (src_insert _ _ _ _ (Some left) (i_iw _ I) Nw) as [Fw Sw].
  bnd H as i' s1 E. apply make_segment_eff in E as (D & xa & xb & c & P1 & G1 & Ea & Eb & Ni & R1 & M1 & ->). fld in *.
  bnd H as u3 s1 E. apply connect_vtx_eff in E as (p2 & P2 & G2 & V2 & _ & R2 & M2 & ->). fld in *.
  bnd H as u4 s1 E. apply connect_vtx_eff in E as (p3 & P3 & G3 & V3 & _ & R3 & M3 & ->). fld in *.
  rewrite both_f in V2. injection V2 as <-. rewrite both_t in V3. injection V3 as <-.
  assert (Ma := has_seg _ _ _ I A2). assert (Mb := has_seg _ _ _ I B2). destruct Ma as [ha Ma], Mb as [hb Mb].
  assert (M0 : jn b (i', true) (jn a (i', false) (seg_of s)) = seg_of s) by (rewrite (jn_id a _ _ _ Ma); by apply (jn_id b _ _ hb)).
  assert (M1' := M1). rewrite M0 in M1'.
  rewrite M1' in M2. rewrite (jn_id _ _ _ _ Ma) in M2. rewrite M2 in M3. rewrite (jn_id _ _ _ _ Mb) in M3.
  assert (R : ppr (points s) (polys s) P3 G3) by (eapply ppr_trans; [exact R1|]; by eapply ppr_trans).
  change (<[(i', true):=left]> (<[(i', false):=wa]> (wir s))) with (both (wir s) i' wa left) in *.
  assert (Fi : vec s !! i' = None) by (eapply (src_insert _ _ _ _ (0, 0)%Q (i_is _ I)); exact Ni).
  assert (Fn := fresh_nxt _ _ I Fi).
  assert (EF : <[pb:=flip (i', true)]> (<[(i', true):=nb]> (<[pa:=flip (i', false)]> (<[(i', false):=na]> (nxt s)))) = f2 (nxt s) i' pa pb).
  { symmetry. apply (f2_inserts (vtx s) (nxt s) (wir s) i' Fn pa na pb nb a b wa A1 B1 A2 B2 D A3). }
  rewrite EF in H. clear EF.
  assert (Ft : f2 (nxt s) i' pa pb !! (i', true) = Some nb) by (by apply (f2_true (vtx s) _ (wir s) _ Fn pa na pb nb a b wa)).
  rd H as start Es. fld in *. rewrite Ft in Es. injection Es as <-.
  bnd H as ls s1 E. apply wire_segments_inv in E as (-> & qwa & Qwa & W). fld in *.
  destruct (i_live _ I _ _ A3) as [q0 Q0].
  assert (Dl : wa <> left) by (intros ->; congruence).
  rewrite PV1, lookup_insert_ne in Qwa by done. replace qwa with (Some q0) in W by congruence. clear Qwa qwa. destruct W as (a0 & -> & W).
  assert (SW := split_walk _ _ _ Ft _ _ W). clear W.
  bnd H as u6 s1 E. apply relabel_inv in E as (L1 & -> & L1a & L1b & L1d). specialize (L1d Dl). fld in *.
  bnd H as u7 s1 E. apply put_wire_seg_inv in E as (W2 & -> & PV2 & GV2 & SV2 & _ & T2). fld in *.
  bnd H as u8 s1 E. apply put_wire_seg_inv in E as (W3 & -> & PV3 & GV3 & SV3 & _ & T3). fld in *.
  bnd H as g s1 E. apply wire_poly_inv in E as [-> Gw]. fld in *.
  rewrite GV3, GV2, GV1, lookup_insert_ne in Gw by done.
  bnd H as n s1 E. apply new_poly_inv in E as (cg & Ng & -> & F4). fld in *.
  assert (Igs : src_ok (ig s) (fun i => is_Some ((outer <$> G3) !! i))) by (rewrite (p_outer _ _ _ _ R); apply I).
  destruct (src_insert _ _ _ _ left Igs Ng) as [Fg Sg].
  assert (Fg' : G3 !! n = None) by (rewrite lookup_fmap in Fg; by destruct (G3 !! n)).
  specialize (F4 Fg').
  bnd H as u9 s1 E. apply put_wire_poly_inv in E as (W4 & -> & PV4 & GV4 & SV4 & _ & T4). fld in *.
  rd H as x Ex. fld in *.
  assert (PV : parent <$> W4 = <[left := Some left]> (par_of s)) by congruence.
  assert (GV : w_poly <$> W4 = <[left := Some n]> (pol_of s)) by (by rewrite GV4, GV3, GV2, GV1, insert_insert).
  assert (SV : w_seg <$> W4 = <[wa := Some (i', false)]> (<[left := Some (i', true)]> (sg_of s))) by (by rewrite SV4, SV3, SV2, SV1, insert_insert).
  assert (T : tree s -> tl ∅ W4).
  { intros [T0 TP]. apply T4, T3, T2, T1; [rewrite lookup_fmap in Fw; by destruct (wires s !! left)| |done]. intros k Hk. apply TP in Hk as [? Hk]. congruence. }
  clear PV1 PV2 PV3 PV4 GV1 GV2 GV3 GV4 SV1 SV2 SV3 SV4 T1 T2 T3 T4.
  assert (Og : pol_live s -> g <> n /\ outer_of s !! g = Some (outer x)).
  { intros LG. assert (Lg : is_Some (outer_of s !! g)) by (by apply (LG wa)).
    assert (Dg : g <> n) by (intros ->; rewrite <- (p_outer _ _ _ _ R), Fg in Lg; by destruct Lg).
    rewrite lookup_insert_ne in Ex by done. split; [done|]. rewrite <- (p_outer _ _ _ _ R), lookup_fmap, Ex; done. }
  bnd H as u10 sA E.
  match type of E with _ ?s0 = _ => set (sB := s0) in * end.
  assert (K1 : exists W5 G5 lc on par1 pol1, sA = set_change lc (set_wires W5 (set_polys G5 sB)) /\ parent <$> W5 = par1 /\ w_poly <$> W5 = pol1 /\
     w_seg <$> W5 = w_seg <$> W4 /\ (tree s -> tl ∅ W5) /\ outer <$> G5 = <[n := on]> (outer_of s) /\ (forall P, free_ok P G3 -> free_ok P G5) /\
     (exists q, par1 !! on = Some (Some q)) /\
     (forall k, is_Some (par1 !! k) <-> k = left \/ is_Some (par_of s !! k)) /\
     (forall k q, k = left \/ par_of s !! k = Some (Some q) -> exists q, par1 !! k = Some (Some q)) /\
    (lc = CSplit g n \/ lc = CAdd g n) /\
    (tree s -> (outer x = wa /\ on = left /\ par1 = <[left := Some q0]> (par_of s) /\ pol1 = <[left := Some n]> (pol_of s) /\ lc = CSplit g n) \/
     (outer x <> wa /\ q0 = outer x /\ exists out,
        ((on = left /\ out = wa /\ exists s1, same_geo s1 sB /\ k_wire K s1 wa left = true) \/
         (on = wa /\ out = left /\ exists s1, same_geo s1 sB /\ k_wire K s1 wa left = false)) /\
        (forall c, par1 !! c = if decide (c = on) then Some (Some out) else if decide (c = out) then Some (Some (outer x))
                               else if decide (par_of s !! c = Some (Some wa)) then Some (Some out) else par_of s !! c) /\
        pol1 = <[on := Some n]> (<[out := Some g]> (pol_of s)) /\ lc = CAdd g n))).
  { assert (F5 : outer <$> <[n:=Po left ∅]> G3 = <[n := left]> (outer_of s)) by (rewrite fmap_insert; cbn; by rewrite (p_outer _ _ _ _ R)).
    destruct (decide (outer x = wa)) as [Ox|Ox].
    - bnd E as u1 s1 E3. apply put_outer_inv in E3 as (G5 & -> & O5 & _ & F6). subst sB. fld in *.
      bnd E as u2 s1 E3. bnd E3 as q s2 E4. apply get_parent_inv in E4 as [-> Q]. fld in *. rewrite PV, lookup_insert_ne, Q0 in Q by done. injection Q as <-.
      apply set_parent_inv in E3 as (W5 & -> & PV5 & GV5 & SV5 & _ & _ & T5). fld in *. unf E. apply upd_inv in E. subst sA.
      exists W5, G5, (CSplit g n), left, (<[left := Some q0]> (par_of s)), (<[left := Some n]> (pol_of s)). split; [reflexivity|]. split; [by rewrite PV5, PV, insert_insert|].
      split; [congruence|]. split; [done|]. split; [auto|]. split; [by rewrite O5, F5, insert_insert|]. split; [auto|].
      split; [exists q0; by rewrite lookup_insert|]. split; [intros k; by rewrite <- live_insert|].
      split; [|split; [by left|intros _; by left]]. intros k q [-> | Hk]; [rewrite lookup_insert; eauto|].
      destruct (decide (k = left)) as [-> | Dk]; [rewrite lookup_insert; eauto|]. rewrite lookup_insert_ne by done. eauto.
    - bnd E as q s1 E3. apply get_parent_inv in E3 as [-> Q]. chk E as C. apply bool_decide_eq_true in C. subst q. subst sB. fld in *.
      rewrite PV, lookup_insert_ne, Q0 in Q by done. injection Q as Q.
      bnd E as r s1 E3. apply contains_wire_inv in E3 as (-> & qa & Q1 & _ & Q3 & Q4). fld in *. rewrite PV, lookup_insert_ne, Q0 in Q1 by done.
      injection Q1 as <-. assert (Ans := Q4 left (ltac:(done))). rewrite PV, lookup_insert in Ans. specialize (Ans eq_refl).
      set (inner_w := if r then left else wa) in *. set (outer_w := if r then wa else left) in *. cbv zeta in E.
      assert (Dio : inner_w <> outer_w) by (subst inner_w outer_w; destruct r; congruence).
      bnd E as cs s1 E3. apply children_inv in E3 as (-> & xwa & Xwa & Cs). fld in *.
      bnd E as u1 s1 E3. apply each_set_parent in E3 as (W5 & -> & PV5a & PV5b & GV5 & SV5 & T5). fld in *.
      assert (Cs' : tree s -> forall k, k ∈ cs <-> par_of s !! k = Some (Some wa)).
      { intros TT k. specialize (T TT). rewrite Cs. split.
        - intros Hk. assert (X : (parent <$> W4) !! k = Some (Some wa)) by (apply T; by exists xwa).
          rewrite PV in X. apply lookup_insert_Some in X as [[_ X]|[_ X]]; [congruence|done].
        - intros Hk. assert (X : chl W4 wa k).
          { apply T; [|by rewrite Xwa|intros ->; rewrite Q0 in Hk; congruence|apply not_elem_of_empty]. rewrite PV, lookup_insert_ne; [done|]. intros <-. congruence. }
          destruct X as (x' & X1 & X2). congruence. }
      bnd E as u2 s1 E3. apply put_wire_poly_inv in E3 as (W6 & -> & PV6 & GV6 & SV6 & _ & T6). fld in *.
      bnd E as u5 s1 E3. apply put_wire_poly_inv in E3 as (W7 & -> & PV7 & GV7 & SV7 & _ & T7). fld in *.
      bnd E as u11 s1 E3. apply put_outer_inv in E3 as (G5 & -> & O5 & _ & F6). fld in *.
      bnd E as q s1 E3. apply get_parent_inv in E3 as [-> Qx]. fld in *.
      assert (Qx' : (exists q', q = Some q') /\ (tree s -> q = Some (outer x))).
      { rewrite PV7, PV6 in Qx. split; [|intros TT; rewrite PV5b in Qx by (rewrite (Cs' TT), Q0; congruence); rewrite PV, lookup_insert_ne, Q0 in Qx by done; congruence].
        destruct (decide (wa ∈ cs)) as [Hc|Hc]; [destruct (PV5a _ Hc) as [Y _]; rewrite Y in Qx; injection Qx as <-; eauto|].
        rewrite PV5b, PV, lookup_insert_ne, Q0 in Qx by done. injection Qx as <-. eauto. }
      destruct Qx' as [[q' ->] Qx']. clear Qx.
      bnd E as u12 s1 E3. apply set_parent_inv in E3 as (W8 & -> & PV8 & GV8 & SV8 & _ & _ & T8). fld in *.
      bnd E as u13 s1 E3. apply set_parent_inv in E3 as (W9 & -> & PV9 & GV9 & SV9 & _ & _ & T9). fld in *. unf E. apply upd_inv in E. subst sA.
      assert (PP : forall c, (parent <$> W9) !! c = if decide (c = inner_w) then Some (Some outer_w) else if decide (c = outer_w) then Some (Some q')
                               else if decide (c ∈ cs) then Some (Some outer_w) else par_of s !! c).
      { intros k. rewrite PV9. destruct (decide (k = inner_w)) as [-> | Dk]; [apply lookup_insert|]. rewrite lookup_insert_ne by done.
        rewrite PV8. destruct (decide (k = outer_w)) as [-> | Dk2]; [apply lookup_insert|]. rewrite lookup_insert_ne by done.
        rewrite PV7, PV6. destruct (decide (k ∈ cs)) as [Hk|Hk]; [by apply PV5a|].
        rewrite PV5b, PV by done. rewrite lookup_insert_ne; [done|]. intros <-. subst inner_w outer_w. destruct r; done. }
      rewrite !set_wires_wires, set_polys_wires, set_wires_wires.
      exists W9, G5, (CAdd g n), inner_w, (parent <$> W9), (w_poly <$> W9). split; [reflexivity|]. split; [reflexivity|]. split; [reflexivity|].
      split; [congruence|]. split; [intros TT; by apply T9, T8, T7, T6, T5, T|]. split; [by rewrite O5, F5, insert_insert|]. split; [auto|].
      split; [exists outer_w; rewrite PP; by rewrite decide_True|].
      assert (IO : forall k, k = inner_w \/ k = outer_w <-> k = left \/ k = wa) by (intros k; subst inner_w outer_w; destruct r; tauto).
      split; [|split; [|split; [by right|]]].
      + intros k. rewrite PP. destruct (decide (k = inner_w)) as [Ek|Dk].
        { split; [intros _|eauto]. destruct (proj1 (IO k)) as [? | ->]; [by left|by left|right; eauto]. }
        destruct (decide (k = outer_w)) as [Ek|Dk2].
        { split; [intros _|eauto]. destruct (proj1 (IO k)) as [? | ->]; [by right|by left|right; eauto]. }
        destruct (decide (k ∈ cs)) as [Hk|Hk]. { split; [intros _|eauto]. destruct (PV5a _ Hk) as [_ Y]. rewrite PV in Y. by apply live_insert in Y. } split; [by right|]. intros [-> | ?]; [|done].
        exfalso. destruct (proj2 (IO left)); [by left|done|done].
      + intros k q Hk. rewrite PP. destruct (decide (k = inner_w)) as [Ek|Dk]; [eauto|]. destruct (decide (k = outer_w)) as [Ek|Dk2]; [eauto|].
        destruct (decide (k ∈ cs)) as [Hw|Hw]; [eauto|]. destruct Hk as [-> | Hk]; [|eauto].
        exfalso. destruct (proj2 (IO left)); [by left|done|done].
      + intros TT. right. split; [done|]. split; [congruence|]. exists outer_w.
        split. { subst inner_w outer_w. destruct r; [left|right]; (split; [done|]; split; [done|]; eexists; split; [apply same_geo_refl|by symmetry]). }
        split. { intros k. rewrite PP. specialize (Qx' TT). injection Qx' as ->. destruct (decide (k ∈ cs)) as [Hk|Hk]; rewrite (Cs' TT) in Hk; [by rewrite (decide_True _ _ Hk)|by rewrite (decide_False _ _ Hk)]. }
        split; [|done]. rewrite GV9, GV8, GV7, GV6, GV5, GV. subst inner_w outer_w. destruct r.
        * rewrite (insert_commute _ wa left) by done. by rewrite insert_insert.
        * rewrite insert_insert. rewrite (insert_commute _ wa left) by done. done. }
  destruct K1 as (W5 & G5 & lc & on & par1 & pol1 & -> & PV5 & GV5 & SV5 & T5 & O5 & F5 & (q1 & Pon) & Dom1 & NR1 & Lc & Cases). clear E.
  assert (FB : free_ok P3 G5) by (apply F5, R, I).
  bnd H as u14 sC E. rd E as x2 Ex2.
  apply each_points in E; [|intros p s0 u0 s0' E0|intros p Hp].
  2: { rd E0 as y Ey. bnd E0 as r s2 E3. apply contains_point_inv in E3 as ->. destruct r; [|apply ret_inv in E0 as [_ ->]; by left].
       apply set_polygon_eff in E0 as (_ & _ & E0). by right. }
  2: { apply elem_of_elements in Hp. destruct (proj2 FB g x2 p Ex2 Hp) as (z & Z1 & Z2 & Z3).
       change ((p_seg <$> P3) !! p = Some None). rewrite lookup_fmap, Z1. cbn. by rewrite Z3. }
  destruct E as (P6 & G6 & -> & R6 & M6).
  change (ppr P3 G5 P6 G6) in R6. change (p_seg <$> P6 = p_seg <$> P3) in M6. clear x2 Ex2.
  bnd H as u15 sC E. rd E as x3 Ex3. change (G6 !! g = Some x3) in Ex3.
  assert (O6 : outer <$> G6 = <[n := on]> (outer_of s)) by (by rewrite (p_outer _ _ _ _ R6)).
  assert (Ox3 : pol_live s -> outer x3 = outer x).
  { intros LG. destruct (Og LG) as [Dg Og']. assert (X : (outer <$> G6) !! g = Some (outer x3)) by (by rewrite lookup_fmap, Ex3). rewrite O6, lookup_insert_ne, Og' in X by done. congruence. }
  bnd E as cs s1 E3. assert (NDc : NoDup cs).
  { unfold children in E3. rd E3 as y Ey. apply ret_inv in E3 as [-> ->]. apply NoDup_elements. }
  apply children_inv in E3 as (-> & xo & Xo & Cs). change (W5 !! outer x3 = Some xo) in Xo.
  apply (each_children K n on q1) in E as (W10 & sel & -> & S1 & S2 & S3 & S4 & S5 & S6 & S7); [|done|change ((outer <$> G6) !! n = Some on); by rewrite O6, lookup_insert|change ((parent <$> W5) !! on = Some (Some q1)); congruence].
  apply ret_inv in H as [-> ->].
  match goal with |- inv ?s1 /\ _ => set (s' := s1) end.
  match type of S3 with context [set_polys G6 ?s0] => set (sD := set_polys G6 s0) in * end.
  change (wires sD) with W5 in *. rewrite PV5, GV5 in *.
  assert (X1 : vtx s' = both (vtx s) i' a b) by reflexivity.
  assert (X2 : nxt s' = f2 (nxt s) i' pa pb) by reflexivity.
  assert (X3 : wir s' = L1) by reflexivity.
  assert (X4 : wires s' = W10) by reflexivity.
  assert (X5 : points s' = P6) by reflexivity.
  assert (X6 : polys s' = G6) by reflexivity.
  assert (X7 : iw s' = cw) by reflexivity.
  assert (X8 : ig s' = cg) by reflexivity.
  assert (X9 : vec s' = <[i' := vminus xb xa]> (vec s)) by reflexivity.
  assert (X10 : p2s s' = <[(a, b) := i']> (p2s s)) by reflexivity.
  assert (X11 : last_change s' = lc) by reflexivity.
  assert (X12 : is_ s' = c) by reflexivity.
  assert (X13 : ip s' = ip s) by reflexivity.
  assert (B1' : vtx sB = both (vtx s) i' a b) by reflexivity.
  assert (B2' : nxt sB = f2 (nxt s) i' pa pb) by reflexivity.
  assert (B3' : wir sB = L1) by reflexivity.
  assert (B4' : wires sB = W4) by reflexivity.
  assert (B5' : points sB = P3) by reflexivity.
  assert (B6' : vec sB = <[i' := vminus xb xa]> (vec s)) by reflexivity.
  assert (D6' : vec sD = <[i' := vminus xb xa]> (vec s)) by reflexivity.
  assert (D1' : vtx sD = both (vtx s) i' a b) by reflexivity.
  assert (D2' : nxt sD = f2 (nxt s) i' pa pb) by reflexivity.
  assert (D3' : wir sD = L1) by reflexivity.
  assert (D4' : wires sD = W5) by reflexivity.
  assert (D5' : points sD = P6) by reflexivity.
  clearbody s' sD sB.
  assert (SG : forall t, same_geo t sB -> same_geo t s').
  { intros t Ht. eapply same_geo_trans; [exact Ht|]. unfold same_geo. rewrite B1', B2', B3', B4', B5', B6', X9, X1, X2, X3, X4, X5, S4, SV5, (p_xy _ _ _ _ R6). done. }
  assert (SD : forall t, same_geo t sD -> same_geo t s').
  { intros t Ht. eapply same_geo_trans; [exact Ht|]. unfold same_geo. rewrite D1', D2', D3', D4', D5', D6', X9, X1, X2, X3, X4, X5, S4. done. }
  assert (Mx : seg_of s' = jn b (i', true) (jn a (i', false) (seg_of s))) by (by rewrite X5, M6, M3, M0).
  assert (AC := add_common s s' i' a b c _ I D (mk_is_Some _ _ Ma) (mk_is_Some _ _ Mb) E1 E2 Ni X1 X12 X13 X9 X10 Mx).
  destruct AC as (_ & C1 & C2 & C3 & C4 & C5).
  assert (Cut : ~ reach (f2 (nxt s) i' pa pb) (i', true) (i', false)).
  { apply (f2_cut _ _ _ _ (i_topo _ I) Fn _ _ _ _ _ _ _ _ A1 B1 A2 B2 D A3 B3 Dw). }
  assert (LT : forall h, reach (f2 (nxt s) i' pa pb) (i', true) h -> L1 !! h = Some left).
  { intros h Hh. apply SW in Hh as [-> | Hh]; [|by apply L1a]. destruct (decide ((i', true) ∈ ls)) as [Hl|Hl]; [by apply L1a|]. rewrite L1b by done. apply both_t. }
  assert (LF : L1 !! (i', false) = Some wa).
  { rewrite L1b; [apply both_f|]. intros Hl. apply Cut, SW. by right. }
  assert (LO : forall h, ~ reach (f2 (nxt s) i' pa pb) (i', true) h -> fst h <> i' -> L1 !! h = wir s !! h).
  { intros h Hh Dh. rewrite L1b; [by rewrite both_ne|]. intros Hl. apply Hh, SW. by right. }
  assert (Dec : forall h, reach (f2 (nxt s) i' pa pb) (i', true) h \/ ~ reach (f2 (nxt s) i' pa pb) (i', true) h).
  { intros h. rewrite <- SW. destruct (decide (h = (i', true))); [auto|]. destruct (decide (h ∈ ls)); [auto|]. right. tauto. }
  assert (Lf := label_fresh _ _ I Fw).
  assert (Lab : forall h w, L1 !! h = Some w -> w = left \/ (w <> left /\ exists h', wir s !! h' = Some w)).
  { intros h w Eh. destruct (Dec h) as [Hh|Hh]; [rewrite LT in Eh by done; left; congruence|]. right.
    destruct (side_cases h i') as [Dh|[-> | ->]].
    - rewrite LO in Eh by done. split; [|eauto]. intros ->. by apply (Lf h).
    - exfalso. apply Hh, rtc_refl.
    - rewrite LF in Eh. injection Eh as <-. split; [done|eauto]. }
  assert (SVf : sg_of s' = <[wa:=Some (i', false)]> (<[left:=Some (i', true)]> (sg_of s))) by congruence.
  assert (Dm : forall k, is_Some (par_of s' !! k) <-> k = left \/ is_Some (par_of s !! k)).
  { intros k. rewrite <- Dom1, X4. destruct (decide (k ∈ sel)) as [Hk|Hk].
    - destruct (S2 k Hk) as (-> & _ & Y). split; eauto.
    - destruct (S3 k Hk) as [-> _]. done. }
  split; [constructor|].
  - rewrite X1, X2, X3. apply (topo_split _ _ _ _ (i_topo _ I) Fn _ _ _ _ _ _ _ _ A1 B1 A2 B2 D A3 B3 left L1 (fun h => reach (f2 (nxt s) i' pa pb) (i', true) h)); done.
  - done.
  - rewrite X5, X6. by apply R6.
  - done.
  - done.
  - intros h w. rewrite X3, X4. intros Eh. destruct (decide (w ∈ sel)) as [Hw|Hw]; [destruct (S2 w Hw) as (-> & _ & _); eauto|].
    destruct (S3 w Hw) as [-> _]. destruct (Lab _ _ Eh) as [-> | (Dl' & h' & Eh')]; [apply (NR1 left 0); by left|].
    destruct (i_live _ I _ _ Eh') as [q Eq]. apply (NR1 w q). by right.
  - intros h w. rewrite X3, SVf. intros Eh. destruct (Lab _ _ Eh) as [-> | (Dl' & h' & Eh')].
    + exists (i', true). rewrite lookup_insert_ne, lookup_insert by done. split; [done|]. apply LT, rtc_refl.
    + destruct (decide (w = wa)) as [-> | Dwa]; [exists (i', false); rewrite lookup_insert; done|].
      destruct (i_seg _ I _ _ Eh') as (m & N1 & N2). exists m. rewrite !lookup_insert_ne by done. split; [done|].
      rewrite LO; [done| |by apply (old_side _ _ _ _ I Fi N2)]. intros Hm.
      assert (Om := old_side _ _ _ _ I Fi N2). apply SW in Hm as [-> | Hm]; [done|]. apply L1d in Hm. rewrite both_ne in Hm by done. congruence.
  - done.
  - done.
  - rewrite X7. eapply src_ext; [|exact Sw]. intros k. rewrite Dm, <- live_insert. done.
  - rewrite X8, X6, O6. eapply src_ext; [|exact Sg]. intros k. rewrite <- !live_insert. by rewrite (p_outer _ _ _ _ R).
  - exists left, n, g, (outer x), q0, on, sel, par1, pol1. split; [done|]. split; [done|]. split; [by rewrite <- (p_outer _ _ _ _ R)|].
    split; [done|]. split; [done|]. split; [done|]. split; [by rewrite X6|]. split; [by rewrite X11|].
    split; [done|]. split; [done|]. split; [done|].
    split; [rewrite X5, (p_xy _ _ _ _ R6); apply R|]. split; [done|]. rewrite X2, X3. split; [apply LT, rtc_refl|]. split; [done|]. split; [done|]. split; [done|].
    split; [by rewrite X5, M6, M3|]. split; [eauto 10|]. split; [done|]. intros TT LG. specialize (T5 TT). specialize (Ox3 LG). rewrite Ox3 in Xo. destruct (Og LG) as [Dg Og'].
    split; [done|].
    split. { rewrite X11. destruct (Cases TT) as [C|(Y1 & Y2 & out & Y3 & Y4)]; [by left|]. right. split; [done|]. split; [done|]. exists out. split; [|done].
      destruct Y3 as [(Z1 & Z2 & t & Z3 & Z4)|(Z1 & Z2 & t & Z3 & Z4)]; [left|right]; (split; [done|]; split; [done|]; exists t; split; [by apply SG|done]). }
    rewrite X4. split; [|split; [|split; [|split]]].
    + intros k Hk. destruct (S2 k Hk) as (Y1 & Y2 & _). split; [|done]. rewrite <- PV5. apply T5. exists xo. split; [done|]. by apply Cs, S1.
    + done.
    + intros k Hk. destruct (S6 k Hk) as (t & Y1 & Y2). exists t. split; [by apply SD|done].
    + intros k Dk Pk Nk. destruct (S7 k (outer x)) as (t & Y1 & Y2); [|done|done|exists t; split; [by apply SD|done]].
      apply Cs. assert (Y : chl W5 (outer x) k) by (apply T5; [by rewrite PV5|by rewrite Xo|done|apply not_elem_of_empty]).
      destruct Y as (y & Y1 & Y2). congruence.
    + by apply S5.
Qed.
