(** The report of changes of polygons. *)
From stdpp Require Import gmap list relations.
From Coq Require Import Lia QArith.
From Verif Require Import Decomp_Model Decomp_Spec Decomp_Perm Decomp_Surgery Decomp_Eff Decomp_Tree Decomp_Inv Decomp_Add Decomp_Join Decomp_Split
  Decomp_Del Decomp_Cut Decomp_Merge Decomp_Mid Decomp_Planar Decomp_Nest Decomp_Good Decomp_Hist.
Local Open Scope nat_scope.

Lemma poly_at_some s h w g : wir s !! h = Some w -> pol_of s !! w = Some (Some g) -> poly_at s h = Some g.
Proof.
  intros W L. unfold poly_at. rewrite W. cbn. rewrite lookup_fmap in L. destruct (wires s !! w) as [x|]; [|done]. cbn in *. congruence.
Qed.
Lemma poly_at_wire s h k w : wir s !! h = Some w -> wir s !! k = Some w -> poly_at s h = poly_at s k.
Proof. intros W W'. unfold poly_at. by rewrite W, W'. Qed.
Lemma dom_outer s : (dom (polys s) : gset nat) = dom (outer_of s).
Proof. by rewrite dom_fmap_L. Qed.
Lemma good_tree s : good s -> tree s /\ pol_live s.
Proof.
  intros G. split; [split; [apply G|apply (n_par _ _ _ (g_nest _ G))]|]. intros w g L.
  destruct (n_wire _ _ _ (g_nest _ G) w) as (g' & o & A & B & _); [apply (n_dom _ _ _ (g_nest _ G)); eauto|]. assert (g' = g) as -> by congruence. eauto.
Qed.
Lemma split_poly_sides K a b pa na wa pb nb wb s i s' : good s -> sane K s' i -> fits s a (pa, na, wa) -> fits s b (pb, nb, wb) ->
  p2s s !! (a, b) = None -> p2s s !! (b, a) = None -> split_poly K a b (pa, na, wa) (pb, nb, wb) s = (Ok i, s') ->
  exists g n, outer_of s !! n = None /\ is_Some (outer_of s !! g) /\ dom (outer_of s') = (dom (outer_of s) ∪ {[n]} : gset nat) /\ pol_of s !! wa = Some (Some g) /\
    ((last_change s' = CSplit g n /\ poly_at s' (i, true) = Some n /\ poly_at s' (i, false) = Some g) \/
     (last_change s' = CAdd g n /\ ((poly_at s' (i, true) = Some n /\ poly_at s' (i, false) = Some g) \/ (poly_at s' (i, true) = Some g /\ poly_at s' (i, false) = Some n)))).
Proof.
  intros G SK Fa Fb E1 E2 H. assert (G' := good_split _ G _ _ _ _ _ _ _ _ _ _ _ SK Fa Fb E1 E2 H). assert (N := g_nest _ G).
  destruct (split_poly_eff _ _ _ _ _ _ _ _ _ _ _ _ (g_inv _ G) Fa Fb E1 E2 H) as (I' & left & n & g & o & q0 & on & sel & par1 & pol1 & <- & Fl & Fn & Lw & Pw & HPd & HO & _ & D & Fi & HV & _ & HN & Wt & Wf & WR & WN & _ & _ & _ & HT).
  destruct (good_tree _ G) as [Tr PL]. destruct (HT Tr PL) as (Og & Cases & Sel & NSel & _ & _ & _).
  assert (Dl : left <> wa) by (intros ->; congruence).
  destruct (good_side _ _ _ G' Wt) as (gl & _ & Ll & _). destruct (good_side _ _ _ G' Wf) as (gr & _ & Lr & _).
  assert (Dg : gl <> gr) by (by eapply (good_sides _ G' i left wa)).
  exists g, n. split; [done|]. split; [eauto|]. split; [rewrite HO, dom_insert_L; set_solver|]. split; [done|].
  assert (K0 : forall c x, pol1 !! c = Some (Some g) \/ pol1 !! c = Some (Some n) -> pol_of s' !! c = Some (Some x) -> x = g \/ x = n).
  { intros c x P1 Lx. destruct (decide (c ∈ sel)) as [Hc|Hc].
    - destruct (Sel _ Hc) as (_ & _ & X). right. congruence.
    - destruct (NSel _ Hc) as [_ X]. destruct P1 as [P1|P1]; [left|right]; congruence. }
  destruct Cases as [(-> & -> & -> & -> & Lc)|(Do & -> & out & Ho & P1 & -> & Lc)].
  - left. split; [done|]. assert (X : wa ∉ sel).
    { intros Hc. destruct (Sel _ Hc) as (X & _). rewrite lookup_insert_ne in X by done. rewrite Pw in X. injection X as ->. by apply (n_self _ _ _ N wa). }
    destruct (NSel _ X) as [_ Y]. rewrite lookup_insert_ne in Y by done. rewrite Lw, Lr in Y. injection Y as ->.
    destruct (K0 left gl) as [-> | ->]; [right; apply lookup_insert|done|done|]. split; by eapply poly_at_some.
  - right. split; [done|].
    destruct (K0 left gl) as [-> | ->]; [|done| |].
    + destruct Ho as [(-> & -> & _)|(-> & -> & _)]; [right; apply lookup_insert|left; rewrite lookup_insert_ne by done; apply lookup_insert].
    + destruct (K0 wa gr) as [-> | ->]; [|done|done|right; split; by eapply poly_at_some].
      destruct Ho as [(-> & -> & _)|(-> & -> & _)]; [left; rewrite lookup_insert_ne by done; apply lookup_insert|right; apply lookup_insert].
    + destruct (K0 wa gr) as [-> | ->]; [|done|left; split; by eapply poly_at_some|done].
      destruct Ho as [(-> & -> & _)|(-> & -> & _)]; [left; rewrite lookup_insert_ne by done; apply lookup_insert|right; apply lookup_insert].
Qed.
Lemma told_new K a b s i s' : good s -> sane K s' i -> new_segment K a b s = (Ok i, s') ->
  told (last_change s') (dom (polys s)) (dom (polys s')) (poly_at s' (i, true)) (poly_at s' (i, false)).
Proof.
  intros G SK H. assert (G0 := good_change CNone _ G). rewrite !dom_outer.
  destruct (new_segment_cases _ _ _ _ _ _ (g_inv _ G) H) as [D [[_ ->]|(E1 & E2 & C)]]; [done|].
  destruct C as [(g & A & B & C)|[(pv & nx & w & root & A & B & C)|(pa & na & wa & pb & nb & wb & A & B & [[Dw C]|[Dw C]])]].
  - destruct (new_wire_op_eff _ _ _ _ _ _ (g_inv _ G0) A B E1 E2 C) as (_ & w & q & _ & _ & _ & _ & _ & HO & _ & _ & _ & _ & _ & _ & _ & _ & -> & _). cbn. by rewrite HO.
  - destruct (add_dendrite_eff _ _ _ _ _ _ _ _ _ (g_inv _ G0) A B E1 E2 C) as (_ & Hw & HO & _ & _ & _ & _ & _ & HW & _ & (x & _ & ->) & _). cbn. rewrite HO. split; [done|].
    apply (poly_at_wire _ _ _ w); rewrite HW; [apply both_t|apply both_f].
  - destruct (split_poly_sides _ _ _ _ _ _ _ _ _ _ _ _ G0 SK A B E1 E2 C) as (g & n & Fn & Ig & HO & _ & [(-> & L & R)|(-> & LR)]); cbn; rewrite HO.
    + split; [by apply elem_of_dom|]. split; [by apply not_elem_of_dom|]. split; [done|]. by right.
    + split; [by apply elem_of_dom|]. split; [by apply not_elem_of_dom|]. split; [done|]. tauto.
  - destruct (join_wires_eff _ _ _ _ _ _ _ _ _ _ _ (g_inv _ G0) A B E1 E2 C) as (_ & g & o & side & keep & rm & up' & xrm & _ & La & _ & Ho & _ & _ & _ & _ & HO & _ & _ & _ & _ & _ & _ & _ & _ & _ & _ & HW & _ & _ & -> & _). cbn. split.
    + rewrite HO. destruct side; [|done]. apply dom_insert_lookup_L. eauto.
    + apply (poly_at_wire _ _ _ keep); apply HW.
Qed.
Lemma told_delete K g s u s' : good s -> delete_segment K g s = (Ok u, s') ->
  told (last_change s') (dom (polys s)) (dom (polys s')) (poly_at s (g, true)) (poly_at s (g, false)).
Proof.
  intros G H. assert (G0 := good_change CNone _ G). rewrite !dom_outer.
  destruct (delete_segment_cases _ _ _ _ _ H) as [[N C]|[(tip & N1 & N2 & C)|(N1 & N2 & [[Dw C]|[Dw C]])]].
  - destruct (rm_wire_op_eff _ _ _ _ (g_inv _ G0) C) as (_ & w & gp & q & a & b & _ & _ & _ & _ & _ & _ & _ & _ & _ & _ & HO & _ & _ & _ & _ & _ & _ & _ & _ & _ & _ & _ & _ & _ & ->). cbn. by rewrite HO.
  - destruct (rm_dendrite_eff _ _ _ _ _ (g_inv _ G0) N1 N2 C) as (_ & w & gp & m & k & pt & pr & sg1 & _ & _ & Wt & Wf & _ & _ & _ & _ & HO & _ & _ & _ & _ & _ & _ & _ & _ & _ & _ & _ & _ & _ & _ & _ & ->).
    cbn. rewrite HO. split; [done|]. by eapply poly_at_wire.
  - destruct (split_wire_eff _ _ _ _ _ (g_inv _ G0) N1 N2 C) as (_ & wa & wb & gp & m0 & m1 & ka & kb & a & b & Wt & Wf & _ & _ & _ & HO & _ & _ & _ & _ & _ & _ & _ & _ & _ & _ & _ & _ & _ & _ & _ & _ & _ & _ & -> & _).
    cbn. split; [|by eapply poly_at_wire]. apply set_eq. intros k. rewrite !elem_of_dom. apply HO.
  - destruct (join_poly_eff _ _ _ _ (g_inv _ G0) (good_nested _ G0 g) N1 N2 Dw C) as (_ & keep & rm & kp & n & m0 & m1 & ka & kb & a & b & xrm & Sd & _ & Lk & Lr & Dkn & On & HO & _ & _ & _ & _ & _ & _ & _ & _ & _ & _ & _ & _ & _ & _ & _ & _ & _ & _ & _ & _ & _ & _ & Ca & _). fld in *.
    assert (Ik : is_Some (outer_of s !! kp)) by (by eapply (proj2 (good_tree _ G))).
    assert (X : kp ∈ (dom (outer_of s') : gset nat) /\ n ∉ (dom (outer_of s') : gset nat) /\ dom (outer_of s) = (dom (outer_of s') ∪ {[n]} : gset nat) /\
      ((poly_at s (g, true) = Some kp /\ poly_at s (g, false) = Some n) \/ (poly_at s (g, true) = Some n /\ poly_at s (g, false) = Some kp))).
    { rewrite HO, dom_delete_L. split; [apply elem_of_difference; split; [by apply elem_of_dom|set_solver]|]. split; [set_solver|]. split.
      - rewrite difference_union_L. assert (n ∈ (dom (outer_of s) : gset nat)) by (apply elem_of_dom; eauto). set_solver.
      - destruct Sd as [[A B]|[A B]]; [left|right]; (split; by eapply poly_at_some). }
    destruct Ca as [(-> & _)|(-> & _)]; exact X.
Qed.
