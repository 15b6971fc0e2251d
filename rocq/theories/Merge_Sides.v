(** What a new segment does to the polygons on the sides of the others. *)
From stdpp Require Import gmap list relations.
From Coq Require Import Lia QArith.
From Verif Require Import Decomp_Model Decomp_Spec Decomp_Perm Decomp_Surgery Decomp_Eff Decomp_Tree Decomp_Inv Decomp_Add Decomp_Join Decomp_Split
  Decomp_Del Decomp_Cut Decomp_Merge Decomp_Mid Decomp_Planar Decomp_Nest Decomp_Good Decomp_Hist Decomp_Told.
Local Open Scope nat_scope.

Lemma poly_at_sides s h : poly_at s h = sides (pol_of s) (wir s) !! h.
Proof.
  unfold poly_at, sides. rewrite lookup_omap. destruct (wir s !! h) as [w|]; [|done]. cbn. rewrite lookup_fmap. by destruct (wires s !! w).
Qed.
Lemma poly_at_iff s h z : poly_at s h = Some z <-> exists w, wir s !! h = Some w /\ pol_of s !! w = Some (Some z).
Proof. rewrite poly_at_sides. apply sides_some. Qed.
(** A side of a segment has a polygon. *)
Lemma side_poly s g c : good s -> is_Some (vec s !! g) -> exists z, poly_at s (g, c) = Some z /\ is_Some (outer_of s !! z).
Proof.
  intros G L. apply (i_vec _ (g_inv _ G)) in L.
  assert (W : is_Some (wir s !! (g, c))).
  { assert (T := i_topo _ (g_inv _ G)). apply (topo_dom_l _ _ _ _ T). apply (topo_dom_v _ _ _ _ T) in L. destruct c; [|done]. apply (t_flip _ _ _ T) in L. exact L. }
  destruct W as [w W]. destruct (good_side _ _ _ G W) as (z & o & A & B & _). exists z. split; [apply poly_at_iff; eauto|eauto].
Qed.

(** A new segment between points of one wire. *)
Lemma split_sides s K a b pa na wa pb nb wb i s' : good s -> sane K s' i -> fits s a (pa, na, wa) -> fits s b (pb, nb, wb) ->
  p2s s !! (a, b) = None -> p2s s !! (b, a) = None -> split_poly K a b (pa, na, wa) (pb, nb, wb) s = (Ok i, s') ->
  exists g n, outer_of s !! n = None /\ is_Some (outer_of s !! g) /\ (forall z, is_Some (outer_of s' !! z) <-> z = n \/ is_Some (outer_of s !! z)) /\
    (last_change s' = CSplit g n \/ last_change s' = CAdd g n) /\
    forall h z, poly_at s h = Some z -> poly_at s' h = Some z \/ (z = g /\ poly_at s' h = Some n).
Proof.
  intros G [K1 K2] Fa Fb E1 E2 H. assert (I := g_inv _ G). assert (T := i_topo _ I).
  destruct (split_poly_eff _ _ _ _ _ _ _ _ _ _ _ _ I Fa Fb E1 E2 H) as (I' & left & n & g & o & q0 & on & sel & par1 & pol1 & <- & Fl & Fn & Lw & Pw & HPd & HO & LCh & D & Fi & HV & _ & HN & Wt & Wf & WR & WN & _ & (x & y & _ & _ & Hv) & _ & HT).
  destruct (fresh_sides _ _ I Fi) as [Fv Fw]. assert (Fx := fresh_nxt _ _ I Fi). assert (N := g_nest _ G).
  destruct Fa as (Na & Va & Wa). destruct Fb as (Nb & Vb & Wb).
  destruct HT as (Ho & Cases & Sel & Nsel & Sin & Sout & HT).
  { split; [apply G|]. intros c q. apply (n_par _ _ _ N). }
  { intros w g' Hw. assert (J : is_Some (par_of s !! w)) by (apply (n_dom _ _ _ N); eauto). destruct (n_wire _ _ _ N _ J) as (g1 & o1 & A & B & _).
    assert (g1 = g') as -> by congruence. eauto. }
  assert (Dl : left <> wa) by (intros ->; congruence).
  (* the nesting, and where the new sides are *)
  assert (KN : nest (par_of s') (pol_of s') (outer_of s') /\
    (exists c : bool, pol_of s' !! (if c then left else wa) = Some (Some n) /\ pol_of s' !! (if c then wa else left) = Some (Some g)) /\
    (forall w z, pol_of s !! w = Some (Some z) -> w <> wa -> pol_of s' !! w = Some (Some z) \/ (z = g /\ pol_of s' !! w = Some (Some n)))).
  { destruct Cases as [(-> & -> & -> & -> & _)|(Do & -> & out & OO & HP1 & -> & _)].
    - assert (Sel' : forall c, c ∈ sel -> par_of s !! c = Some (Some wa) /\ par_of s' !! c = Some (Some left) /\ pol_of s' !! c = Some (Some n)).
      { intros c C. destruct (Sel c C) as (A & B & E). split; [|done]. rewrite lookup_insert_ne in A; [done|]. intros <-. rewrite lookup_insert in A.
        injection A as ->. by apply (n_self _ _ _ N wa). }
      assert (Nl : left ∉ sel) by (intros C; apply Sel' in C as [C _]; congruence).
      assert (Nw : wa ∉ sel) by (intros C; apply Sel' in C as [C _]; by apply (n_self _ _ _ N wa)).
      split; [|split].
      + rewrite HO. by apply (nest_split_outer _ _ _ N (par_of s') (pol_of s') g wa q0 left n sel).
      + exists true. split; [destruct (Nsel _ Nl) as [_ ->]; apply lookup_insert|]. destruct (Nsel _ Nw) as [_ ->]. by rewrite lookup_insert_ne.
      + intros w z Hw Dw. destruct (decide (w ∈ sel)) as [C|C].
        * right. destruct (Sel' w C) as (A & _ & ->). split; [|done]. assert (X := n_child _ _ _ N _ _ _ A Ho). congruence.
        * left. destruct (Nsel _ C) as [_ ->]. rewrite lookup_insert_ne; [done|]. intros <-. rewrite (L_none _ _ _ N _ Fl) in Hw. done.
    - assert (OO' : (on = left /\ out = wa) \/ (on = wa /\ out = left)) by (destruct OO as [(-> & -> & _)|(-> & -> & _)]; auto).
      assert (No : out ∉ sel).
      { intros C. destruct (Sin _ C) as (s2 & S2 & X2). destruct OO as [(-> & -> & s1 & S1 & X1)|(-> & -> & s1 & S1 & X1)].
        - rewrite (K1 _ _ _ S1) in X1. rewrite (K1 _ _ _ S2) in X2. rewrite (K2 false wa left) in X2; [done|done|done|intros <-; congruence|done].
        - rewrite (K1 _ _ _ S1) in X1. rewrite (K1 _ _ _ S2) in X2. congruence. }
      assert (Non : on ∉ sel). { intros C. destruct (Sel _ C) as (A & _). rewrite HP1, decide_True in A by done. destruct OO' as [[-> ->]|[-> ->]].
        - congruence. - apply (out_live _ _ _ N) in Ho. injection A as ->. rewrite Fl in Ho. by destruct Ho. }
      assert (Doo : on <> out) by (destruct OO' as [[-> ->]|[-> ->]]; done).
      assert (Lon : pol_of s' !! on = Some (Some n)) by (destruct (Nsel _ Non) as [_ ->]; apply lookup_insert).
      assert (Lou : pol_of s' !! out = Some (Some g)) by (destruct (Nsel _ No) as [_ ->]; by rewrite lookup_insert_ne, lookup_insert).
      split; [|split].
      + rewrite HO. by apply (nest_split_hole _ _ _ N (par_of s') (pol_of s') par1 g o wa left on out n sel).
      + destruct OO' as [[-> ->]|[-> ->]]; [exists true|exists false]; done.
      + intros w z Hw Dw. assert (Dwl : w <> left) by (intros ->; rewrite (L_none _ _ _ N _ Fl) in Hw; done).
        assert (D1 : w <> on /\ w <> out) by (destruct OO' as [[-> ->]|[-> ->]]; done). destruct D1 as [D1 D2].
        destruct (decide (w ∈ sel)) as [C|C].
        * right. destruct (Sel w C) as (A & _ & ->). split; [|done]. rewrite HP1, !decide_False in A by done. destruct (decide _) as [E|E]; [exfalso|].
          -- destruct OO' as [[-> ->]|[-> ->]]; [congruence|]. injection A as <-. apply (out_live _ _ _ N) in Ho. rewrite Fl in Ho. by destruct Ho.
          -- assert (X := n_child _ _ _ N _ _ _ A Ho). congruence.
        * left. destruct (Nsel _ C) as [_ ->]. by rewrite !lookup_insert_ne. }
  destruct KN as (HN' & (c & Lc & Lc') & HLo).
  (* sides of other wires stay *)
  assert (Cl : forall h w, wir s !! h = Some w -> w <> wa -> ~ reach (nxt s') (i, true) h).
  { intros h w Hw Dw R. assert (T' := i_topo _ I').
    assert (It : is_Some (nxt s' !! (i, true))) by (apply (topo_dom_l _ _ _ _ T'); eauto).
    apply reach_sym in R; [|apply T'|done].
    assert (X : forall y0 k, reach (nxt s') y0 k -> wir s !! y0 = Some w -> wir s !! k = Some w).
    { clear R. intros y0 k Ry. induction Ry as [|y0 m k S Ry IH]; [done|]. intros Wy. apply IH.
      unfold step in S. rewrite HN, f2_ne in S; [|exact (old_side _ _ _ _ Fw Wy)|congruence|congruence]. by rewrite (topo_lab _ _ _ _ _ T S). }
    specialize (X _ _ R Hw). by rewrite Fw in X. }
  assert (HS : forall h z, sides (pol_of s) (wir s) !! h = Some z ->
    sides (pol_of s') (wir s') !! h = Some z \/ (z = g /\ sides (pol_of s') (wir s') !! h = Some n)).
  { intros h z Hz. apply sides_some in Hz as (w & A & B). assert (Dh : fst h <> i) by (exact (old_side _ _ _ _ Fw A)).
    destruct (decide (w = wa)) as [-> | Dw].
    - assert (z = g) as -> by congruence.
      assert (X : wir s' !! h = Some left \/ wir s' !! h = Some wa).
      { assert (Ih : is_Some (wir s' !! h)).
        { apply (topo_dom_l _ _ _ _ (i_topo _ I')), (topo_dom_v _ _ _ _ (i_topo _ I')). rewrite HV, both_ne by done.
          apply (topo_dom_v _ _ _ _ T), (topo_dom_l _ _ _ _ T). eauto. }
        destruct Ih as [u Ih]. destruct (decide (u = left)) as [-> | Du]; [by left|]. right. rewrite <- A. apply WN; [|done]. intros R. apply WR in R. congruence. }
      destruct X as [X|X]; destruct c; [right; split; [done|]|left|left|right; split; [done|]]; apply sides_some; eauto.
    - assert (X : wir s' !! h = Some w) by (rewrite <- A; apply WN; [by eapply Cl|done]).
      destruct (HLo _ _ B Dw) as [Y|[-> Y]]; [left|right; split; [done|]]; apply sides_some; eauto. }
  exists g, n. split; [done|]. split; [eauto|]. split; [|split; [done|]].
  - intros z. rewrite HO. destruct (decide (z = n)) as [-> | Dz]; [rewrite lookup_insert; split; eauto|]. rewrite lookup_insert_ne by done. split; [auto|]. intros [?|?]; done.
  - intros h z. rewrite !poly_at_sides. apply HS.
Qed.
(** Any new segment. *)
Lemma new_segment_sides K a b s i s' : good s -> sane K s' i -> new_segment K a b s = (Ok i, s') ->
  ((exists q, last_change s' = CShape q) \/ last_change s' = CNone) /\ (forall z, is_Some (outer_of s' !! z) <-> is_Some (outer_of s !! z)) /\ (forall h z, poly_at s h = Some z -> poly_at s' h = Some z) \/
  exists g n, (last_change s' = CSplit g n \/ last_change s' = CAdd g n) /\ outer_of s !! n = None /\ is_Some (outer_of s !! g) /\ (forall z, is_Some (outer_of s' !! z) <-> z = n \/ is_Some (outer_of s !! z)) /\
    forall h z, poly_at s h = Some z -> poly_at s' h = Some z \/ (z = g /\ poly_at s' h = Some n).
Proof.
  intros G SK H. assert (G0 := good_change CNone _ G). assert (I := g_inv _ G).
  destruct (new_segment_cases _ _ _ _ _ _ I H) as [D [[_ ->]|(E1 & E2 & C)]]; [left; split; [by right|]; done|].
  destruct C as [(g & A & B & C)|[(pv & nx & w & root & A & B & C)|(pa & na & wa & pb & nb & wb & A & B & [[Dw C]|[Dw C]])]].
  - destruct (new_wire_op_eff _ _ _ _ _ _ (g_inv _ G0) A B E1 E2 C) as (_ & w & q & Fw & _ & _ & _ & HL & HO & _ & _ & Fi & _ & _ & _ & HW & _ & LC & _). left.
    split; [by right|]. split; [by rewrite HO|]. intros h z. rewrite !poly_at_iff. intros (u & W & L). destruct (fresh_sides _ _ I Fi) as [_ Fl]. exists u. rewrite HW, both_ne by exact (old_side _ _ _ _ Fl W). split; [exact W|].
    rewrite HL. assert (Du : w <> u). { intros ->. destruct (i_live _ I _ _ W) as [q' X]. discriminate (eq_trans (eq_sym Fw) X). } by rewrite lookup_insert_ne.
  - destruct (add_dendrite_eff _ _ _ _ _ _ _ _ _ (g_inv _ G0) A B E1 E2 C) as (_ & Hw & HO & _ & Fi & _ & _ & _ & HW & _ & (x & _ & LC) & _). left.
    split; [left; eauto|]. split; [by rewrite HO|]. intros h z. rewrite !poly_at_iff. intros (u & W & L). destruct (fresh_sides _ _ I Fi) as [_ Fl]. exists u. rewrite HW, both_ne by exact (old_side _ _ _ _ Fl W). split; [exact W|]. by rewrite Hw.
  - right. destruct (split_sides _ _ _ _ _ _ _ _ _ _ _ _ G0 SK A B E1 E2 C) as (g & n & X1 & X2 & X3 & X4 & X5). exists g, n. done.
  - destruct (join_wires_eff _ _ _ _ _ _ _ _ _ _ _ (g_inv _ G0) A B E1 E2 C) as (_ & g & o & side & keep & rm & up' & xrm & Dab & La & Lb & Ho & Hs & Hk & Hr & _ & HO & _ & _ & _ & HL & _ & _ & Fi & _ & _ & _ & _ & HW & _ & LC & _). left.
    split; [left; eauto|]. split.
    + intros z. rewrite HO. destruct side; [|done]. destruct (decide (z = g)) as [-> | Dz]; [rewrite lookup_insert; split; eauto|by rewrite lookup_insert_ne].
    + intros h z. rewrite !poly_at_iff. intros (u & W & L). destruct (fresh_sides _ _ I Fi) as [_ Fl]. exists (if decide (u = rm) then keep else u). rewrite HW by exact (old_side _ _ _ _ Fl W).
      change (wir (set_change CNone s)) with (wir s). rewrite W. split; [done|]. rewrite HL. change (pol_of (set_change CNone s)) with (pol_of s) in *.
      assert (X : pol_of s !! keep = Some (Some g) /\ pol_of s !! rm = Some (Some g) /\ keep <> rm) by (destruct (default true side); subst; auto).
      destruct X as (X1 & X2 & X3). destruct (decide (u = rm)) as [-> | Du]; rewrite lookup_delete_ne by done; congruence.
Qed.
