(** Deleting the segment just inserted. *)
From stdpp Require Import gmap list relations.
From Coq Require Import Lia QArith.
From Verif Require Import Decomp_Model Decomp_Spec Decomp_Perm Decomp_Surgery Decomp_Eff Decomp_Tree Decomp_Inv Decomp_Add Decomp_Join Decomp_Split
  Decomp_Del Decomp_Cut Decomp_Merge Decomp_Mid Decomp_Unmid Decomp_Planar Decomp_Nest Decomp_Good Decomp_Hist Decomp_Told.
Local Open Scope nat_scope.

Lemma swap_far {A} `{Countable A} (f : gmap A A) a b c d x y z t : f !! a = Some x -> f !! b = Some y -> f !! c = Some z -> f !! d = Some t ->
  a <> c -> a <> d -> b <> c -> b <> d -> swap (swap f a b) c d = swap (swap f c d) a b.
Proof.
  intros Ea Eb Ec Ed D1 D2 D3 D4. rewrite (swap_eq f a b x y Ea Eb), (swap_eq f c d z t Ec Ed).
  rewrite (swap_eq _ c d z t), (swap_eq _ a b x y); try (by rewrite !lookup_insert_ne by done).
  rewrite (insert_commute _ d a) by done. rewrite (insert_commute _ d b) by done. rewrite (insert_commute _ c a) by done. by rewrite (insert_commute _ c b) by done.
Qed.
Lemma dels_iso f g : (forall b, f !! (g, b) = None) -> dels (iso f g) g = f.
Proof.
  intros F. apply map_eq. intros h. destruct (side_cases h g) as [D|[-> | ->]]; [by rewrite dels_ne, iso_ne|by rewrite dels_in, F..].
Qed.
Lemma dels_both {A} (f : gmap he A) g x y : (forall b, f !! (g, b) = None) -> dels (both f g x y) g = f.
Proof.
  intros F. apply map_eq. intros h. destruct (side_cases h g) as [D|[-> | ->]]; [by rewrite dels_ne, both_ne|by rewrite dels_in, F..].
Qed.
Section Undo.
Context (f : gmap he he) (g : nat).
Hypothesis P : perm f.
Hypothesis F : forall b, f !! (g, b) = None.
Lemma old_fst h k : f !! h = Some k -> fst h <> g.
Proof. intros E D. destruct h as [j b]. cbn in D. subst j. by rewrite F in E. Qed.
Lemma val_fst h k : f !! h = Some k -> fst k <> g.
Proof. intros E D. apply (proj2 P) in E. destruct k as [j b]. cbn in D. subst j. rewrite F in E. by destruct E. Qed.
Lemma back1 r p n m : f !! p = Some n -> f1 f g r p !! (g, negb r) = Some (g, r) /\ f1 f g r p !! (g, r) = Some n /\
  (f1 f g r p !! m = Some (g, negb r) -> m <> (g, r) -> dels (swap (f1 f g r p) (g, r) m) g = f).
Proof.
  intros E. assert (Dp := old_fst _ _ E). assert (Dn := val_fst _ _ E).
  assert (Ip : iso f g !! p = Some n) by (by rewrite iso_ne).
  assert (E1 : f1 f g r p !! (g, r) = Some n) by (eapply swap_l; [apply iso_flip|done]).
  assert (E2 : f1 f g r p !! p = Some (g, negb r)) by (eapply swap_r; [apply iso_flip|done]).
  split; [|split; [done|]].
  - unfold f1. rewrite swap_ne; [rewrite iso_flip; by rewrite negb_involutive|by destruct r|]. intros X. rewrite <- X in Dp. done.
  - intros Em Dm. assert (m = p) as ->.
    { destruct (decide (m = p)) as [?|D]; [done|]. exfalso. unfold f1 in Em. rewrite swap_ne in Em by done. destruct (side_cases m g) as [Dg|Dg].
      - rewrite iso_ne in Em by done. by apply (val_fst _ _ Em).
      - assert (m = (g, negb r)) as -> by (destruct Dg as [-> | ->]; destruct r; done). rewrite iso_flip in Em. destruct r; done. }
    unfold f1. rewrite swap_swap. by apply dels_iso.
Qed.
Lemma back2 pa na pb nb m0 m1 : f !! pa = Some na -> f !! pb = Some nb -> pa <> pb ->
  f2 f g pa pb !! (g, true) = Some nb /\ f2 f g pa pb !! (g, false) = Some na /\ f2 f g pa pb !! pa = Some (g, true) /\ f2 f g pa pb !! pb = Some (g, false) /\
  (f2 f g pa pb !! m0 = Some (g, true) -> swap (f2 f g pa pb) (g, false) m0 !! m1 = Some (g, false) ->
   m0 = pa /\ dels (swap (swap (f2 f g pa pb) (g, false) m0) (g, true) m1) g = f).
Proof.
  intros Ea Eb D. assert (Da := old_fst _ _ Ea). assert (Db := old_fst _ _ Eb). assert (Dna := val_fst _ _ Ea). assert (Dnb := val_fst _ _ Eb).
  set (X := iso f g). assert (Xa : X !! pa = Some na) by (unfold X; by rewrite iso_ne). assert (Xb : X !! pb = Some nb) by (unfold X; by rewrite iso_ne).
  assert (Xf : X !! (g, false) = Some (g, true)) by (apply (iso_flip f g false)). assert (Xt : X !! (g, true) = Some (g, false)) by (apply (iso_flip f g true)).
  assert (N1 : (g, false) <> pb) by (intros <-; done). assert (N2 : (g, true) <> pb) by (intros <-; done). assert (N3 : (g, false) <> pa) by (intros <-; done). assert (N4 : (g, true) <> pa) by (intros <-; done).
  change (f2 f g pa pb) with (swap (swap X (g, false) pa) (g, true) pb).
  assert (C : swap (swap X (g, false) pa) (g, true) pb = swap (swap X (g, true) pb) (g, false) pa) by (eapply swap_far; done).
  assert (Yt : swap X (g, true) pb !! (g, true) = Some nb) by (by eapply swap_l). assert (Yb : swap X (g, true) pb !! pb = Some (g, false)) by (by eapply swap_r).
  assert (Yf : swap X (g, true) pb !! (g, false) = Some (g, true)) by (by rewrite swap_ne). assert (Ya : swap X (g, true) pb !! pa = Some na) by (by rewrite swap_ne).
  assert (PX : perm (swap X (g, true) pb)).
  { apply swap_perm. unfold X. split.
    - intros h h' k A B. destruct (side_cases h g) as [Dh|Hh], (side_cases h' g) as [Dh'|Hh'].
      + rewrite iso_ne in A, B by done. by eapply (proj1 P).
      + rewrite iso_ne in A by done. apply val_fst in A. destruct Hh' as [-> | ->]; rewrite iso_flip in B; injection B as <-; done.
      + rewrite iso_ne in B by done. apply val_fst in B. destruct Hh as [-> | ->]; rewrite iso_flip in A; injection A as <-; done.
      + destruct Hh as [-> | ->], Hh' as [-> | ->]; rewrite iso_flip in A; rewrite iso_flip in B; cbn [negb] in *; congruence.
    - intros h k A. destruct (side_cases h g) as [Dh|Hh].
      + rewrite iso_ne in A by done. rewrite iso_ne by (by eapply val_fst). by eapply (proj2 P).
      + destruct Hh as [-> | ->]; rewrite iso_flip in A; injection A as <-; rewrite iso_flip; eauto. }
  rewrite C. split; [by rewrite swap_ne|]. split; [by eapply swap_l|]. split; [by eapply swap_r|]. split; [rewrite swap_ne; done|].
  intros E0 E1. assert (m0 = pa) as ->. { eapply (proj1 (swap_perm _ (g, false) pa PX)); [exact E0|]. by eapply swap_r. }
  split; [done|]. rewrite swap_swap in *. assert (m1 = pb) as -> by (by eapply (proj1 PX)). rewrite swap_swap. by apply dels_iso.
Qed.
End Undo.

Lemma drawing s s' : inv s -> inv s' -> xy_of s = xy_of s' -> vtx s = vtx s' -> vec s = vec s' -> nxt s = nxt s' -> p2s s = p2s s' ->
  (dom (outer_of s) : gset nat) = dom (outer_of s') -> (forall h, poly_at s h = poly_at s' h) -> same_drawing s s'.
Proof.
  intros I I' HX HV Hv HN H2 HO HP. assert (T := i_topo _ I). assert (T' := i_topo _ I'). unfold same_drawing. rewrite !dom_outer.
  split; [done|]. split; [done|]. split; [done|]. split; [done|]. split; [done|]. split; [done|]. split; [done|]. split.
  - intros h k. assert (Dh : forall h, is_Some (wir s !! h) <-> is_Some (wir s' !! h)).
    { intros x. by rewrite (topo_dom_l _ _ _ _ T), (topo_dom_l _ _ _ _ T'), HN. }
    assert (Nn : forall x, wir s !! x = None <-> wir s' !! x = None) by (intros x; rewrite !eq_None_not_Some; by rewrite Dh).
    destruct (wir s !! h) as [w|] eqn:Wh.
    + destruct (wir s' !! h) as [w'|] eqn:Wh'; [|apply Nn in Wh'; congruence]. destruct (wir s !! k) as [x|] eqn:Wk.
      * destruct (wir s' !! k) as [x'|] eqn:Wk'; [|apply Nn in Wk'; congruence].
        assert (A := proj2 (t_wir _ _ _ T) h k w x Wh Wk). assert (B := proj2 (t_wir _ _ _ T') h k w' x' Wh' Wk'). rewrite HN in A.
        split; intros E; f_equal; injection E as E; tauto.
      * apply Nn in Wk. rewrite Wk. done.
    + assert (X := proj1 (Nn h) Wh). rewrite X. split; intros E; symmetry in E; apply Nn in E; by symmetry.
  - assert (Q : forall p, is_Some (points s !! p) <-> is_Some (points s' !! p)) by (intros p; rewrite <- !(fmap_is_Some xy), <- !lookup_fmap; by rewrite HX).
    assert (L : forall t, inv t -> forall p, loose t p <-> is_Some (points t !! p) /\ forall h, vtx t !! h <> Some p).
    { intros t It p. destruct (i_pts _ It) as (P1 & P2 & P3). split.
      - intros (x & E & S). split; [eauto|]. intros h. apply P2. rewrite lookup_fmap, E. cbn. by rewrite S.
      - intros [[x E] Nh]. exists x. split; [done|]. destruct (p_seg x) as [h|] eqn:S; [|done]. exfalso. apply (Nh h), P1. rewrite lookup_fmap, E. cbn. by rewrite S. }
    intros p. by rewrite (L s I), (L s' I'), HV, Q.
Qed.
Lemma poly_at_eq s h w x : wir s !! h = Some w -> pol_of s !! w = Some x -> poly_at s h = x.
Proof. intros W L. unfold poly_at. rewrite W. cbn. rewrite lookup_fmap in L. destruct (wires s !! w) as [y|]; [|done]. cbn in *. congruence. Qed.
Lemma poly_at_none s h : wir s !! h = None -> poly_at s h = None.
Proof. intros W. unfold poly_at. by rewrite W. Qed.
Lemma poly_at_same s s' h : wir s !! h = wir s' !! h -> pol_of s = pol_of s' -> poly_at s h = poly_at s' h.
Proof.
  intros W L. unfold poly_at. rewrite W. destruct (wir s' !! h) as [w|]; [|done]. cbn. assert (X : pol_of s !! w = pol_of s' !! w) by (by rewrite L).
  rewrite !lookup_fmap in X. destruct (wires s !! w), (wires s' !! w); cbn in *; congruence.
Qed.
Lemma p2s_back (m : gmap (nat * nat) nat) a b i : m !! (a, b) = None -> m !! (b, a) = None -> delete (b, a) (delete (a, b) (<[(a, b) := i]> m)) = m.
Proof. intros E1 E2. rewrite delete_insert by done. by rewrite delete_notin. Qed.

Section Restore.
Context (s : st) (G : good s) (a b i : nat) (s1 : st) (G1 : good s1) (u : unit) (s2 : st) (K' : geometry).
Hypothesis E1 : p2s s !! (a, b) = None.
Hypothesis E2 : p2s s !! (b, a) = None.
Hypothesis HD : delete_segment K' i s1 = (Ok u, s2).
Let I := g_inv _ G.
Let I1 : inv (set_change CNone s1) := inv_change CNone _ (g_inv _ G1).

Lemma restore_wire g : seg_of s !! a = Some None -> seg_of s !! b = Some None -> new_wire_op g a b s = (Ok i, s1) -> same_drawing s s2.
Proof.
  intros A B H. destruct (new_wire_op_eff _ _ _ _ _ _ I A B E1 E2 H) as (_ & w & q & Fw & _ & _ & HP & HL & HO & _ & _ & Fi & HV & HX & HN & HW & _ & _ & (x & y & _ & _ & Hv) & H2).
  destruct (fresh_sides _ _ I Fi) as [Fv Fl]. assert (Fn := fresh_nxt _ _ I Fi).
  assert (Nx : forall c, nxt s1 !! (i, c) = Some (i, negb c)) by (intros c; rewrite HN; apply iso_flip).
  destruct (delete_segment_cases _ _ _ _ _ HD) as [[N C]|[(tip & N1 & N2 & C)|(N1 & N2 & C)]].
  2: { exfalso. apply N2. rewrite Nx, negb_involutive. done. }
  2: { exfalso. apply N1. apply (Nx true). }
  destruct (rm_wire_op_eff _ _ _ _ I1 C) as (I2 & w' & gp & q' & a' & b' & _ & Wt & _ & _ & _ & _ & _ & _ & HP' & HL' & HO' & _ & Va & Vb & _ & HV' & HX' & HN' & HW' & Hv' & H2' & _). fld in *.
  rewrite HV, both_f in Va. rewrite HV, both_t in Vb. injection Va as <-. injection Vb as <-. rewrite HW, both_t in Wt. injection Wt as <-.
  apply drawing; try done.
  - congruence.
  - rewrite HV', HV. by rewrite dels_both.
  - rewrite Hv', Hv. by rewrite delete_insert.
  - rewrite HN', HN. by rewrite dels_iso.
  - rewrite H2', H2. by rewrite p2s_back.
  - congruence.
  - intros h. apply poly_at_same; [rewrite HW', HW; by rewrite dels_both|]. rewrite HL', HL. rewrite delete_insert; [done|].
    apply eq_None_not_Some. rewrite <- (n_dom _ _ _ (g_nest _ G)). rewrite Fw. by intros [].
Qed.
Lemma restore_dendrite prev next w (root : bool) : seg_of s !! (if root then a else b) = Some None -> fits s (if root then b else a) (prev, next, w) ->
  add_dendrite a b (prev, next, w) root s = (Ok i, s1) -> same_drawing s s2.
Proof.
  intros A B H. destruct (add_dendrite_eff _ _ _ _ _ _ _ _ _ I A B E1 E2 H) as (_ & Hw & HO & D & Fi & HV & HX & HN & HW & _ & _ & (x & y & _ & _ & Hv) & H2).
  destruct B as (Np & _ & _). destruct (fresh_sides _ _ I Fi) as [Fv Fl]. assert (Fn := fresh_nxt _ _ I Fi). assert (P := t_perm _ _ _ (i_topo _ I)).
  destruct (back1 _ _ P Fn root prev next prev Np) as (B1 & B2 & _). rewrite <- HN in B1, B2. assert (Dn := val_fst _ _ P Fn _ _ Np).
  assert (Nr : forall c, nxt s1 !! (i, root) <> Some (i, c)) by (intros c X; rewrite B2 in X; injection X as ->; done).
  destruct (delete_segment_cases _ _ _ _ _ HD) as [[N C]|[(tip & N1 & N2 & C)|(N1 & N2 & C)]].
  1: { exfalso. by apply (Nr _ (N root)). }
  2: { exfalso. destruct root; [by apply N2|by apply N1]. }
  assert (tip = negb root) as -> by (destruct (bool_dec tip root) as [-> | Db]; [by apply Nr in N1|by destruct tip, root]).
  destruct (rm_dendrite_eff _ _ _ _ _ I1 N1 N2 C) as (I2 & w' & gp & m & k & pt & pr & sg1 & Nm & Dm & _ & _ & _ & _ & HL' & _ & HO' & _ & Vt & Vr & _ & HV' & HX' & HN' & HW' & Hv' & H2' & _). fld in *.
  rewrite negb_involutive in *. destruct (back1 _ _ P Fn root prev next m Np) as (_ & _ & B3). rewrite <- HN in B3.
  assert (V : a = (if negb root then pr else pt) /\ b = (if negb root then pt else pr)).
  { rewrite HV in Vt, Vr. destruct root; cbn [negb] in *; rewrite ?both_f, ?both_t in Vt; rewrite ?both_t, ?both_f in Vr; injection Vt as <-; injection Vr as <-; done. }
  cbv zeta in H2'. assert (H3 : p2s s2 = delete (b, a) (delete (a, b) (p2s s1))) by (destruct V as [-> ->]; exact H2').
  apply drawing; try done.
  - congruence.
  - rewrite HV', HV. by rewrite dels_both.
  - rewrite Hv', Hv. by rewrite delete_insert.
  - rewrite HN'. symmetry. by apply B3.
  - rewrite H3, H2. by rewrite p2s_back.
  - congruence.
  - intros h. apply poly_at_same; [rewrite HW', HW; by rewrite dels_both|]. rewrite HL'. by rewrite Hw.
Qed.
Lemma ends_ne pa na wa pb nb wb : a <> b -> fits s a (pa, na, wa) -> fits s b (pb, nb, wb) -> pa <> pb.
Proof. intros D (_ & A & _) (_ & B & _) ->. congruence. Qed.
Lemma restore_join pa na wa pb nb wb : fits s a (pa, na, wa) -> fits s b (pb, nb, wb) -> join_wires a b (pa, na, wa) (pb, nb, wb) s = (Ok i, s1) -> same_drawing s s2.
Proof.
  intros A B H. destruct (join_wires_eff _ _ _ _ _ _ _ _ _ _ _ I A B E1 E2 H) as (_ & g & o & side & keep & rm & up' & xrm & Dw & La & Lb & Ho & _ & Hk & Hr & _ & HO & _ & _ & _ & HL & _ & D & Fi & HV & HX & HN & WI & WO & _ & _ & (x & y & _ & _ & Hv) & H2).
  assert (Dp := ends_ne _ _ _ _ _ _ D A B). destruct A as (Na & _ & Wa). destruct B as (Nb & _ & Wb).
  destruct (fresh_sides _ _ I Fi) as [Fv Fl]. assert (Fn := fresh_nxt _ _ I Fi). assert (P := t_perm _ _ _ (i_topo _ I)).
  assert (Dna := val_fst _ _ P Fn _ _ Na). assert (Dnb := val_fst _ _ P Fn _ _ Nb).
  destruct (back2 _ _ P Fn pa na pb nb pa pb Na Nb Dp) as (B1 & B2 & B3 & B4 & _). rewrite <- HN in B1, B2, B3, B4.
  assert (Nt : forall c, nxt s1 !! (i, true) <> Some (i, c)) by (intros c X; rewrite B1 in X; injection X as ->; done).
  assert (Nf : forall c, nxt s1 !! (i, false) <> Some (i, c)) by (intros c X; rewrite B2 in X; injection X as ->; done).
  destruct (delete_segment_cases _ _ _ _ _ HD) as [[N C]|[(tip & N1 & N2 & C)|(N1 & N2 & C)]].
  1: { exfalso. by apply (Nt _ (N true)). }
  1: { exfalso. destruct tip; [by apply (Nt _ N1)|by apply (Nf _ N1)]. }
  destruct C as [[_ C]|[Dl _]]; [|by rewrite !WI in Dl].
  destruct (split_wire_eff _ _ _ _ _ I1 N1 N2 C) as (I2 & wx & wn & gp & m0 & m1 & ka & kb & a' & b' & Wt & _ & Fwn & Lx & _ & HO' & Va & Vb & _ & HV' & HX' & M0 & _ & M1 & HN' & WR & WN & Hv' & H2' & _ & _ & _ & _ & _ & _ & HL' & _). fld in *.
  rewrite HV, both_f in Va. rewrite HV, both_t in Vb. injection Va as <-. injection Vb as <-. rewrite WI in Wt. injection Wt as <-.
  destruct (back2 _ _ P Fn pa na pb nb m0 m1 Na Nb Dp) as (_ & _ & _ & _ & B5). rewrite <- HN in B5. destruct (B5 M0 M1) as [_ Eq].
  assert (Lk : pol_of s !! keep = Some (Some g)) by (rewrite Hk; by destruct (default true side)).
  assert (Lr : pol_of s !! rm = Some (Some g)) by (rewrite Hr; by destruct (default true side)).
  assert (Dkr : keep <> rm) by (rewrite Hk, Hr; destruct (default true side); congruence).
  assert (gp = g) as ->. { rewrite HL, lookup_delete_ne in Lx by done. congruence. }
  apply drawing; try done.
  - congruence.
  - rewrite HV', HV. by rewrite dels_both.
  - rewrite Hv', Hv. by rewrite delete_insert.
  - by rewrite HN', Eq.
  - rewrite H2', H2. by rewrite p2s_back.
  - apply set_eq. intros k. rewrite !elem_of_dom, HO', HO. destruct side; [|done]. destruct (decide (k = g)) as [-> | Dk]; [rewrite lookup_insert, Ho; split; eauto|by rewrite lookup_insert_ne].
  - assert (Dom : forall h, wir s !! h = None -> wir s2 !! h = None).
    { intros h X. apply eq_None_not_Some. rewrite (topo_dom_l _ _ _ _ (i_topo _ I2)), HN', Eq, <- (topo_dom_l _ _ _ _ (i_topo _ I)), X. by intros []. }
    intros h. destruct (wir s !! h) as [w|] eqn:W; [|rewrite poly_at_none by done; symmetry; by apply poly_at_none, Dom].
    assert (Dh := old_side _ _ _ _ Fl W).
    assert (W1 : wir s1 !! h = Some (if decide (w = rm) then keep else w)) by (rewrite WO, W by done; done).
    destruct (good_side _ _ _ G W) as (gw & ow & Lw & _).
    assert (Lw1 : pol_of s1 !! (if decide (w = rm) then keep else w) = Some (Some gw)).
    { rewrite HL. destruct (decide (w = rm)) as [-> | Dr]; [|by rewrite lookup_delete_ne]. rewrite lookup_delete_ne by done. congruence. }
    rewrite (poly_at_eq _ _ _ _ W Lw). symmetry.
    assert (Pw : perm (swap (nxt s1) (i, false) m0)) by (apply swap_perm, (i_topo _ I1)).
    assert (Wpb : wir s2 !! pb = Some wn).
    { destruct (B5 M0 M1) as [-> _]. apply WR; [|by eapply old_fst]. apply reach_sym'; [done| |].
      - apply swap_dom. eauto.
      - apply reach_step. rewrite swap_ne; [done| |by apply not_eq_sym]. intros X. apply (old_fst _ _ Fn _ _ Nb). by rewrite X. }
    destruct (decide (wir s2 !! h = Some wn)) as [X|X].
    + apply (poly_at_eq _ _ wn); [done|]. rewrite HL', lookup_insert. f_equal.
      assert (R : reach (nxt s) pb h) by (rewrite <- Eq, <- HN'; by apply (labels_reach _ _ _ _ _ (t_wir _ _ _ (i_topo _ I2)) Wpb X)).
      assert (Y := labels_same _ _ _ _ _ P (t_wir _ _ _ (i_topo _ I)) Wb R). congruence.
    + assert (Y : wir s2 !! h = wir s1 !! h) by (apply WN; intros R; apply X; by apply WR). rewrite W1 in Y.
      apply (poly_at_eq _ _ _ _ Y). rewrite HL'. rewrite lookup_insert_ne; [done|]. intros Z. rewrite <- Z in Y. done.
Qed.
Lemma restore_split K pa na wa pb nb wb : sane K s1 i -> fits s a (pa, na, wa) -> fits s b (pb, nb, wb) -> split_poly K a b (pa, na, wa) (pb, nb, wb) s = (Ok i, s1) ->
  same_drawing s s2.
Proof.
  intros SK A B H.
  destruct (split_poly_sides _ _ _ _ _ _ _ _ _ _ _ _ G SK A B E1 E2 H) as (g0 & n0 & Fn0 & Ig0 & HO0 & Lw0 & Sides).
  destruct (split_poly_eff _ _ _ _ _ _ _ _ _ _ _ _ I A B E1 E2 H) as (_ & left & n & g & o & q0 & on & sel & par1 & pol1 & <- & Fl & Fnn & Lw & Pw & HPd & HO & Lc & D & Fi & HV & HX & HN & Wt & Wf & WR & WN & _ & (x & y & _ & _ & Hv) & H2 & HT).
  assert (g0 = g) as -> by congruence.
  assert (n0 = n) as ->. { destruct Sides as [(X & _)|(X & _)], Lc as [Y|Y]; congruence. }
  destruct (good_tree _ G) as [Tr PL]. destruct (HT Tr PL) as (Og & Cases & Sel & NSel & _ & _ & _). clear HT Lc.
  assert (Dp := ends_ne _ _ _ _ _ _ D A B). destruct A as (Na & _ & Wa). destruct B as (Nb & _ & Wb). assert (N := g_nest _ G).
  destruct (fresh_sides _ _ I Fi) as [Fv Fw]. assert (Fn := fresh_nxt _ _ I Fi). assert (P := t_perm _ _ _ (i_topo _ I)).
  assert (Dna := val_fst _ _ P Fn _ _ Na). assert (Dnb := val_fst _ _ P Fn _ _ Nb). assert (Dl : left <> wa) by (intros ->; congruence).
  destruct (back2 _ _ P Fn pa na pb nb pa pb Na Nb Dp) as (B1 & B2 & B3 & B4 & _). rewrite <- HN in B1, B2, B3, B4.
  assert (Nt : forall c, nxt s1 !! (i, true) <> Some (i, c)) by (intros c X; rewrite B1 in X; injection X as ->; done).
  assert (Nf : forall c, nxt s1 !! (i, false) <> Some (i, c)) by (intros c X; rewrite B2 in X; injection X as ->; done).
  destruct (delete_segment_cases _ _ _ _ _ HD) as [[Nx C]|[(tip & N1 & N2 & C)|(N1 & N2 & C)]].
  1: { exfalso. by apply (Nt _ (Nx true)). }
  1: { exfalso. destruct tip; [by apply (Nt _ N1)|by apply (Nf _ N1)]. }
  destruct C as [[Dl' _]|[Dw C]]; [rewrite Wt, Wf in Dl'; congruence|].
  destruct (join_poly_eff _ _ _ _ I1 (good_nested _ (good_change CNone _ G1) i) N1 N2 Dw C) as (I2 & keep & rm & kp & n' & m0 & m1 & ka & kb & a' & b' & xrm & Sd & Dkr & Lk & Lr & Dkn & On & HO' & Xrm & _ & _ & Ch & NCh & Va & Vb & _ & HV' & HX' & M0 & _ & M1 & HN' & HW' & Hv' & H2' & _ & _ & _ & _ & _ & Ca & _). fld in *.
  rewrite HV, both_f in Va. rewrite HV, both_t in Vb. injection Va as <-. injection Vb as <-.
  destruct (back2 _ _ P Fn pa na pb nb m0 m1 Na Nb Dp) as (_ & _ & _ & _ & B5). rewrite <- HN in B5. destruct (B5 M0 M1) as [_ Eq]. clear B5.
  assert (Kr : (keep = left /\ rm = wa) \/ (keep = wa /\ rm = left)) by (destruct Sd as [[X1 X2]|[X1 X2]]; [left|right]; split; congruence).
  (* the polygon that goes is the one that came *)
  assert (On1 : outer_of s1 !! n = Some on) by (rewrite HO; apply lookup_insert).
  assert (Ns : forall c, par1 !! c <> Some (Some o) -> par_of s1 !! c = par1 !! c).
  { intros c X. apply NSel. intros Hc. by destruct (Sel _ Hc) as (? & _). }
  assert (Which : kp = g /\ n' = n).
  { assert (Q : forall h w g, wir s1 !! h = Some w -> pol_of s1 !! w = Some (Some g) -> poly_at s1 h = Some g) by (intros; by eapply poly_at_some).
    destruct Cases as [(-> & -> & -> & -> & Lc)|(Do & -> & out & Ho & P1 & -> & Lc)].
    - destruct Sides as [(_ & X & Y)|(X & _)]; [|congruence]. destruct Ca as [(_ & Z & _ & Kf)|(_ & Z & Z')].
      + assert (keep = wa) as -> by congruence. assert (rm = left) as -> by (destruct Kr as [[? ?]|[? ?]]; congruence).
        rewrite (Q _ _ _ Wt Lr) in X. rewrite (Q _ _ _ Wf Lk) in Y. split; congruence.
      + exfalso. assert (Dq : q0 <> wa) by (intros ->; by apply (n_self _ _ _ N wa)).
        assert (Pl1 : par_of s1 !! left = Some (Some q0)) by (rewrite (Ns left); rewrite lookup_insert; congruence).
        assert (Pl2 : par_of s1 !! wa = Some (Some q0)) by (rewrite (Ns wa); rewrite lookup_insert_ne by done; congruence).
        destruct Kr as [[-> ->]|[-> ->]]; congruence.
    - destruct Sides as [(X & _)|(_ & XY)]; [congruence|].
      assert (Lon : pol_of s1 !! on = Some (Some n)) by (by apply (n_out _ _ _ (g_nest _ G1))).
      assert (Dlo : left <> o) by (intros ->; destruct (out_live _ _ _ N _ _ Og); congruence).
      assert (Doo : out <> o) by (destruct Ho as [(_ & -> & _)|(_ & -> & _)]; [by apply not_eq_sym|done]).
      assert (Nout : pol_of s1 !! out = Some (Some g)).
      { destruct (good_side _ _ _ G1 Wt) as (gl & _ & Ll & _). destruct (good_side _ _ _ G1 Wf) as (gr & _ & Lr' & _).
        rewrite (Q _ _ _ Wt Ll), (Q _ _ _ Wf Lr') in XY.
        destruct Ho as [(-> & -> & _)|(-> & -> & _)]; destruct XY as [[X Y]|[X Y]]; congruence. }
      assert (Po : par_of s1 !! on = Some (Some out)) by (rewrite (Ns on); rewrite P1, decide_True by done; congruence).
      assert (Pne : par_of s1 !! out <> Some (Some on)).
      { intros X. assert (Y := n_child _ _ _ (g_nest _ G1) _ _ _ X On1). congruence. }
      destruct Ca as [(_ & Z & _)|(_ & Z & Z')].
      + exfalso. apply (n_self _ _ _ (g_nest _ G1) out). destruct Ho as [(-> & -> & _)|(-> & -> & _)], Kr as [[-> ->]|[-> ->]]; congruence.
      + assert (rm = on /\ keep = out) as [-> ->].
        { destruct Ho as [(-> & -> & _)|(-> & -> & _)], Kr as [[-> ->]|[-> ->]]; done. }
        split; congruence. }
  destruct Which as [-> ->]. assert (rm = on) as -> by congruence. clear Ca Sides.
  apply drawing; try done.
  - congruence.
  - rewrite HV', HV. by rewrite dels_both.
  - rewrite Hv', Hv. by rewrite delete_insert.
  - by rewrite HN', Eq.
  - rewrite H2', H2. by rewrite p2s_back.
  - rewrite HO', HO. by rewrite delete_insert.
  - assert (N21 : nxt s2 = nxt s) by (by rewrite HN', Eq). assert (T := i_topo _ I). assert (T2 := i_topo _ I2). 
    assert (Lk2 : pol_of s2 !! keep = Some (Some g)).
    { destruct (decide (keep ∈ childs xrm)) as [X|X]; [by destruct (Ch _ Dkr X) as (? & _ & _ & _ & ? & _)|]. by rewrite (proj2 (NCh _ Dkr X)). }
    assert (Wpa1 : wir s1 !! pa = Some keep \/ wir s1 !! pa = Some on).
    { assert (X : wir s1 !! pa = Some left).
      { apply WR. apply reach_sym'; [apply (i_topo _ (g_inv _ G1))| |by apply reach_step]. eauto. }
      destruct Kr as [[-> ->]|[-> ->]]; auto. }
    assert (Dpa := old_fst _ _ Fn _ _ Na).
    assert (Wpa : wir s2 !! pa = Some keep).
    { rewrite HW' by done. destruct Wpa1 as [-> | ->]; cbn; [by rewrite decide_False|by rewrite decide_True]. }
    assert (In : forall h, wir s !! h = Some wa <-> wir s2 !! h = Some keep).
    { intros h. split; intros X.
      - apply (labels_same _ _ _ _ _ (t_perm _ _ _ T2) (t_wir _ _ _ T2) Wpa). rewrite N21. by apply (labels_reach _ _ _ _ _ (t_wir _ _ _ T) Wa X).
      - apply (labels_same _ _ _ _ _ P (t_wir _ _ _ T) Wa). rewrite <- N21. by apply (labels_reach _ _ _ _ _ (t_wir _ _ _ T2) Wpa X). }
    intros h. destruct (wir s !! h) as [w|] eqn:W.
    2: { rewrite poly_at_none by done. symmetry. apply poly_at_none. apply eq_None_not_Some. rewrite (topo_dom_l _ _ _ _ T2), N21, <- (topo_dom_l _ _ _ _ T), W. by intros []. }
    destruct (decide (w = wa)) as [-> | Dw'].
    { rewrite (poly_at_eq _ _ _ _ W Lw). symmetry. apply (poly_at_eq _ _ keep); [by apply In|done]. }
    assert (Dh := old_side _ _ _ _ Fw W). destruct (good_side _ _ _ G W) as (gw & ow & Lgw & Ow & _).
    assert (Iw : is_Some (par_of s !! w)) by (apply (n_dom _ _ _ N); eauto).
    assert (Dwl : w <> left) by (intros ->; destruct Iw; congruence).
    assert (Don : w <> on) by (destruct Kr as [[_ ->]|[_ ->]]; done).
    assert (W2 : wir s1 !! h = Some w).
    { rewrite <- W. apply WN; [|done]. intros R. apply WR in R. apply Dw'. enough (wir s !! h = Some wa) by congruence. apply In.
      rewrite HW', R by done. cbn. destruct Kr as [[-> ->]|[-> ->]]; [by rewrite decide_False by congruence|by rewrite decide_True]. }
    assert (W3 : wir s2 !! h = Some w) by (rewrite HW', W2 by done; cbn; by rewrite decide_False).
    rewrite (poly_at_eq _ _ _ _ W Lgw). symmetry. apply (poly_at_eq _ _ _ _ W3).
    assert (Kids := kids _ G1 on xrm w Xrm).
    assert (Par1 : par1 !! w = Some (Some o) -> gw = g).
    { intros X. enough (par_of s !! w = Some (Some o)) as Y by (assert (Z := n_child _ _ _ N _ _ _ Y Og); congruence).
      destruct Cases as [(_ & _ & -> & _)|(Do & _ & out & Ho & P1 & _)]; [by rewrite lookup_insert_ne in X|].
      rewrite P1 in X. rewrite decide_False in X by done. rewrite decide_False in X by (destruct Ho as [(_ & -> & _)|(_ & -> & _)]; done).
      destruct (decide (par_of s !! w = Some (Some wa))); [|done]. exfalso. injection X as ->.
      destruct Ho as [(_ & -> & _)|(_ & -> & _)]; [done|]. destruct (out_live _ _ _ N _ _ Og); congruence. }
    assert (Pol1 : pol1 !! w = pol_of s !! w).
    { destruct Cases as [(_ & _ & _ & -> & _)|(Do & _ & out & Ho & P1 & -> & _)]; [by rewrite lookup_insert_ne|].
      rewrite lookup_insert_ne by done. rewrite lookup_insert_ne; [done|]. destruct Ho as [(_ & -> & _)|(_ & -> & _)]; done. }
    destruct (decide (w ∈ sel)) as [Is|Is].
    + destruct (Sel _ Is) as (X1 & X2 & X3). rewrite (Par1 X1). apply Kids in X2. by destruct (Ch _ Don X2) as (? & _ & _ & _ & ? & _).
    + destruct (NSel _ Is) as (X1 & X2). rewrite Pol1 in X2. destruct (decide (w ∈ childs xrm)) as [X|X].
      * exfalso. apply Kids in X. assert (Y := n_child _ _ _ (g_nest _ G1) _ _ _ X On). congruence.
      * rewrite (proj2 (NCh _ Don X)). congruence.
Qed.
End Restore.

(** Deleting the segment that was just made gives the drawing back. *)
Lemma restore K K' s a b i s1 u s2 : good s -> sane K s1 i -> p2s s !! (a, b) = None -> p2s s !! (b, a) = None ->
  new_segment K a b s = (Ok i, s1) -> delete_segment K' i s1 = (Ok u, s2) -> same_drawing s s2.
Proof.
  intros G SK E1 E2 H HD. assert (G1 := good_new_segment _ _ _ _ _ _ G SK H). assert (G0 := good_change CNone _ G).
  enough (same_drawing (set_change CNone s) s2) by done.
  destruct (new_segment_cases _ _ _ _ _ _ (g_inv _ G) H) as [D [[[X|X] _]|(_ & _ & C)]]; [congruence|congruence|].
  destruct C as [(g & A & B & C)|[(pv & nx & w & root & A & B & C)|(pa & na & wa & pb & nb & wb & A & B & [[Dw C]|[Dw C]])]].
  - exact (restore_wire _ G0 _ _ _ _ G1 _ _ _ E1 E2 HD _ A B C).
  - exact (restore_dendrite _ G0 _ _ _ _ G1 _ _ _ E1 E2 HD _ _ _ _ A B C).
  - exact (restore_split _ G0 _ _ _ _ G1 _ _ _ E1 E2 HD _ _ _ _ _ _ _ SK A B C).
  - exact (restore_join _ G0 _ _ _ _ G1 _ _ _ E1 E2 HD _ _ _ _ _ _ A B C).
Qed.

(** * Joining a segment just split *)
Lemma inv_vec V s : inv s -> (forall g, is_Some (V !! g) <-> is_Some (vec s !! g)) -> inv (set_vec V s).
Proof.
  intros I H. destruct I as [I1 I2 I3 I4 I5 I6 I7 I8 I9 I10 I11]. constructor; try done.
  - intros g. rewrite <- I4. apply H.
  - eapply src_dom; [|exact I9]. intros g. symmetry. apply H.
Qed.
Lemma rejoin s e mid i s1 m s2 : good s -> seg_of s !! mid = Some None -> split_segment e mid s = (Ok i, s1) -> join_segments mid e i s1 = (Ok m, s2) ->
  m = mid /\ good s2 /\ (exists d, vec s2 = <[e := d]> (vec s)) /\ same_drawing (set_vec (vec s2) s) s2.
Proof.
  intros G Mm H1 H2. assert (I := g_inv _ G). assert (G1 := good_mid _ G _ _ _ _ Mm H1). assert (I1 := g_inv _ G1). assert (TT := i_topo _ I). assert (T1 := i_topo _ I1).
  destruct (split_segment_eff _ _ _ _ _ I Mm H1) as (_ & nx & pv & a & b & wt & wf & xa & xb & xm & kb & Nt & Np & Va & Vb & Wt & Wf & Fi & Db & Da & _ & _ & _ & HV & HN & HW & Hw & HO & HX & Hv & Hp & HS & _).
  destruct (fresh_sides _ _ I Fi) as [Fv Fl]. assert (Fn := fresh_nxt _ _ I Fi). assert (Dei : e <> i) by (intros ->; by rewrite Fv in Va).
  assert (Dab : a <> b) by (intros ->; by apply (t_loop _ _ _ TT _ _ Va)).
  assert (V1 : vtx s1 !! (e, true) = Some mid) by (rewrite HV; apply lookup_insert).
  assert (V2 : vtx s1 !! (i, false) = Some mid) by (rewrite HV; unfold vm; rewrite lookup_insert_ne by congruence; apply both_f).
  assert (V3 : vtx s1 !! (e, false) = Some a) by (rewrite HV; unfold vm; rewrite lookup_insert_ne by congruence; by rewrite both_ne).
  assert (V4 : vtx s1 !! (i, true) = Some b) by (rewrite HV; unfold vm; rewrite lookup_insert_ne by congruence; apply both_t).
  destruct (i_pair _ I) as [J1 J2]. assert (Eab : p2s s !! (a, b) = Some e) by (by apply J1). assert (Eba := J2 _ _ _ Eab).
  assert (Pm : forall x, p2s s !! (x, mid) = None). { intros x. apply eq_None_not_Some. intros [k Hk]. apply J1 in Hk as [_ Hk]. by apply (proj1 (proj2 (i_pts _ I)) _ (k, true) Mm). }
  assert (Pm' : forall x, p2s s !! (mid, x) = None). { intros x. apply eq_None_not_Some. intros [k Hk]. apply J1 in Hk as [Hk _]. by apply (proj1 (proj2 (i_pts _ I)) _ (k, false) Mm). }
  assert (P1 : p2s s1 !! (a, b) = None) by (rewrite Hp, !lookup_insert_ne by congruence; apply lookup_delete).
  assert (P2 : p2s s1 !! (b, a) = None) by (rewrite Hp, !lookup_insert_ne by congruence; rewrite lookup_delete_ne by congruence; done).
  assert (G2 : good s2). { eapply (good_unmid s1 mid e i m); [done|done|done| |done]. intros a' b' A B. assert (a' = a) as -> by congruence. assert (b' = b) as -> by congruence. done. }
  destruct (join_segments_eff mid e i s1 m s2 a b I1 V1 V2 V3 V4 P1 P2 H2) as (-> & _ & nx' & pv' & wt' & wf' & gp & kb' & Ee & Ef & Et & Ep & _ & _ & _ & _ & _ & _ & _ & _ & _ &
    HV' & HN' & HW' & HP' & HL' & _ & HO' & HX' & Hv' & Hp' & _ & _ & _).
  split; [done|]. split; [done|]. split.
  { exists (vminus xm xa). rewrite Hv', Hv. rewrite delete_insert_ne by congruence. by rewrite delete_insert. }
  apply drawing; fld.
  - apply inv_vec; [done|]. intros g. rewrite Hv', Hv. rewrite <- live_delete, <- !live_insert. split.
    + intros [D [-> |[-> |?]]]; [by eapply vec_live|done|done].
    + intros X. split; [intros ->; rewrite Fi in X; by destruct X|auto].
  - apply G2.
  - change (xy_of s = xy_of s2). congruence.
  - rewrite HV', HV. unfold vu, vm. apply map_eq. intros h. destruct (decide (h = (e, true))) as [-> | D]; [by rewrite lookup_insert|]. rewrite lookup_insert_ne by done.
    destruct (side_cases h i) as [D2|[-> | ->]]; [|by rewrite dels_in, Fv..]. rewrite dels_ne, lookup_insert_ne, both_ne by done. done.
  - done.
  - rewrite HN'. assert (Dp : fst pv <> i) by (intros X; destruct pv as [x y]; cbn in X; subst x; by rewrite Fn in Np).
    assert (Ep2 := fm_p _ _ _ _ _ TT Fn _ _ _ Nt Np Vb). rewrite <- HN in Ep2. assert (pv' = pv1 e i pv) as -> by (by eapply (t_perm _ _ _ T1)). 
    assert (Epw : pw e i (pv1 e i pv) = pv).
    { unfold pw, pv1. destruct (decide (pv = (e, true))) as [-> | D]; [by rewrite decide_True|]. rewrite decide_False; [done|]. by intros ->. }
    apply map_eq. intros h. destruct (side_cases h i) as [D|[-> | ->]]; [|by rewrite dels_in, Fn..]. rewrite dels_ne by done.
    destruct (decide (h = pv)) as [-> | D1].
    { rewrite Np. symmetry. rewrite <- (u2_p (nxt s1) e i nx' _ Ee Ef Et Ep2 Dei). by rewrite Epw. }
    destruct (decide (h = (e, true))) as [-> | D2].
    { rewrite Nt. symmetry. assert (Dq : pv1 e i pv <> (i, true)). { unfold pv1. rewrite decide_False by done. by intros ->. }
      rewrite (u2_e (nxt s1) e i nx' _ Ee Ef Et Ep2 Dei Dq). rewrite <- Et, HN. apply (fm_t _ _ _ _ Fn _ _ _ Nt Np Vb). by apply not_eq_sym. }
    symmetry. rewrite u2_old; [|try done..].
    + rewrite HN. by apply fm_old.
    + intros ->. unfold pv1 in *. destruct (decide (pv = (e, true))); done.
  - rewrite Hp', Hp. apply map_eq. intros k. destruct (decide (k = (b, mid))) as [-> | D1]; [by rewrite lookup_delete|]. rewrite lookup_delete_ne by done.
    destruct (decide (k = (mid, b))) as [-> | D2]; [by rewrite lookup_delete|]. rewrite lookup_delete_ne by done.
    destruct (decide (k = (a, b))) as [-> | D3]; [by rewrite lookup_insert|]. rewrite lookup_insert_ne by done.
    destruct (decide (k = (a, mid))) as [-> | D4]; [by rewrite lookup_delete|]. by rewrite lookup_delete_ne, lookup_delete_ne, !lookup_insert_ne, lookup_delete_ne by done.
  - change ((dom (outer_of s) : gset nat) = dom (outer_of s2)). by rewrite HO', HO.
  - intros h. change (poly_at s h = poly_at s2 h). apply poly_at_same; [rewrite HW', HW; by rewrite dels_both|]. rewrite HL'. unfold pol_of. by rewrite Hw.
Qed.
