(** The invariant of the decomposition with its nesting and its Euler count; every operation keeps it. *)
From stdpp Require Import gmap list relations.
From Coq Require Import Lia.
From Verif Require Import Decomp_Model Decomp_Spec Decomp_Perm Decomp_Surgery Decomp_Eff Decomp_Tree Decomp_Inv Decomp_Add Decomp_Join Decomp_Split
  Decomp_Del Decomp_Cut Decomp_Merge Decomp_Mid Decomp_Planar Decomp_Nest.
Local Open Scope nat_scope.

(** The polygon on every side of a segment. *)
Definition sides (L : pmap) (l : gmap he nat) : gmap he nat := omap (fun w => mjoin (L !! w)) l.
Lemma sides_some L l h x : sides L l !! h = Some x <-> exists w, l !! h = Some w /\ L !! w = Some (Some x).
Proof.
  unfold sides. rewrite lookup_omap. destruct (l !! h) as [w|]; cbn; [|split; [done|by intros (w & ? & _)]].
  destruct (L !! w) as [[y|]|] eqn:E; cbn; split; intros H.
  - injection H as ->. eauto.
  - destruct H as (w' & E1 & E2). congruence.
  - done.
  - destruct H as (w' & E1 & E2). congruence.
  - done.
  - destruct H as (w' & E1 & E2). congruence.
Qed.
Definition conn (q : gmap he nat) (O : gmap nat nat) : Prop := forall x, is_Some (O !! x) -> rtc (cross q) x 0.
Definition used (P : pmap) (l : gmap he nat) : Prop := forall w, is_Some (P !! w) -> w <> 0 -> exists h, l !! h = Some w.

Record good (s : st) : Prop := Good {
  g_inv : inv s;
  g_tl : tl ∅ (wires s);
  g_nest : nest (par_of s) (pol_of s) (outer_of s);
  g_use : used (par_of s) (wir s);
  g_conn : conn (sides (pol_of s) (wir s)) (outer_of s);
  g_euler : size (img (vtx s)) + 2 * size (outer_of s) = size (vec s) + size (par_of s) + 1 }.

Lemma cross_sym q x y : cross q x y -> cross q y x.
Proof. intros (h & A & B). exists (flip h). by rewrite flip_flip. Qed.
Lemma cross_rtc_sym q x y : rtc (cross q) x y -> rtc (cross q) y x.
Proof. induction 1 as [|x z y X1 X2 IH]; [apply rtc_refl|]. eapply rtc_r; [exact IH|]. by apply cross_sym. Qed.
Lemma conn_map (r : nat -> nat) q q' x : (forall h x y, q !! h = Some x -> q !! flip h = Some y -> rtc (cross q') (r x) (r y)) ->
  rtc (cross q) x 0 -> rtc (cross q') (r x) (r 0).
Proof. intros H. induction 1 as [|x z y (h & A & B) X2 IH]; [apply rtc_refl|]. eapply rtc_transitive; [by apply (H h)|done]. Qed.
Lemma conn_sub q q' O : (forall h x, q !! h = Some x -> q' !! h = Some x) -> conn q O -> conn q' O.
Proof. intros H C x I. apply (conn_map (fun x => x) q); [|by apply C]. intros h y z A B. apply rtc_once. exists h. split; by apply H. Qed.
(** Segment [g] with one polygon on both sides goes. *)
Lemma conn_less q q' O g x0 : q !! (g, true) = Some x0 -> q !! (g, false) = Some x0 -> (forall h x, fst h <> g -> q !! h = Some x -> q' !! h = Some x) ->
  conn q O -> conn q' O.
Proof.
  intros A B H C x I. apply (conn_map (fun x => x) q); [|by apply C]. intros h y z A' B'. destruct (side_cases h g) as [D|[-> | ->]].
  - apply rtc_once. exists h. split; apply H; [done|done|by rewrite fst_flip|done].
  - rewrite flip_pair in B'. cbn [negb] in B'. replace y with z by congruence. apply rtc_refl.
  - rewrite flip_pair in B'. cbn [negb] in B'. replace y with z by congruence. apply rtc_refl.
Qed.

Lemma cnt_same {A B} (m : gmap nat A) (m' : gmap nat B) : (forall k, is_Some (m' !! k) <-> is_Some (m !! k)) -> size m' = size m.
Proof. intros H. rewrite <- !(size_dom (D := gset nat)). f_equal. apply set_eq. intros k. by rewrite !elem_of_dom. Qed.
Lemma cnt_new {A B} (m : gmap nat A) (m' : gmap nat B) i : m !! i = None -> (forall k, is_Some (m' !! k) <-> k = i \/ is_Some (m !! k)) -> size m' = S (size m).
Proof.
  intros F H. rewrite <- !(size_dom (D := gset nat)). replace (dom m' : gset nat) with ({[i]} ∪ dom m : gset nat).
  - rewrite size_union, size_singleton; [done|]. intros k ->%elem_of_singleton K. apply elem_of_dom in K. rewrite F in K. by destruct K.
  - apply set_eq. intros k. rewrite elem_of_union, elem_of_singleton, !elem_of_dom. by rewrite H.
Qed.
Lemma cnt_del {A B} (m : gmap nat A) (m' : gmap nat B) i : is_Some (m !! i) -> (forall k, is_Some (m' !! k) <-> k <> i /\ is_Some (m !! k)) -> size m = S (size m').
Proof.
  intros F H. apply (cnt_new m' m i).
  - apply eq_None_not_Some. rewrite H. by intros [? _].
  - intros k. rewrite H. destruct (decide (k = i)) as [-> | D]; [tauto|]. split; [auto|]. by intros [?|[_ ?]].
Qed.
Lemma img_both v i a b : (forall b, v !! (i, b) = None) -> img (both v i a b) = {[a]} ∪ ({[b]} ∪ img v).
Proof.
  intros F. apply set_eq. intros x. rewrite !elem_of_union, !elem_of_singleton, !elem_of_img. split.
  - intros [h H]. destruct (side_cases h i) as [D|[-> | ->]].
    + rewrite both_ne in H by done. eauto.
    + rewrite both_t in H. injection H as ->. auto.
    + rewrite both_f in H. injection H as ->. auto.
  - intros [-> | [-> | [h H]]].
    + exists (i, false). apply both_f.
    + exists (i, true). apply both_t.
    + exists h. rewrite both_ne; [done|]. intros D. destruct h as [j c]. cbn in D. subst j. by rewrite F in H.
Qed.
Lemma both_dels {A} (v : gmap he A) g a b : v !! (g, false) = Some a -> v !! (g, true) = Some b -> v = both (dels v g) g a b.
Proof.
  intros Ha Hb. apply map_eq. intros h. destruct (side_cases h g) as [D|[-> | ->]]; [by rewrite both_ne, dels_ne|by rewrite both_t|by rewrite both_f].
Qed.
Lemma img_dels v g a b : v !! (g, false) = Some a -> v !! (g, true) = Some b -> img v = {[a]} ∪ ({[b]} ∪ img (dels v g)).
Proof. intros Ha Hb. rewrite (both_dels _ _ _ _ Ha Hb) at 1. apply img_both. intros c. apply dels_in. Qed.
Lemma size_in (X : gset nat) x : x ∈ X -> size ({[x]} ∪ X) = size X.
Proof. intros H. f_equal. set_solver. Qed.
Lemma size_out (X : gset nat) x : x ∉ X -> size ({[x]} ∪ X) = S (size X).
Proof. intros H. rewrite size_union, size_singleton; [done|]. set_solver. Qed.
Lemma img_in v x h : v !! h = Some x -> x ∈ img v.
Proof. intros H. apply elem_of_img. eauto. Qed.
Lemma img_notin v x : (forall h, v !! h <> Some x) -> x ∉ img v.
Proof. intros H X. apply elem_of_img in X as [h X]. by apply (H h). Qed.

(** A segment with fresh number has no sides yet. *)
Lemma fresh_sides s i : inv s -> vec s !! i = None -> (forall b, vtx s !! (i, b) = None) /\ (forall b, wir s !! (i, b) = None).
Proof.
  intros I F. assert (Fn := fresh_nxt _ _ I F). assert (T := i_topo _ I). split; intros b.
  - apply eq_None_not_Some. rewrite (topo_dom_v _ _ _ _ T), Fn. by intros [].
  - apply eq_None_not_Some. rewrite (topo_dom_l _ _ _ _ T), Fn. by intros [].
Qed.
Lemma old_side {A} (m : gmap he A) i h x : (forall b, m !! (i, b) = None) -> m !! h = Some x -> fst h <> i.
Proof. intros F E D. destruct h as [j b]. cbn in D. subst j. by rewrite F in E. Qed.
Lemma vec_new i (s s' : st) x y : vec s' = <[i := vminus y x]> (vec s) -> vec s !! i = None -> size (vec s') = S (size (vec s)).
Proof. intros E F. rewrite E. by apply map_size_insert_None. Qed.
Lemma good_live s h w : good s -> wir s !! h = Some w -> w <> 0 /\ is_Some (par_of s !! w).
Proof.
  intros G H. destruct (i_live _ (g_inv _ G) _ _ H) as [q Q]. split; [|eauto]. apply (n_ne _ _ _ (g_nest _ G) _ _ Q).
Qed.
Lemma good_side s h w : good s -> wir s !! h = Some w -> exists g o, pol_of s !! w = Some (Some g) /\ outer_of s !! g = Some o /\ (o = w \/ par_of s !! w = Some (Some o)).
Proof. intros G H. apply (n_wire _ _ _ (g_nest _ G)). by eapply good_live. Qed.

Section Keep.
Context (s : st) (G : good s).
Let I : inv s := g_inv _ G.
Let T := i_topo _ I.

Lemma good_new_wire g a b i s' : seg_of s !! a = Some None -> seg_of s !! b = Some None ->
  p2s s !! (a, b) = None -> p2s s !! (b, a) = None -> new_wire_op g a b s = (Ok i, s') -> good s'.
Proof.
  intros Ma Mb E1 E2 H. destruct (new_wire_op_eff _ _ _ _ _ _ I Ma Mb E1 E2 H) as (I' & w & q & Fw & Hg & _ & HP & HL & HO & HT & D & Fi & HV & _ & HN & HW & HS & _ & (x & y & _ & _ & Hv) & _).
  destruct (fresh_sides _ _ I Fi) as [Fv Fl].
  assert (Na : a ∉ img (vtx s)) by (apply img_notin; intros h; by apply (i_pts _ I)).
  assert (Nb : b ∉ img (vtx s)) by (apply img_notin; intros h; by apply (i_pts _ I)).
  assert (Lw := L_none _ _ _ (g_nest _ G) _ Fw).
  constructor.
  - done.
  - apply HT; [|apply G]. intros c Hc. apply (n_par _ _ _ (g_nest _ G)) in Hc. rewrite Fw in Hc. by destruct Hc.
  - rewrite HP, HL, HO. apply (nest_new _ _ _ (g_nest _ G)); done.
  - rewrite HP, HW. intros z Hz Dz. destruct (decide (z = w)) as [-> | D']; [exists (i, true); apply both_t|].
    rewrite lookup_insert_ne in Hz by done. destruct (g_use _ G z Hz Dz) as [h Hh]. exists h. rewrite both_ne; [done|]. by eapply old_side.
  - rewrite HO. eapply conn_sub; [|apply G]. intros h z Hz. apply sides_some in Hz as (u & A & B). apply sides_some. exists u. rewrite HW, HL.
    rewrite both_ne by (by eapply old_side). split; [done|]. rewrite lookup_insert_ne; [done|]. intros <-. congruence.
  - rewrite HV, HO, HP, (img_both _ _ _ _ Fv), size_out by set_solver. rewrite size_out by done. rewrite (vec_new _ _ _ _ _ Hv Fi), map_size_insert_None by done.
    assert (X := g_euler _ G). lia.
Qed.

Lemma good_dendrite (a b : nat) prev next w (root : bool) i s' : seg_of s !! (if root then a else b) = Some None ->
  fits s (if root then b else a) (prev, next, w) ->
  p2s s !! (a, b) = None -> p2s s !! (b, a) = None -> add_dendrite a b (prev, next, w) root s = (Ok i, s') -> good s'.
Proof.
  intros Mt Ft E1 E2 H. destruct (add_dendrite_eff _ _ _ _ _ _ _ _ _ I Mt Ft E1 E2 H) as (I' & Hw & HO & D & Fi & HV & _ & HN & HW & HS & _ & (x & y & _ & _ & Hv) & _).
  destruct (fresh_sides _ _ I Fi) as [Fv Fl].
  assert (HP : par_of s' = par_of s) by (unfold par_of; by rewrite Hw). assert (HL : pol_of s' = pol_of s) by (unfold pol_of; by rewrite Hw).
  assert (Nt : (if root then a else b) ∉ img (vtx s)) by (apply img_notin; intros h; by apply (i_pts _ I)).
  destruct Ft as (F1 & F2 & F3).
  assert (Ir : (if root then b else a) ∈ img (vtx s)) by (by eapply img_in).
  constructor.
  - done.
  - rewrite Hw. apply G.
  - rewrite HP, HL, HO. apply G.
  - rewrite HP, HW. intros z Hz Dz. destruct (g_use _ G z Hz Dz) as [h Hh]. exists h. rewrite both_ne; [done|]. by eapply old_side.
  - rewrite HO. eapply conn_sub; [|apply G]. intros h z Hz. apply sides_some in Hz as (u & A & B). apply sides_some. exists u. rewrite HW, HL.
    by rewrite both_ne by (by eapply old_side).
  - rewrite HV, HO, HP, (img_both _ _ _ _ Fv). rewrite (vec_new _ _ _ _ _ Hv Fi).
    assert (X := g_euler _ G). assert (Y : size ({[a]} ∪ ({[b]} ∪ img (vtx s))) = S (size (img (vtx s)))); [|lia].
    destruct root.
    + rewrite size_out by set_solver. by rewrite size_in.
    + rewrite size_in by set_solver. by rewrite size_out.
Qed.
Lemma kids rm xrm c : wires s !! rm = Some xrm -> (c ∈ childs xrm <-> par_of s !! c = Some (Some rm)).
Proof.
  intros E. destruct (g_tl _ G) as [T1 T2]. split.
  - intros C. apply T1. exists xrm. done.
  - intros C. destruct (T2 rm c) as (x & Ex & C'); [done|rewrite E; eauto| |done|].
    + intros ->. by apply (n_self _ _ _ (g_nest _ G) rm).
    + congruence.
Qed.

Lemma good_join a b pa na wa pb nb wb i s' : fits s a (pa, na, wa) -> fits s b (pb, nb, wb) ->
  p2s s !! (a, b) = None -> p2s s !! (b, a) = None -> join_wires a b (pa, na, wa) (pb, nb, wb) s = (Ok i, s') -> good s'.
Proof.
  intros Fa Fb E1 E2 H. destruct (join_wires_eff _ _ _ _ _ _ _ _ _ _ _ I Fa Fb E1 E2 H) as (I' & g & o & side & keep & rm & up' & xrm & Dw & La & Lb & Ho & Hs & Hk & Hr & Hup & HO & Xrm & HP & HPr & HL & HT & D & Fi & HV & _ & HN & HWi & HW & _ & _ & (x & y & _ & _ & Hv) & _).
  destruct (fresh_sides _ _ I Fi) as [Fv Fl]. destruct Fa as (_ & Va & Wa). destruct Fb as (_ & Vb & Wb).
  assert (K : pol_of s !! keep = Some (Some g) /\ pol_of s !! rm = Some (Some g) /\ keep <> rm /\ o <> rm /\ outer_of s' = outer_of s /\
    (o = keep /\ par_of s !! keep = Some up' /\ keep <> 0 \/ o <> keep /\ up' = Some keep)).
  { subst side. destruct (decide (o = wa)) as [-> | D1]; [|destruct (decide (o = wb)) as [-> | D2]]; cbn in *; subst keep rm.
    - split; [done|]. split; [done|]. split; [done|]. split; [done|]. split; [rewrite HO; by apply insert_id|]. left. split; [done|]. split; [done|]. by eapply good_live.
    - split; [done|]. split; [done|]. split; [done|]. split; [done|]. split; [rewrite HO; by apply insert_id|]. left. split; [done|]. split; [done|]. by eapply good_live.
    - split; [done|]. split; [done|]. split; [done|]. split; [done|]. split; [done|]. auto. }
  destruct K as (Lk & Lr & Dkr & Dor & HO' & Up). clear HO Hs Hk Hr Hup.
  constructor.
  - done.
  - apply HT, G.
  - rewrite HL, HO'. eapply (nest_join _ _ _ (g_nest _ G) _ g o keep rm up'); try done.
    intros c Dc. rewrite (HP c Dc). destruct (decide (c ∈ childs xrm)) as [C|C]; destruct (decide (par_of s !! c = Some (Some rm))) as [C'|C']; try done.
    + exfalso. apply C'. by apply (kids rm xrm).
    + exfalso. apply C. by apply (kids rm xrm).
  - intros z Hz Dz. destruct (decide (z = keep)) as [-> | D']; [exists (i, true); apply HWi|].
    assert (Dr : z <> rm) by (intros ->; rewrite HPr in Hz; by destruct Hz).
    assert (Hz' : is_Some (par_of s !! z)). { rewrite HP in Hz by done. destruct (decide (z ∈ childs xrm)) as [C|C]; [|done]. apply (kids rm) in C as ->; eauto. }
    destruct (g_use _ G z Hz' Dz) as [h Hh]. exists h. rewrite HW by (by eapply old_side). rewrite Hh. cbn. by rewrite decide_False.
  - rewrite HO'. eapply conn_sub; [|apply G]. intros h z Hz. apply sides_some in Hz as (u & A & B). apply sides_some.
    exists (if decide (u = rm) then keep else u). rewrite HW by (by eapply old_side). rewrite A. split; [done|]. rewrite HL.
    destruct (decide (u = rm)) as [-> | D']; rewrite lookup_delete_ne by done; congruence.
  - rewrite HV, HO', (img_both _ _ _ _ Fv), (vec_new _ _ _ _ _ Hv Fi).
    assert (X := g_euler _ G). rewrite size_in by (apply elem_of_union_r; by eapply img_in). rewrite size_in by (by eapply img_in).
    assert (Y : size (par_of s) = S (size (par_of s'))); [|lia].
    apply (cnt_del _ _ rm). { apply (n_dom _ _ _ (g_nest _ G)). eauto. }
    intros k. destruct (decide (k = rm)) as [-> | Dk]; [rewrite HPr; split; [by intros []|by intros [? _]]|]. rewrite HP by done.
    destruct (decide (k ∈ childs xrm)) as [C|C]; [|tauto]. apply (kids rm) in C as ->; [|done]. split; eauto.
Qed.

Lemma good_split K a b pa na wa pb nb wb i s' : sane K s' i -> fits s a (pa, na, wa) -> fits s b (pb, nb, wb) ->
  p2s s !! (a, b) = None -> p2s s !! (b, a) = None -> split_poly K a b (pa, na, wa) (pb, nb, wb) s = (Ok i, s') -> good s'.
Proof.
  intros [K1 K2] Fa Fb E1 E2 H.
  destruct (split_poly_eff _ _ _ _ _ _ _ _ _ _ _ _ I Fa Fb E1 E2 H) as (I' & left & n & g & o & q0 & on & sel & par1 & pol1 & <- & Fl & Fn & Lw & Pw & HPd & HO & _ & D & Fi & HV & _ & HN & Wt & Wf & WR & WN & _ & (x & y & _ & _ & Hv) & _ & HT).
  destruct (fresh_sides _ _ I Fi) as [Fv Fw]. assert (Fx := fresh_nxt _ _ I Fi). assert (N := g_nest _ G).
  destruct Fa as (Na & Va & Wa). destruct Fb as (Nb & Vb & Wb).
  destruct HT as (Ho & Cases & Sel & Nsel & Sin & Sout & HT).
  { split; [apply G|]. intros c q. apply (n_par _ _ _ N). }
  { intros w g' Hw. assert (J : is_Some (par_of s !! w)) by (apply (n_dom _ _ _ N); eauto). destruct (n_wire _ _ _ N _ J) as (g1 & o1 & A & B & _).
    assert (g1 = g') as -> by congruence. eauto. }
  assert (Dl : left <> wa) by (intros ->; congruence).
  (* the nesting, and where the new sides are *)
  assert (KN : nest (par_of s') (pol_of s') (outer_of s') /\
    (exists c : bool, pol_of s' !! (if c then left else wa) = Some (Some n) /\ pol_of s' !! (if c then wa else left) = Some (Some g)) /\
    (forall w z, pol_of s !! w = Some (Some z) -> w <> wa -> pol_of s' !! w = Some (Some z) \/ (z = g /\ pol_of s' !! w = Some (Some n)))).
  { destruct Cases as [(-> & -> & -> & -> & _)|(Do & -> & out & OO & HP1 & -> & _)].
    - assert (Sel' : forall c, c ∈ sel -> par_of s !! c = Some (Some wa) /\ par_of s' !! c = Some (Some left) /\ pol_of s' !! c = Some (Some n)).
      { intros c C. destruct (Sel c C) as (A & B & E). split; [|done]. rewrite lookup_insert_ne in A; [done|]. intros <-. rewrite lookup_insert in A.
        injection A as ->. by apply (n_self _ _ _ N wa). }
      assert (Nl : left ∉ sel) by (intros C; apply Sel' in C as [C _]; congruence).
      assert (Nw : wa ∉ sel) by (intros C; apply Sel' in C as [C _]; by apply (n_self _ _ _ N wa)).
      split; [|split].
      + rewrite HO. by apply (nest_split_outer _ _ _ N (par_of s') (pol_of s') g wa q0 left n sel).
      + exists true. split; [destruct (Nsel _ Nl) as [_ ->]; apply lookup_insert|]. destruct (Nsel _ Nw) as [_ ->]. by rewrite lookup_insert_ne.
      + intros w z Hw Dw. destruct (decide (w ∈ sel)) as [C|C].
        * right. destruct (Sel' w C) as (A & _ & ->). split; [|done]. assert (X := n_child _ _ _ N _ _ _ A Ho). congruence.
        * left. destruct (Nsel _ C) as [_ ->]. rewrite lookup_insert_ne; [done|]. intros <-. rewrite (L_none _ _ _ N _ Fl) in Hw. done.
    - assert (OO' : (on = left /\ out = wa) \/ (on = wa /\ out = left)) by (destruct OO as [(-> & -> & _)|(-> & -> & _)]; auto).
      assert (No : out ∉ sel).
      { intros C. destruct (Sin _ C) as (s2 & S2 & X2). destruct OO as [(-> & -> & s1 & S1 & X1)|(-> & -> & s1 & S1 & X1)].
        - rewrite (K1 _ _ _ S1) in X1. rewrite (K1 _ _ _ S2) in X2. rewrite (K2 false wa left) in X2; [done|done|done|intros <-; congruence|done].
        - rewrite (K1 _ _ _ S1) in X1. rewrite (K1 _ _ _ S2) in X2. congruence. }
      assert (Non : on ∉ sel). { intros C. destruct (Sel _ C) as (A & _). rewrite HP1, decide_True in A by done. destruct OO' as [[-> ->]|[-> ->]].
        - congruence. - apply (out_live _ _ _ N) in Ho. injection A as ->. rewrite Fl in Ho. by destruct Ho. }
      assert (Doo : on <> out) by (destruct OO' as [[-> ->]|[-> ->]]; done).
      assert (Lon : pol_of s' !! on = Some (Some n)) by (destruct (Nsel _ Non) as [_ ->]; apply lookup_insert).
      assert (Lou : pol_of s' !! out = Some (Some g)) by (destruct (Nsel _ No) as [_ ->]; by rewrite lookup_insert_ne, lookup_insert).
      split; [|split].
      + rewrite HO. by apply (nest_split_hole _ _ _ N (par_of s') (pol_of s') par1 g o wa left on out n sel).
      + destruct OO' as [[-> ->]|[-> ->]]; [exists true|exists false]; done.
      + intros w z Hw Dw. assert (Dwl : w <> left) by (intros ->; rewrite (L_none _ _ _ N _ Fl) in Hw; done).
        assert (D1 : w <> on /\ w <> out) by (destruct OO' as [[-> ->]|[-> ->]]; done). destruct D1 as [D1 D2].
        destruct (decide (w ∈ sel)) as [C|C].
        * right. destruct (Sel w C) as (A & _ & ->). split; [|done]. rewrite HP1, !decide_False in A by done. destruct (decide _) as [E|E]; [exfalso|].
          -- destruct OO' as [[-> ->]|[-> ->]]; [congruence|]. injection A as <-. apply (out_live _ _ _ N) in Ho. rewrite Fl in Ho. by destruct Ho.
          -- assert (X := n_child _ _ _ N _ _ _ A Ho). congruence.
        * left. destruct (Nsel _ C) as [_ ->]. by rewrite !lookup_insert_ne. }
  destruct KN as (HN' & (c & Lc & Lc') & HLo).
  (* sides of other wires stay *)
  assert (Cl : forall h w, wir s !! h = Some w -> w <> wa -> ~ reach (nxt s') (i, true) h).
  { intros h w Hw Dw R. assert (T' := i_topo _ I').
    assert (It : is_Some (nxt s' !! (i, true))) by (apply (topo_dom_l _ _ _ _ T'); eauto).
    apply reach_sym in R; [|apply T'|done].
    assert (X : forall y0 k, reach (nxt s') y0 k -> wir s !! y0 = Some w -> wir s !! k = Some w).
    { clear R. intros y0 k Ry. induction Ry as [|y0 m k S Ry IH]; [done|]. intros Wy. apply IH.
      unfold step in S. rewrite HN, f2_ne in S; [|exact (old_side _ _ _ _ Fw Wy)|congruence|congruence]. by rewrite (topo_lab _ _ _ _ _ T S). }
    specialize (X _ _ R Hw). by rewrite Fw in X. }
  assert (HS : forall h z, sides (pol_of s) (wir s) !! h = Some z ->
    sides (pol_of s') (wir s') !! h = Some z \/ (z = g /\ sides (pol_of s') (wir s') !! h = Some n)).
  { intros h z Hz. apply sides_some in Hz as (w & A & B). assert (Dh : fst h <> i) by (exact (old_side _ _ _ _ Fw A)).
    destruct (decide (w = wa)) as [-> | Dw].
    - assert (z = g) as -> by congruence.
      assert (X : wir s' !! h = Some left \/ wir s' !! h = Some wa).
      { assert (Ih : is_Some (wir s' !! h)).
        { apply (topo_dom_l _ _ _ _ (i_topo _ I')), (topo_dom_v _ _ _ _ (i_topo _ I')). rewrite HV, both_ne by done.
          apply (topo_dom_v _ _ _ _ T), (topo_dom_l _ _ _ _ T). eauto. }
        destruct Ih as [u Ih]. destruct (decide (u = left)) as [-> | Du]; [by left|]. right. rewrite <- A. apply WN; [|done]. intros R. apply WR in R. congruence. }
      destruct X as [X|X]; destruct c; [right; split; [done|]|left|left|right; split; [done|]]; apply sides_some; eauto.
    - assert (X : wir s' !! h = Some w) by (rewrite <- A; apply WN; [by eapply Cl|done]).
      destruct (HLo _ _ B Dw) as [Y|[-> Y]]; [left|right; split; [done|]]; apply sides_some; eauto. }
  assert (Cr : cross (sides (pol_of s') (wir s')) n g).
  { destruct c; [exists (i, true)|exists (i, false)]; rewrite flip_pair; cbn [negb]; split; apply sides_some; eauto. }
  constructor.
  - done.
  - done.
  - done.
  - intros z Hz Dz. destruct (decide (z = left)) as [-> | D1]; [eauto|]. destruct (decide (z = wa)) as [-> | D2]; [eauto|].
    apply HPd in Hz as [?|Hz]; [done|]. destruct (g_use _ G z Hz Dz) as [h Hh]. exists h. rewrite <- Hh. apply WN; [by eapply Cl|exact (old_side _ _ _ _ Fw Hh)].
  - assert (X : forall z, is_Some (outer_of s !! z) -> rtc (cross (sides (pol_of s') (wir s'))) z 0).
    { intros z Hz. apply (conn_map (fun z => z) (sides (pol_of s) (wir s))); [|by apply (g_conn _ G)].
      assert (St : forall h z, sides (pol_of s) (wir s) !! h = Some z -> exists z', sides (pol_of s') (wir s') !! h = Some z' /\ rtc (cross (sides (pol_of s') (wir s'))) z z').
      { intros h u Hu. destruct (HS _ _ Hu) as [Y|[-> Y]]; eexists; (split; [exact Y|]); [apply rtc_refl|]. apply rtc_once. by apply cross_sym. }
      intros h u v Hu Hv'. destruct (St _ _ Hu) as (u' & A & A'). destruct (St _ _ Hv') as (v' & B & B').
      eapply rtc_transitive; [exact A'|]. eapply rtc_l; [exists h; split; [exact A|exact B]|]. by apply cross_rtc_sym. }
    intros z Hz. rewrite HO in Hz. destruct (decide (z = n)) as [-> | Dz].
    + eapply rtc_l; [exact Cr|]. apply X. eauto.
    + apply X. by rewrite lookup_insert_ne in Hz.
  - rewrite HV, HO, (img_both _ _ _ _ Fv), (vec_new _ _ _ _ _ Hv Fi), map_size_insert_None by done.
    assert (X := g_euler _ G). rewrite size_in by (apply elem_of_union_r; by eapply img_in). rewrite size_in by (by eapply img_in).
    rewrite (cnt_new _ _ left Fl HPd). lia.
Qed.

Lemma vec_del g (s' : st) : is_Some (vec s !! g) -> vec s' = delete g (vec s) -> size (vec s) = S (size (vec s')).
Proof. intros J ->. apply (cnt_del _ _ g); [done|]. intros k. symmetry. apply live_delete. Qed.
Lemma vec_live g a : vtx s !! (g, false) = Some a -> is_Some (vec s !! g).
Proof. intros E. apply (i_vec _ I). eauto. Qed.

Lemma good_rm_wire g u s' : (forall c w, wir s !! (g, true) = Some w -> par_of s !! c <> Some (Some w)) -> rm_wire_op g s = (Ok u, s') -> good s'.
Proof.
  intros Nc H. destruct (rm_wire_op_eff _ _ _ _ I H) as (I' & w & gp & q & a & b & N2 & Wt & Wf & Uw & Iw & Lw & Ho & Ch & HP & HL & HO & HT & Va & Vb & D & HV & _ & HN & HW & Hv & _ & Ma & Mb & _ & _).
  assert (N := g_nest _ G). assert (Pw : par_of s !! w = Some (Some q)) by (by apply (g_tl _ G)).
  assert (Dq : q <> w) by (intros ->; by apply (n_self _ _ _ N w)).
  assert (Na : forall h, vtx s !! h = Some a -> h = (g, false)) by (by apply (alone_end _ _ _ _ I (N2 false))).
  assert (Nb : forall h, vtx s !! h = Some b -> h = (g, true)) by (by apply (alone_end _ _ _ _ I (N2 true))).
  constructor.
  - done.
  - apply HT, G.
  - rewrite HP, HL, HO. apply (nest_drop _ _ _ N w gp q Lw Ho Dq). intros c. by apply Nc.
  - rewrite HP, HW. intros z Hz Dz. apply live_delete in Hz as [D1 Hz]. destruct (g_use _ G z Hz Dz) as [h Hh]. exists h. rewrite dels_ne; [done|].
    intros E. destruct (side_cases h g) as [?|[-> | ->]]; congruence.
  - rewrite HO. eapply (conn_less _ _ _ g gp); [| | |apply G].
    + apply sides_some. eauto.
    + apply sides_some. eauto.
    + intros h z Dh Hz. apply sides_some in Hz as (v & A & B). apply sides_some. exists v. rewrite HW, HL, dels_ne by done. split; [done|].
      rewrite lookup_delete_ne; [done|]. intros <-. by apply Dh, Uw.
  - assert (X := g_euler _ G). rewrite (img_dels _ _ _ _ Va Vb) in X. rewrite HV, HO, HP.
    assert (Xa : a ∉ img (dels (vtx s) g)).
    { apply img_notin. intros h E. destruct (side_cases h g) as [Dh|[-> | ->]]; [|by rewrite dels_in in E..]. rewrite dels_ne in E by done. apply Na in E. by subst h. }
    assert (Xb : b ∉ img (dels (vtx s) g)).
    { apply img_notin. intros h E. destruct (side_cases h g) as [Dh|[-> | ->]]; [|by rewrite dels_in in E..]. rewrite dels_ne in E by done. apply Nb in E. by subst h. }
    rewrite size_out in X by set_solver. rewrite size_out in X by done. rewrite (vec_del g s') in X by (done || by eapply vec_live).
    rewrite (cnt_del (par_of s) (delete w (par_of s)) w) in X; [lia|done|]. intros k. symmetry. apply live_delete.
Qed.

Lemma good_rm_dendrite g tip u s' : nxt s !! (g, tip) = Some (g, negb tip) -> nxt s !! (g, negb tip) <> Some (g, tip) ->
  rm_dendrite g tip s = (Ok u, s') -> good s'.
Proof.
  intros Nt Nr H. destruct (rm_dendrite_eff _ _ _ _ _ I Nt Nr H) as (I' & w & gp & m & k & pt & pr & sg1 & Nm & Dm & Wt & Wf & Lw & HP & HL & _ & HO & HT & Vt & Vr & D & HV & _ & HN & HW & Hv & _ & Mt & _ & Vk & Dk & _ & _).
  assert (Ut : forall h, vtx s !! h = Some pt -> h = (g, tip)) by (by apply (alone_end _ _ _ _ I Nt)).
  assert (Wg : forall c, wir s !! (g, c) = Some w) by (intros []; done).
  assert (Dm' : fst m <> g).
  { intros E. destruct m as [g' c]. cbn in E. subst g'. destruct (decide (c = tip)) as [-> | Dc].
    - rewrite Nt in Nm. injection Nm as E. by destruct tip.
    - apply Dm. f_equal. by destruct c, tip. }
  assert (Wm : wir s !! m = Some w). { assert (X := topo_lab _ _ _ _ _ T Nm). by rewrite Wg in X. }
  constructor.
  - done.
  - apply HT, G.
  - rewrite HP, HL, HO. apply G.
  - rewrite HP, HW. intros z Hz Dz. destruct (decide (z = w)) as [-> | D1]; [exists m; by rewrite dels_ne|].
    destruct (g_use _ G z Hz Dz) as [h Hh]. exists h. rewrite dels_ne; [done|].
    intros E. destruct h as [g' c]. cbn in E. subst g'. rewrite Wg in Hh. congruence.
  - rewrite HO. eapply (conn_less _ _ _ g gp); [| | |apply G].
    + apply sides_some. eauto.
    + apply sides_some. eauto.
    + intros h z Dh Hz. apply sides_some in Hz as (v & A & B). apply sides_some. exists v. by rewrite HW, HL, dels_ne.
  - assert (X := g_euler _ G). rewrite HV, HO, HP.
    assert (Xt : pt ∉ img (dels (vtx s) g)).
    { apply img_notin. intros h E. destruct (side_cases h g) as [Dh|[-> | ->]]; [|by rewrite dels_in in E..]. rewrite dels_ne in E by done. apply Ut in E. by subst h. }
    assert (Xr : pr ∈ img (dels (vtx s) g)) by (apply (img_in _ _ k); by rewrite dels_ne).
    assert (Iv : is_Some (vec s !! g)) by (destruct tip; by eapply vec_live).
    rewrite (vec_del g s') in X by done.
    assert (Y : size (img (vtx s)) = S (size (img (dels (vtx s) g)))); [|lia].
    destruct tip; cbn [negb] in *.
    + rewrite (img_dels _ _ _ _ Vr Vt). rewrite size_in by set_solver. by rewrite size_out.
    + rewrite (img_dels _ _ _ _ Vt Vr). rewrite size_out by set_solver. by rewrite size_in.
Qed.

(** The segments before the sides of [g]. *)
Lemma ends_in g a b m0 m1 : nxt s !! (g, true) <> Some (g, false) -> nxt s !! (g, false) <> Some (g, true) ->
  vtx s !! (g, false) = Some a -> vtx s !! (g, true) = Some b ->
  nxt s !! m0 = Some (g, true) -> swap (nxt s) (g, false) m0 !! m1 = Some (g, false) -> m0 <> (g, false) ->
  fst m0 <> g /\ fst m1 <> g /\ nxt s !! m1 = Some (g, false).
Proof.
  intros N1 N2 Va Vb E0 E1 D0.
  assert (F0 : fst m0 <> g).
  { intros E. destruct (side_cases m0 g) as [?|[-> | ->]]; [done| |done]. assert (X := topo_org _ _ _ _ _ T E0). rewrite flip_pair in X; cbn [negb] in X.
    apply (t_loop _ _ _ T _ _ Vb). rewrite flip_pair; cbn [negb]. congruence. }
  assert (If : is_Some (nxt s !! (g, false))) by (apply (topo_dom_v _ _ _ _ T); eauto). destruct If as [x Ex].
  assert (Em : m1 <> (g, false)). { intros ->. rewrite (swap_l _ _ _ _ _ Ex E0) in E1. done. }
  assert (En : m1 <> m0). { intros ->. rewrite (swap_r _ _ _ _ _ Ex E0) in E1. injection E1 as ->. assert (X := topo_org _ _ _ _ _ T Ex).
    rewrite flip_pair in X; cbn [negb] in X. apply (t_loop _ _ _ T _ _ Va). rewrite flip_pair; cbn [negb]. congruence. }
  rewrite swap_ne in E1 by done. split; [done|]. split; [|done].
  intros E. destruct (side_cases m1 g) as [?|[-> | ->]]; done.
Qed.

Lemma good_cut K g u s' : nxt s !! (g, true) <> Some (g, false) -> nxt s !! (g, false) <> Some (g, true) ->
  (forall w x, wir s !! (g, true) = Some w -> pol_of s !! w = Some (Some x) -> outer_of s !! x = Some w -> whole s') ->
  split_wire K g s = (Ok u, s') -> good s'.
Proof.
  intros Nt Nf Hc H. destruct (split_wire_eff _ _ _ _ _ I Nt Nf H) as (I' & wa & wb & gp & m0 & m1 & ka & kb & a & b & Wt & Wf & Fb & Lw & HPd & HOd & Va & Vb & D & HV & _ & N0 & D0 & N1 & HN & WR & WN & Hv & _ & Vka & Dka & Vkb & Dkb & _ & _ & HL & HT).
  assert (N := g_nest _ G). destruct HT as (HT & q0 & o & Pw & Ho & Cases); [apply G|apply (n_par _ _ _ N)|].
  destruct (ends_in _ _ _ _ _ Nt Nf Va Vb N0 N1 D0) as (F0 & F1 & E1).
  assert (W0 : wir s !! m0 = Some wa) by (rewrite <- Wt; symmetry; by apply (topo_lab _ _ _ _ _ T)).
  assert (If : is_Some (nxt s !! (g, false))) by (apply (topo_dom_v _ _ _ _ T); eauto).
  assert (Lb := L_none _ _ _ N _ Fb). assert (Dab : wa <> wb) by (intros ->; congruence).
  assert (R0 : reach (nxt s) (g, false) m0) by (by eapply (labels_reach _ _ _ _ wa (t_wir _ _ _ T))).
  assert (NR : ~ reach (swap (nxt s) (g, false) m0) (g, false) m0) by (apply swap_cut; [apply T|done|eauto|done|done]).
  assert (R1 : reach (swap (nxt s) (g, false) m0) (g, false) m1).
  { apply reach_sym'; [apply swap_perm, T|rewrite swap_dom; eauto|]. by apply reach_step. }
  assert (Rw : forall h, reach (swap (nxt s) (g, false) m0) (g, false) h -> wir s !! h = Some wa).
  { intros h R. eapply (labels_same _ _ (g, false)); [apply T|apply T|done|]. apply (reach_cut _ (g, false) m0); [apply T|done|eauto|done|done|done|]. by left. }
  assert (HS : forall h z, fst h <> g -> sides (pol_of s) (wir s) !! h = Some z -> sides (pol_of s') (wir s') !! h = Some z).
  { intros h z Dh Hz. apply sides_some in Hz as (w & A & B). apply sides_some. rewrite HL.
    assert (Ih : is_Some (wir s' !! h)).
    { apply (topo_dom_l _ _ _ _ (i_topo _ I')), (topo_dom_v _ _ _ _ (i_topo _ I')). rewrite HV, dels_ne by done.
      apply (topo_dom_v _ _ _ _ T), (topo_dom_l _ _ _ _ T). eauto. }
    destruct (decide (wir s' !! h = Some wb)) as [E|E].
    - exists wb. rewrite lookup_insert. split; [done|]. destruct (decide (w = wa)) as [-> | Dw]; [congruence|]. exfalso.
      rewrite WN in E; [|intros R; apply Rw in R; congruence]. destruct (good_live _ _ _ G E) as [_ X]. rewrite Fb in X. by destruct X.
    - exists w. rewrite WN by (intros R; by apply E, WR). rewrite lookup_insert_ne by (intros <-; congruence). done. }
  assert (NN : nest (par_of s') (pol_of s') (outer_of s')).
  { destruct Cases as [(-> & ow & iv & OI & HO & HP)|(Do & HO & HP)].
    - assert (HW := Hc _ _ Wt Lw Ho). unfold whole in HW. rewrite HL, HO in *.
      apply (nest_cut_outer _ _ _ N (par_of s') gp wa wb q0 ow iv); try done.
      intros P1 c. destruct (HP c) as [[A [B|[h B]]]|B]; [left; auto| |right; exact B]. left. split; [done|]. right. destruct (good_live _ _ _ G B). done.
    - rewrite HL, HO. apply (nest_cut_hole _ _ _ N (par_of s') gp o wa wb); try done. destruct (hole _ _ _ N _ _ _ Lw Ho Do) as [X _].
      assert (q0 = o) as -> by congruence. done. }
  constructor.
  - done.
  - done.
  - done.
  - intros z Hz Dz. destruct (decide (z = wb)) as [-> | D1]; [exists m1; by apply WR|]. apply HPd in Hz as [?|Hz]; [done|].
    destruct (decide (z = wa)) as [-> | D2]; [exists m0; by rewrite WN|].
    destruct (g_use _ G z Hz Dz) as [h Hh]. exists h. rewrite WN; [done|]. intros R. apply Rw in R. congruence.
  - assert (X : conn (sides (pol_of s') (wir s')) (outer_of s)).
    { apply (conn_less (sides (pol_of s) (wir s)) _ _ g gp); [apply sides_some; eauto|apply sides_some; eauto|done|apply G]. }
    intros z Hz. apply X. by apply HOd.
  - assert (X := g_euler _ G). rewrite (img_dels _ _ _ _ Va Vb) in X. rewrite HV.
    assert (Xa : a ∈ img (dels (vtx s) g)) by (apply (img_in _ _ ka); by rewrite dels_ne).
    assert (Xb : b ∈ img (dels (vtx s) g)) by (apply (img_in _ _ kb); by rewrite dels_ne).
    rewrite size_in in X by set_solver. rewrite size_in in X by done. rewrite (vec_del g s') in X by (done || by eapply vec_live).
    rewrite (cnt_new _ _ wb Fb HPd), (cnt_same _ _ HOd). lia.
Qed.

(** The wires on two sides of a segment belong to different polygons. *)
Lemma size_sides : size (segs (nxt s)) = size (vec s).
Proof.
  rewrite <- (size_dom (D := gset nat)). f_equal. apply set_eq. intros k. rewrite elem_of_segs, elem_of_dom, (i_vec _ I), (topo_dom_v _ _ _ _ T). split.
  - intros [[] H]; [|done]. by apply (t_flip _ _ _ T) in H.
  - intros H. eauto.
Qed.
Lemma size_wires : size (par_of s) = S (size (img (wir s))).
Proof.
  rewrite <- (size_dom (D := gset nat)). replace (dom (par_of s) : gset nat) with ({[0]} ∪ img (wir s)).
  - apply size_out. intros X. apply elem_of_img in X as [h X]. by apply good_live in X as [? _].
  - apply set_eq. intros k. rewrite elem_of_union, elem_of_singleton, elem_of_dom, elem_of_img. split.
    + intros [-> |[h H]]; [rewrite (n_root _ _ _ (g_nest _ G)); eauto|]. by eapply good_live.
    + intros H. destruct (decide (k = 0)) as [-> | D]; [by left|]. right. by apply (g_use _ G).
Qed.
Lemma good_faces : faces (nxt s) (wir s) (sides (pol_of s) (wir s)) (dom (outer_of s)).
Proof.
  constructor.
  - intros h. rewrite <- (topo_dom_l _ _ _ _ T). split.
    + intros [w W]. destruct (good_side _ _ _ G W) as (g & o & A & _). exists g. apply sides_some. eauto.
    + intros [x X]. apply sides_some in X as (w & A & _). eauto.
  - intros h k w A B. unfold sides. rewrite !lookup_omap. by rewrite A, B.
  - intros h x X. apply sides_some in X as (w & A & B). destruct (good_side _ _ _ G A) as (g & o & C & D & _). apply elem_of_dom. exists o. congruence.
  - intros x y X Y. apply elem_of_dom in X, Y. eapply rtc_transitive; [by apply (g_conn _ G)|]. apply cross_rtc_sym. by apply (g_conn _ G).
Qed.
Lemma good_sides g l r gl gr : wir s !! (g, true) = Some l -> wir s !! (g, false) = Some r -> l <> r ->
  pol_of s !! l = Some (Some gl) -> pol_of s !! r = Some (Some gr) -> gl <> gr.
Proof.
  intros Wl Wr D Ll Lr E. assert (X : size (img (vtx s)) + 2 * size (dom (outer_of s) : gset nat) = size (segs (nxt s)) + size (img (wir s)) + 2).
  { rewrite size_dom, size_sides. assert (Y := g_euler _ G). rewrite size_wires in Y. lia. }
  apply (planar_sides _ _ _ _ _ g T good_faces X).
  - apply (topo_dom_l _ _ _ _ T). eauto.
  - congruence.
  - assert (A : sides (pol_of s) (wir s) !! (g, true) = Some gl) by (apply sides_some; eauto).
    assert (B : sides (pol_of s) (wir s) !! (g, false) = Some gr) by (apply sides_some; eauto). congruence.
Qed.
Lemma good_nested g : nested_ok s g.
Proof.
  intros b l r gl gr Wl Wr D Pl Ll Lr.
  assert (E : gl <> gr).
  { destruct b; cbn [negb] in *; [by eapply (good_sides g l r)|]. apply not_eq_sym. by eapply (good_sides g r l). }
  split; [|done]. destruct (good_side _ _ _ G Wl) as (g1 & o & A & B & C). assert (g1 = gl) as -> by congruence. destruct C as [-> |C]; [done|].
  exfalso. assert (o = r) as -> by congruence. apply (n_out _ _ _ (g_nest _ G)) in B. congruence.
Qed.

Lemma good_merge g u s' : nxt s !! (g, true) <> Some (g, false) -> nxt s !! (g, false) <> Some (g, true) ->
  wir s !! (g, true) <> wir s !! (g, false) -> join_poly g s = (Ok u, s') -> good s'.
Proof.
  intros Nt Nf Dw H. destruct (join_poly_eff _ _ _ _ I (good_nested g) Nt Nf Dw H) as (I' & keep & rm & kp & n & m0 & m1 & ka & kb & a & b & xrm & Sd & Dkr & Lk & Lr & Dkn & On & HO & Xrm & HPr & HLr & Ch & Nch & Va & Vb & D & HV & _ & N0 & D0 & N1 & HN & HW & Hv & _ & Vka & Dka & Vkb & Dkb & _ & Ca & HT).
  assert (N := g_nest _ G). destruct (ends_in _ _ _ _ _ Nt Nf Va Vb N0 N1 D0) as (F0 & F1 & E1).
  assert (Wk : exists h, wir s !! h = Some keep) by (destruct Sd as [[? ?]|[? ?]]; eauto).
  assert (Wr : exists h, wir s !! h = Some rm) by (destruct Sd as [[? ?]|[? ?]]; eauto).
  destruct Wk as [hk Wk], Wr as [hr Wr]. destruct (good_side _ _ _ G Wk) as (kp' & o & A & Ok & _). assert (kp' = kp) as -> by congruence. clear A.
  destruct (good_live _ _ _ G Wr) as [D0r Ir].
  assert (Nn0 : n <> 0) by (intros ->; rewrite (n_out0 _ _ _ N) in On; congruence).
  assert (Ch' : forall c, c <> rm -> par_of s !! c = Some (Some rm) -> par_of s' !! c = Some (Some o) /\ pol_of s' !! c = Some (Some kp)).
  { intros c Dc Pc. destruct (Ch c Dc) as (o' & A & _ & B & E & _); [by apply (kids rm)|]. assert (o' = o) as -> by congruence. done. }
  assert (Nch' : forall c, c <> rm -> par_of s !! c <> Some (Some rm) -> par_of s' !! c = par_of s !! c /\ pol_of s' !! c = pol_of s !! c).
  { intros c Dc Pc. apply Nch; [done|]. intros C. apply Pc. by apply (kids rm xrm). }
  set (r := fun z => if decide (z = n) then kp else z).
  assert (HS : forall h z, fst h <> g -> sides (pol_of s) (wir s) !! h = Some z -> sides (pol_of s') (wir s') !! h = Some (r z)).
  { intros h z Dh Hz. apply sides_some in Hz as (w & A & B). apply sides_some. exists (if decide (w = rm) then keep else w). rewrite HW, A by done. split; [done|].
    unfold r. destruct (decide (w = rm)) as [-> | Dr].
    - rewrite decide_True by congruence. destruct (decide (par_of s !! keep = Some (Some rm))) as [C|C]; [by apply Ch'|]. destruct (Nch' _ Dkr C) as [_ ->]. done.
    - destruct (decide (par_of s !! w = Some (Some rm))) as [C|C].
      + assert (X := n_child _ _ _ N _ _ _ C On). rewrite decide_True by congruence. by apply Ch'.
      + destruct (Nch' _ Dr C) as [_ ->]. rewrite decide_False; [done|]. intros ->. destruct (good_side _ _ _ G A) as (g1 & o1 & A1 & A2 & A3).
        assert (g1 = n) as -> by congruence. assert (o1 = rm) as -> by congruence. destruct A3; congruence. }
  constructor.
  - done.
  - apply HT, G.
  - rewrite HO. apply (nest_merge _ _ _ N (par_of s') (pol_of s') keep rm kp n o); try done. destruct Ca as [(_ & A & B & _)|(_ & _ & A)]; [left|by right]. split; [done|congruence].
  - intros z Hz Dz. destruct (decide (z = rm)) as [-> | Dr]; [rewrite HPr in Hz; by destruct Hz|].
    assert (Hz' : is_Some (par_of s !! z)). { destruct (decide (par_of s !! z = Some (Some rm))) as [C|C]; [eauto|]. destruct (Nch' _ Dr C) as [<- _]. done. }
    assert (X0 : wir s !! m0 = wir s !! (g, true)) by (symmetry; by apply (topo_lab _ _ _ _ _ T)).
    assert (X1 : wir s !! m1 = wir s !! (g, false)) by (symmetry; by apply (topo_lab _ _ _ _ _ T)).
    destruct (decide (z = keep)) as [-> | Dk].
    + destruct Sd as [[A B]|[A B]]; [exists m0; rewrite HW, X0, A by done|exists m1; rewrite HW, X1, B by done]; cbn; by rewrite decide_False.
    + destruct (g_use _ G z Hz' Dz) as [h Hh]. exists h. rewrite HW, Hh; [cbn; by rewrite decide_False|].
      intros E. destruct (side_cases h g) as [?|[-> | ->]]; [done| |]; destruct Sd as [[A B]|[A B]]; congruence.
  - intros z Hz. rewrite HO in Hz. apply live_delete in Hz as [Dz Hz].
    assert (Rz : r z = z) by (unfold r; by rewrite decide_False). assert (R0 : r 0 = 0) by (unfold r; by rewrite decide_False).
    rewrite <- Rz, <- R0. apply (conn_map r (sides (pol_of s) (wir s))); [|by apply (g_conn _ G)].
    intros h y1 y2 A B. destruct (decide (fst h = g)) as [Dh|Dh].
    + assert (E : r y1 = r y2).
      { apply sides_some in A as (w1 & A1 & A2). apply sides_some in B as (w2 & B1 & B2).
        assert (Y : (w1 = keep /\ w2 = rm) \/ (w1 = rm /\ w2 = keep)).
        { destruct (side_cases h g) as [?|[-> | ->]]; [done| |]; rewrite flip_pair in B1; cbn [negb] in B1; destruct Sd as [[S1 S2]|[S1 S2]]; [left|right|right|left]; split; congruence. }
        unfold r. destruct Y as [[-> ->]|[-> ->]].
        - rewrite (decide_False (P := y1 = n)) by congruence. rewrite decide_True by congruence. congruence.
        - rewrite decide_True by congruence. rewrite decide_False by congruence. congruence. }
      rewrite E. apply rtc_refl.
    + apply rtc_once. exists h. split; apply HS; [done|done|by rewrite fst_flip|done].
  - assert (X := g_euler _ G). rewrite (img_dels _ _ _ _ Va Vb) in X. rewrite HV.
    assert (Xa : a ∈ img (dels (vtx s) g)) by (apply (img_in _ _ ka); by rewrite dels_ne).
    assert (Xb : b ∈ img (dels (vtx s) g)) by (apply (img_in _ _ kb); by rewrite dels_ne).
    rewrite size_in in X by set_solver. rewrite size_in in X by done. rewrite (vec_del g s') in X by (done || by eapply vec_live).
    assert (Y : size (par_of s) = S (size (par_of s'))).
    { apply (cnt_del _ _ rm Ir). intros k. destruct (decide (k = rm)) as [-> | Dk]; [rewrite HPr; split; [by intros []|by intros [? _]]|].
      destruct (decide (par_of s !! k = Some (Some rm))) as [C|C].
      - destruct (Ch' _ Dk C) as [-> _]. rewrite C. split; eauto.
      - destruct (Nch' _ Dk C) as [-> _]. tauto. }
    assert (Z : size (outer_of s) = S (size (outer_of s'))).
    { apply (cnt_del _ _ n); [eauto|]. intros k. rewrite HO. symmetry. apply live_delete. }
    lia.
Qed.

Lemma good_mid e mid i s' : seg_of s !! mid = Some None -> split_segment e mid s = (Ok i, s') -> good s'.
Proof.
  intros Mm H. destruct (split_segment_eff _ _ _ _ _ I Mm H) as (I' & nx & pv & a & b & wt & wf & xa & xb & xm & kb & Nt & Np & Va & Vb & Wt & Wf & Fi & Db & Da & _ & _ & _ & HV & HN & HW & Hw & HO & _ & Hv & _ & _ & _).
  destruct (fresh_sides _ _ I Fi) as [Fv Fl].
  assert (HP : par_of s' = par_of s) by (unfold par_of; by rewrite Hw). assert (HL : pol_of s' = pol_of s) by (unfold pol_of; by rewrite Hw).
  assert (Nm : mid ∉ img (vtx s)) by (apply img_notin; intros h; by apply (i_pts _ I)).
  constructor.
  - done.
  - rewrite Hw. apply G.
  - rewrite HP, HL, HO. apply G.
  - rewrite HP, HW. intros z Hz Dz. destruct (g_use _ G z Hz Dz) as [h Hh]. exists h. rewrite both_ne; [done|]. exact (old_side _ _ _ _ Fl Hh).
  - rewrite HO. eapply conn_sub; [|apply G]. intros h z Hz. apply sides_some in Hz as (u & A & B). apply sides_some. exists u. rewrite HW, HL.
    by rewrite both_ne by (exact (old_side _ _ _ _ Fl A)).
  - rewrite HO, HP. assert (X := g_euler _ G).
    assert (Y : size (vec s') = S (size (vec s))).
    { apply (cnt_new _ _ i Fi). intros k. rewrite Hv, <- !live_insert. assert (J := vec_live _ _ Va). split; [intros [-> |?]; auto|tauto]. }
    assert (Z : img (vtx s') = {[mid]} ∪ img (vtx s)); [|rewrite Z, size_out by done; lia].
    rewrite HV. apply set_eq. intros x. rewrite elem_of_union, elem_of_singleton, !elem_of_img. assert (Dei : e <> i) by (intros ->; by rewrite Fv in Va). split.
    + intros [h Hh]. unfold vm in Hh. apply lookup_insert_Some in Hh as [[<- <-]|[Dh Hh]]; [by left|]. destruct (side_cases h i) as [D|[-> | ->]].
      * rewrite both_ne in Hh by done. eauto.
      * rewrite both_t in Hh. injection Hh as <-. eauto.
      * rewrite both_f in Hh. injection Hh as <-. by left.
    + intros [-> |[h Hh]]; [exists (e, true); apply lookup_insert|]. unfold vm. destruct (decide (h = (e, true))) as [-> | Dh].
      * exists (i, true). rewrite lookup_insert_ne by congruence. rewrite both_t. congruence.
      * exists h. rewrite lookup_insert_ne by done. rewrite both_ne; [done|]. exact (old_side _ _ _ _ Fv Hh).
Qed.

End Keep.
