(** Undo of the operations of the editor. *)
From stdpp Require Import gmap list relations.
From Coq Require Import Lia QArith.
From Verif Require Import Decomp_Model Decomp_Spec Decomp_Perm Decomp_Surgery Decomp_Eff Decomp_Tree Decomp_Inv Decomp_Add Decomp_Join Decomp_Split
  Decomp_Del Decomp_Cut Decomp_Merge Decomp_Mid Decomp_Unmid Decomp_Planar Decomp_Nest Decomp_Good Decomp_Hist Decomp_Told Decomp_Back Decomp_Ids
  Aabb_Model Aabb_Spec Aabb_Proofs Editor_Model Editor_Spec Editor_Proofs.
Local Open Scope nat_scope.

Lemma new_old i c : new_id (old_id i c) = (i, c).
Proof. unfold new_id, old_id. by destruct c. Qed.

(** * Joining and splitting again *)
Section Resplit.
Context (s : st) (mid e n m : nat) (s1 : st) (i : nat) (s2 : st).
Hypothesis G : good s.
Hypothesis Go : goes_on s mid e n.
Hypothesis H1 : join_segments mid e n s = (Ok m, s1).
Hypothesis H2 : split_segment e mid s1 = (Ok i, s2).
Lemma resplit_id : i = n.
Proof.
  assert (A := gv_join_segments mid e n _ _ _ H1). assert (B := tk_split_segment e mid _ _ _ H2). rewrite A, new_old in B. congruence.
Qed.
Lemma nxt_back (f : gmap he he) (nx pv : he) : f !! (e, true) = Some (n, true) -> f !! (n, false) = Some (e, false) -> f !! (n, true) = Some nx -> f !! pv = Some (n, false) -> e <> n ->
  forall (pv2 nx2 : he) (v l : gmap he nat) (b : nat), topo v (dels (u2 f e n pv) n) l -> dels (u2 f e n pv) n !! (e, true) = Some nx2 -> dels (u2 f e n pv) n !! pv2 = Some (e, false) ->
  v !! (e, true) = Some b -> fm (dels (u2 f e n pv) n) e n pv2 = f.
Proof.
  intros Ee Ef Et Ep Dn pv2 nx2 v l b T E2 P2 Vb. set (F := dels (u2 f e n pv) n) in *.
  assert (Fr : forall c, F !! (n, c) = None) by (intros c; apply dels_in).
  destruct (pv_ne f e n pv Ee Ef Ep Dn) as [Dp1 Dp2].
  assert (Pw := u2_p f e n nx pv Ee Ef Et Ep Dn). destruct (pw_ne f e n pv Ee Ef Ep Dn) as [Dw1 Dw2].
  assert (Dwn : fst (pw e n pv) <> n) by (intros X; destruct (pw e n pv) as [k []]; cbn in X; subst k; congruence).
  assert (pv2 = pw e n pv) as ->. { eapply (t_perm _ _ _ T); [exact P2|]. unfold F. by rewrite dels_ne. }
  assert (Pv : pv1 e n (pw e n pv) = pv).
  { unfold pv1, pw. destruct (decide (pv = (n, true))) as [-> | D]; [by rewrite decide_True|]. by rewrite decide_False. }
  assert (Cp := fm_p v F l e n T Fr nx2 (pw e n pv) b E2 P2 Vb). rewrite Pv in Cp.
  apply map_eq. intros h. destruct (decide (h = pv)) as [-> | D1]; [congruence|].
  destruct (side_cases h n) as [D|[-> | ->]].
  - destruct (decide (h = (e, true))) as [-> | D2]; [rewrite Ee; exact (fm_e v F e n Fr nx2 (pw e n pv) b E2 P2 Vb)|].
    rewrite (fm_old F e n (pw e n pv)) by (done || (unfold pw; by destruct (decide _))).
    unfold F. rewrite dels_ne by done. by apply (u2_old f e n pv).
  - rewrite Et. assert (Dpe : pw e n pv <> (e, true)) by (unfold pw; by rewrite decide_False).
    rewrite (fm_t v F e n Fr nx2 (pw e n pv) b E2 P2 Vb Dpe). rewrite <- E2. unfold F. rewrite dels_ne by done. exact (u2_e f e n nx pv Ee Ef Et Ep Dn (not_eq_sym D1)).
  - rewrite Ef. exact (fm_f v F l e n T Fr nx2 (pw e n pv) b E2 P2 Vb).
Qed.
Lemma resplit : vec_ok s -> i = n /\ good s2 /\ same_drawing s s2.
Proof.
  intros Vo. assert (Ei := resplit_id). split; [done|]. subst i. destruct Go as (Vem & Vnm & Pr). assert (I := g_inv _ G). assert (TT := i_topo _ I).
  destruct (other_end s (e, true) mid I Vem) as [a Va]. destruct (other_end s (n, false) mid I Vnm) as [b Vb]. rewrite flip_pair in Va, Vb. cbn [negb] in Va, Vb.
  destruct (Pr _ _ Va Vb) as [Pab Pba]. assert (G1 := good_unmid _ _ _ _ _ _ G Vem Vnm Pr H1).
  destruct (join_segments_eff _ _ _ _ _ _ _ _ I Vem Vnm Va Vb Pab Pba H1) as (_ & I1 & nx & pv & wt & wf & gp & kb & Ne & Nf & Nt & Np & Wnt & Wnf & Wet & Wef & Lw & Dn & Dab & Dma & Dmb & HV & HN & HW & HP & HL & _ & HO & HX & Hv & Hp & HS & _ & _).
  assert (Mm : seg_of s1 !! mid = Some None) by (rewrite HS; apply lookup_insert).
  assert (G2 := good_mid _ G1 _ _ _ _ Mm H2). split; [done|].
  destruct (split_segment_eff _ _ _ _ _ I1 Mm H2) as (I2 & nx2 & pv2 & a2 & b2 & wt2 & wf2 & xa & xb & xm & kb2 & Nt2 & Np2 & Va2 & Vb2 & Wt2 & Wf2 & Fi & Db & Da & Xa & Xb & Xm & HV2 & HN2 & HW2 & Hw2 & HO2 & HX2 & Hv2 & Hp2 & _ & _).
  assert (b2 = b) as ->. { rewrite HV in Vb2. unfold vu in Vb2. rewrite lookup_insert in Vb2. congruence. }
  assert (a2 = a) as ->. { rewrite HV in Va2. unfold vu in Va2. rewrite lookup_insert_ne, dels_ne in Va2 by done. congruence. }
  rewrite HW, dels_ne in Wt2, Wf2 by done. assert (wt2 = wt) as -> by congruence. assert (wf2 = wf) as -> by congruence. rewrite HX in Xa, Xb, Xm.
  assert (HL2 : pol_of s2 = pol_of s) by (unfold pol_of in *; by rewrite Hw2).
  assert (HWW : wir s2 = wir s).
  { rewrite HW2, HW. apply map_eq. intros h. destruct (side_cases h n) as [D|[-> | ->]]; [by rewrite both_ne, dels_ne|by rewrite both_t|by rewrite both_f]. }
  apply drawing; try done.
  - congruence.
  - rewrite HV2, HV. unfold vm, vu. symmetry. apply map_eq. intros h. destruct (decide (h = (e, true))) as [-> | D1]; [by rewrite lookup_insert|].
    rewrite lookup_insert_ne by done. destruct (side_cases h n) as [D|[-> | ->]]; [|by rewrite both_t|by rewrite both_f].
    rewrite both_ne by done. rewrite lookup_insert_ne by done. by rewrite dels_ne.
  - rewrite Hv2, Hv. apply map_eq. intros g. destruct (decide (g = e)) as [-> | D1]; [rewrite lookup_insert; by apply (Vo e a mid)|].
    rewrite lookup_insert_ne by done. destruct (decide (g = n)) as [-> | D2]; [rewrite lookup_insert; by apply (Vo n mid b)|].
    rewrite lookup_insert_ne by done. by rewrite lookup_delete_ne.
  - symmetry. rewrite HN2. rewrite HN in Nt2, Np2. rewrite HN. assert (T1 := i_topo _ I1). rewrite HN in T1. eapply nxt_back; done.
  - destruct (i_pair _ I) as [J1 J2]. rewrite Hp2, Hp. apply map_eq. intros [x y].
    assert (Ee : p2s s !! (a, mid) = Some e) by (by apply J1). assert (En : p2s s !! (mid, b) = Some n) by (by apply J1).
    assert (Eb : p2s s !! (b, mid) = None) by (eapply J2; done).
    destruct (decide ((x, y) = (mid, b))) as [[= -> ->] | D1]; [by rewrite lookup_insert|]. rewrite lookup_insert_ne by done.
    destruct (decide ((x, y) = (a, mid))) as [[= -> ->] | D2]; [by rewrite lookup_insert|]. rewrite lookup_insert_ne by done.
    destruct (decide ((x, y) = (a, b))) as [[= -> ->] | D3]; [by rewrite lookup_delete|]. rewrite lookup_delete_ne by done.
    destruct (decide ((x, y) = (b, mid))) as [[= -> ->] | D4]; [by rewrite lookup_delete|]. rewrite lookup_delete_ne by done.
    rewrite lookup_delete_ne by done. rewrite lookup_insert_ne by done. rewrite lookup_delete_ne by done. by rewrite lookup_delete_ne.
  - congruence.
  - intros h. apply poly_at_same; [by rewrite HWW|done].
Qed.
End Resplit.

(** * Removing and inserting again *)
Lemma readd K s g u s1 K' a b i s2 : good s -> (exposed s g -> whole s1) -> vec_ok s -> delete_segment K g s = (Ok u, s1) ->
  vtx s !! (g, false) = Some a -> vtx s !! (g, true) = Some b -> new_segment K' a b s1 = (Ok i, s2) -> sane K' s2 i -> i = g /\ same_plan s s2.
Proof.
  intros G W Vo H1 Va Vb H2 SK. assert (G1 := good_delete_segment _ _ _ _ _ G W H1). assert (I := g_inv _ G). assert (G2 := good_new_segment _ _ _ _ _ _ G1 SK H2).
  destruct (delete_plan _ _ _ _ _ G H1) as (HX & HV & Hv & a' & b' & Va' & Vb' & Hp). assert (a' = a) as -> by congruence. assert (b' = b) as -> by congruence.
  assert (N1 : p2s s1 !! (a, b) = None). { rewrite Hp. destruct (decide ((b, a) = (a, b))) as [-> | D]; [apply lookup_delete|]. rewrite lookup_delete_ne by done. apply lookup_delete. }
  assert (N2 : p2s s1 !! (b, a) = None) by (rewrite Hp; apply lookup_delete).
  assert (Ei : i = g).
  { assert (A := gv_delete_segment K g _ _ _ H1). assert (B := new_segment_id _ _ _ _ _ _ H2 N1 N2). rewrite A, new_old in B. congruence. }
  split; [done|]. subst i.
  destruct (new_plan _ _ _ _ _ _ G1 H2) as (D & HX2 & x & y & X & Y & [[[C|C] _]|(_ & _ & _ & HV2 & Hv2 & Hp2)]); [congruence|congruence|].
  rewrite HX in X, Y. assert (EV : vtx s = vtx s2).
  { rewrite HV2, HV. apply map_eq. intros h. destruct (side_cases h g) as [Dh|[-> | ->]]; [by rewrite both_ne, dels_ne|by rewrite both_t|by rewrite both_f]. }
  assert (EX : xy_of s = xy_of s2) by congruence.
  split; [done|]. split; [done|]. split; [|split].
  - rewrite Hv2, Hv. rewrite insert_delete_insert. symmetry. apply insert_id. by apply (Vo g a b).
  - rewrite Hp2, Hp. destruct (i_pair _ I) as [J1 J2]. assert (E1 : p2s s !! (a, b) = Some g) by (by apply J1). assert (E2 := J2 _ _ _ E1).
    rewrite (delete_notin (delete (a, b) (p2s s)) (b, a)) by (rewrite lookup_delete_ne by congruence; done). rewrite insert_delete_insert. symmetry. by apply insert_id.
  - assert (Q : forall p, is_Some (points s !! p) <-> is_Some (points s2 !! p)) by (intros p; rewrite <- !(fmap_is_Some xy), <- !lookup_fmap; by rewrite EX).
    assert (L : forall t, inv t -> forall p, loose t p <-> is_Some (points t !! p) /\ forall h, vtx t !! h <> Some p).
    { intros t It p. destruct (i_pts _ It) as (P1 & P2 & P3). split.
      - intros (z & E & S). split; [eauto|]. intros h. apply P2. rewrite lookup_fmap, E. cbn. by rewrite S.
      - intros [[z E] Nh]. exists z. split; [done|]. destruct (p_seg z) as [h|] eqn:S; [|done]. exfalso. apply (Nh h), P1. rewrite lookup_fmap, E. cbn. by rewrite S. }
    intros p. by rewrite (L s I), (L s2 (g_inv _ G2)), EV, Q.
Qed.

(** * Undo *)
Lemma undo_run K d u l o r d' : stack d = u :: l -> op_of d u = Some o -> erun K o (set_stack l d) = (Ok r, d') -> undo K d = (Ok tt, set_stack l d').
Proof.
  intros S O H. unfold undo. rewrite S. unfold undo_of. destruct u; cbn in O.
  1, 2, 3, 5, 6: injection O as <-; cbn in H.
  - apply ebind_inv in H as (x & d1 & H & E). apply eret_inv in E as [_ ->]. by rewrite H.
  - by rewrite H.
  - by rewrite H.
  - by rewrite H.
  - by rewrite H.
  - efld. destruct (cells d !! cell) as [[a b]|]; [|done]. cbn in O. injection O as <-. cbn in H. by rewrite H.
Qed.
Lemma undo_inv K d u l d2 : stack d = u :: l -> undo K d = (Ok tt, d2) -> exists o r d', op_of d u = Some o /\ erun K o (set_stack l d) = (Ok r, d') /\ d2 = set_stack l d'.
Proof.
  intros S H. unfold undo in H. rewrite S in H.
  assert (H' : undo_of K u (set_stack l d) = (Ok tt, d2)).
  { destruct (undo_of K u (set_stack l d)) as [[x| |] y]; [|done|done]. by destruct x. }
  clear H. unfold undo_of in H'. destruct u; cbn [op_of].
  - destruct (rm_point p (set_stack l d)) as [[x| |] y] eqn:E; try done. injection H' as <-. exists (ERmPoint p), 0, y. cbn. unfold ebind. by rewrite E.
  - destruct (Editor_Model.rm_segment K g (set_stack l d)) as [[x| |] y] eqn:E; try done. injection H' as <-. exists (ERmSegment g), x, y. done.
  - destruct (add_point v g (set_stack l d)) as [[x| |] y] eqn:E; try done. injection H' as <-. exists (EAddPoint v g), x, y. done.
  - efld in *. destruct (cells d !! cell) as [[a b]|] eqn:C; [|done]. cbn. destruct (add_segment K a b (set_stack l d)) as [[x| |] y] eqn:E; try done. injection H' as <-. exists (EAddSegment a b), x, y. done.
  - destruct (join_seg mid e n (set_stack l d)) as [[x| |] y] eqn:E; try done. injection H' as <-. exists (EJoin mid e n), x, y. done.
  - destruct (split_seg e mid (set_stack l d)) as [[x| |] y] eqn:E; try done. injection H' as <-. exists (ESplit e mid), x, y. done.
Qed.
Lemma ebind_ok {A B} (m : E A) (f : A -> E B) d a d1 : m d = (Ok a, d1) -> ebind m f d = f a d1.
Proof. intros H. unfold ebind. by rewrite H. Qed.
Lemma box_gone t f i b : tab_inv t f -> f i = Some b -> exists t', rm_object t i = Some t'.
Proof. intros (A & _ & C & _) H. destruct (C _ _ H) as [_ L]. unfold rm_object. assert (X : i <? length (l_rows t) = true) by (apply Nat.ltb_lt; lia). rewrite X. eauto. Qed.
Lemma box_in t f i b : tab_inv t f -> exists t', add_object t i b = Some t'.
Proof. intros T. destruct (add_inv t f i b T) as (t1 & E & _). eauto. Qed.

(** A point added goes away again; all is as before but for the place where its id is kept. *)
Lemma undo_add_point K v g d p d1 : einv d -> add_point v g d = (Ok p, d1) -> exists d2 c, undo K d1 = (Ok tt, d2) /\ stack d2 = stack d /\
  dec d2 = set_ip c (dec d) /\ fst (new_id c) = p /\ fst (new_id (ip (dec d))) = p /\ exists r d', erun K (ERmPoint p) (set_stack (stack d) d1) = (Ok r, d') /\ d2 = set_stack (stack d) d'.
Proof.
  intros I H. assert (I1 := step_add_point _ I _ _ _ _ H). apply add_point_inv in H as (s & x & b & t & H & X & B & T & ->).
  assert (Gd := e_good _ I). destruct (add_free_point_eff _ _ _ _ _ (g_inv _ Gd) H) as (_ & z & c & Z & F & E).
  assert (Hid : new_id (ip (dec d)) = (p, c)).
  { unfold add_free_point, bind, get_poly, need in H. rewrite Z in H. destruct (new_id (ip (dec d))) as [i c'] eqn:En. unfold put_poly, upd in H. cbn in H. injection H as Hi Hs.
    assert (Y : ip s = c') by (by rewrite <- Hs). rewrite E in Y. cbn in Y. congruence. }
  assert (Fp : p ∉ free z).
  { intros X'. destruct (i_free _ (g_inv _ Gd)) as [_ Q]. destruct (Q g z p Z X') as (y & Y & _). congruence. }
  assert (Xp : xy_of s !! p = Some v). { rewrite E. cbn. by rewrite fmap_insert, lookup_insert. }
  destruct (box_gone _ _ p b (e_pts _ I1)) as [t' T'].
  { change (p_cur s (tolerance d) p = Some b). unfold p_cur. assert (x = v) as -> by congruence. unfold vect in *. change pt with (Q * Q)%type. rewrite Xp. done. }
  efld in *. set (s2 := set_points (delete p (points s)) (set_ip (old_id p (ip s)) (set_polys (<[g := Po (outer z) ((free z ∪ {[p]}) ∖ {[p]})]> (polys s)) s))).
  assert (Ps : points s !! p = Some (Pt v (Some g) None)) by (rewrite E; cbn; apply lookup_insert).
  assert (Gs : polys s !! g = Some (Po (outer z) (free z ∪ {[p]}))) by (rewrite E; cbn; apply lookup_insert).
  assert (R : remove_free_point p s = (Ok tt, s2)).
  { unfold remove_free_point, bind, get_pt, need, drop_free, get_poly, need, bind, check. rewrite Ps. cbn [p_poly is_free p_seg]. unfold ret. unfold bind, need. rewrite Gs. cbn [free outer].
    rewrite decide_True by set_solver. reflexivity. }
  assert (E2 : s2 = set_ip (old_id p c) (dec d)).
  { unfold s2. rewrite E. cbn. rewrite insert_insert. rewrite delete_insert by done.
    replace ((free z ∪ {[p]}) ∖ {[p]}) with (free z) by set_solver. rewrite insert_id; [|rewrite Z; by destruct z]. by destruct (dec d). }
  set (d1 := Ed s t (s_boxes d) (tolerance d) (UnAddPoint p :: stack d) (cells d)).
  assert (H2 : erun K (ERmPoint p) (set_stack (stack d) d1) = (Ok 0, Ed s2 t' (s_boxes d) (tolerance d) (UnRmPoint v g :: stack d) (cells d))).
  { cbn [erun]. rewrite (ebind_ok _ _ _ tt (Ed s2 t' (s_boxes d) (tolerance d) (UnRmPoint v g :: stack d) (cells d))); [done|]. unfold rm_point.
    erewrite ebind_ok by (unfold item; subst d1; efld; rewrite Ps; reflexivity). erewrite ebind_ok by (unfold rm_p_box; subst d1; efld; rewrite T'; reflexivity).
    erewrite ebind_ok by (unfold on_dec; efld; rewrite R; reflexivity). reflexivity. }
  assert (U := undo_run K d1 (UnAddPoint p) (stack d) _ _ _ eq_refl eq_refl H2). efld in *. eexists _, (old_id p c). split; [exact U|].
  split; [done|]. split; [exact E2|]. split; [by rewrite new_old|]. split; [by rewrite Hid|]. eauto.
Qed.
(** A point removed comes back, exactly as it was. *)
Lemma undo_rm_point K d p u d1 : einv d -> rm_point p d = (Ok u, d1) -> exists d2, undo K d1 = (Ok tt, d2) /\ stack d2 = stack d /\ dec d2 = dec d /\
  exists o r d', op_of d1 (hd (UnAddPoint 0) (stack d1)) = Some o /\ erun K o (set_stack (stack d) d1) = (Ok r, d') /\ d2 = set_stack (stack d) d'.
Proof.
  intros I H. assert (I1 := step_rm_point _ I _ _ _ H). apply rm_point_inv in H as (x & g & t & s & Ex & Eg & T & H & ->).
  assert (Gd := e_good _ I). destruct (remove_free_point_eff _ _ _ _ (g_inv _ Gd) H) as (_ & x' & g' & y & X1 & X2 & X3 & X4 & E).
  assert (x' = x) as -> by congruence. assert (g' = g) as -> by congruence.
  assert (Fp : p ∈ free y). { destruct (i_free _ (g_inv _ Gd)) as [Q _]. assert (Q1 := Q p x X1). rewrite X2 in Q1. destruct Q1 as (g1 & y1 & Y1 & Y2 & Y3). congruence. }
  set (s2 := set_polys (<[g := Po (outer y) ((free y ∖ {[p]}) ∪ {[p]})]> (polys s)) (set_points (<[p := Pt (xy x) (Some g) None]> (points s)) (set_ip (ip (dec d)) s))).
  assert (Gs : polys s !! g = Some (Po (outer y) (free y ∖ {[p]}))) by (rewrite E; cbn; apply lookup_insert).
  assert (R : add_free_point (xy x) g s = (Ok p, s2)).
  { unfold add_free_point, bind, get_poly, need. rewrite Gs. assert (Y : ip s = old_id p (ip (dec d))) by (by rewrite E). rewrite Y, new_old. reflexivity. }
  assert (E2 : s2 = dec d).
  { unfold s2. rewrite E. cbn. rewrite insert_insert. replace ((free y ∖ {[p]}) ∪ {[p]}) with (free y).
    2: { apply set_eq. intros q. destruct (decide (q = p)); set_solver. }
    rewrite insert_delete_insert. rewrite insert_id; [|rewrite X4; by destruct y]. rewrite insert_id; [|rewrite X1; destruct x; cbn in *; congruence]. by destruct (dec d). }
  destruct (make_one [xy x] (tolerance d) (xy x)) as (bx & Bx & _); [by apply elem_of_list_singleton|].
  destruct (box_in _ _ p bx (e_pts _ I1)) as [t' T']. efld in *.
  set (d1 := Ed s t (s_boxes d) (tolerance d) (UnRmPoint (xy x) g :: stack d) (cells d)).
  assert (H2 : erun K (EAddPoint (xy x) g) (set_stack (stack d) d1) = (Ok p, Ed s2 t' (s_boxes d) (tolerance d) (UnAddPoint p :: stack d) (cells d))).
  { cbn [erun]. unfold add_point. assert (Y : points s2 !! p = Some (Pt (xy x) (Some g) None)) by (unfold s2; cbn; apply lookup_insert).
    erewrite ebind_ok by (unfold item; subst d1; efld; rewrite Gs; reflexivity). erewrite ebind_ok by (unfold on_dec; subst d1; efld; rewrite R; reflexivity).
    erewrite ebind_ok by (unfold xy_at, item; efld; rewrite Y; reflexivity). 
    rewrite (ebind_ok _ _ _ tt (set_p_boxes t' (set_dec s2 (set_stack (stack d) d1)))); [reflexivity|]. unfold add_p_box.
    change (make_aabb [xy (Pt (xy x) (Some g) None)] _) with (make_aabb [xy x] (tolerance d)). rewrite Bx. change (p_boxes _) with t. by rewrite T'. }
  assert (U := undo_run K d1 (UnRmPoint (xy x) g) (stack d) _ _ _ eq_refl eq_refl H2). efld in *. eexists. split; [exact U|]. split; [done|]. split; [exact E2|]. cbn [hd op_of]. eauto 7.
Qed.

(** Segments. *)
Lemma undo_add_segment K K' a b d i d1 d2 : einv d -> p2s (dec d) !! (a, b) = None -> p2s (dec d) !! (b, a) = None -> add_segment K a b d = (Ok i, d1) -> sane K (dec d1) i ->
  undo K' d1 = (Ok tt, d2) -> stack d2 = stack d /\ same_drawing (dec d) (dec d2).
Proof.
  intros I N1 N2 H SK U. apply add_segment_inv in H as (s & x & y & bx & t & H & X & Y & B & T & ->).
  apply (undo_inv _ _ (UnAddSegment i) (stack d)) in U as (o & r & d' & O & H2 & ->); [|done]. cbn in O. injection O as <-. cbn [erun] in H2. efld in *.
  apply rm_segment_inv in H2 as (a' & b' & t' & s' & Va & Vb & T' & H2 & _ & ->). efld in *. split; [done|].
  exact (restore K K' _ _ _ _ _ _ _ (e_good _ I) SK N1 N2 H H2).
Qed.
Lemma undo_rm_segment K K' g d c d1 d2 : einv d -> vec_ok (dec d) -> Editor_Model.rm_segment K g d = (Ok c, d1) -> (exposed (dec d) g -> whole (dec d1)) ->
  undo K' d1 = (Ok tt, d2) -> sane K' (dec d2) g -> stack d2 = stack d /\ same_plan (dec d) (dec d2).
Proof.
  intros I Vo H W U SK. apply rm_segment_inv in H as (a & b & t & s & Va & Vb & T & H & _ & ->).
  apply (undo_inv _ _ (UnRmSegment (length (cells d))) (stack d)) in U as (o & r & d' & O & H2 & ->); [|done]. cbn [op_of] in O. efld in *.
  rewrite lookup_app_r, Nat.sub_diag in O by lia. cbn in O. injection O as <-. cbn [erun] in H2.
  apply add_segment_inv in H2 as (s' & x & y & bx & t' & H2 & X & Y & B & T' & ->). efld in *. split; [done|].
  assert (Ei : r = g).
  { assert (A := gv_delete_segment K g _ _ _ H). destruct (delete_plan _ _ _ _ _ (e_good _ I) H) as (_ & _ & _ & a' & b' & Va' & Vb' & Hp).
    assert (a' = a) as -> by congruence. assert (b' = b) as -> by congruence. assert (N2 : p2s s !! (b, a) = None) by (rewrite Hp; apply lookup_delete).
    assert (N1 : p2s s !! (a, b) = None). { rewrite Hp. destruct (decide ((b, a) = (a, b))) as [-> | D]; [apply lookup_delete|]. rewrite lookup_delete_ne by done. apply lookup_delete. }
    assert (Z := new_segment_id _ _ _ _ _ _ H2 N1 N2). rewrite A, new_old in Z. congruence. }
  subst r. by destruct (readd _ _ _ _ _ _ _ _ _ _ (e_good _ I) W Vo H Va Vb H2 SK).
Qed.
Lemma undo_split K e mid d n d1 d2 : einv d -> loose (dec d) mid -> split_seg e mid d = (Ok n, d1) -> undo K d1 = (Ok tt, d2) ->
  stack d2 = stack d /\ (exists v, vec (dec d2) = <[e := v]> (vec (dec d))) /\ same_drawing (set_vec (vec (dec d2)) (dec d)) (dec d2).
Proof.
  intros I Lo H U. apply split_seg_inv in H as (s & a & b & x & y & bx & t & H & Va & Vb & X & Y & B & T & ->).
  assert (Mm : seg_of (dec d) !! mid = Some None) by (destruct Lo as (z & Ez & Es); rewrite lookup_fmap, Ez; cbn; by rewrite Es).
  apply (undo_inv _ _ (UnSplit mid e n) (stack d)) in U as (o & r & d' & O & H2 & ->); [|done]. cbn in O. injection O as <-. cbn [erun] in H2. efld in *.
  apply join_seg_inv in H2 as (s' & m & t' & H2 & T' & -> & ->). efld in *. split; [done|].
  by destruct (rejoin _ _ _ _ _ _ _ (e_good _ I) Mm H H2) as (_ & _ & P & Q).
Qed.
Lemma undo_join K mid e n d r d1 d2 : einv d -> vec_ok (dec d) -> goes_on (dec d) mid e n -> join_seg mid e n d = (Ok r, d1) -> undo K d1 = (Ok tt, d2) ->
  stack d2 = stack d /\ same_drawing (dec d) (dec d2).
Proof.
  intros I Vo Go H U. apply join_seg_inv in H as (s & m & t & H & T & -> & ->).
  apply (undo_inv _ _ (UnJoin mid e) (stack d)) in U as (o & r & d' & O & H2 & ->); [|done]. cbn in O. injection O as <-. cbn [erun] in H2. efld in *.
  apply split_seg_inv in H2 as (s' & a & b & x & y & bx & t' & H2 & Va & Vb & X & Y & B & T' & ->). efld in *. split; [done|].
  by destruct (resplit _ _ _ _ _ _ _ _ (e_good _ I) Go H H2 Vo) as (_ & _ & Q).
Qed.
