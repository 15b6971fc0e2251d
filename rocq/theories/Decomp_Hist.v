(** Free points, moves, the choice of the case by new_segment and delete_segment; histories. *)
From stdpp Require Import gmap list relations.
From Coq Require Import Lia QArith.
From Verif Require Import Decomp_Model Decomp_Spec Decomp_Perm Decomp_Surgery Decomp_Eff Decomp_Tree Decomp_Inv Decomp_Add Decomp_Join Decomp_Split
  Decomp_Del Decomp_Cut Decomp_Merge Decomp_Mid Decomp_Unmid Decomp_Planar Decomp_Nest Decomp_Good.
Local Open Scope nat_scope.

Lemma good_same s s' : good s -> inv s' -> wires s' = wires s -> wir s' = wir s -> vtx s' = vtx s -> outer_of s' = outer_of s ->
  (forall g, is_Some (vec s' !! g) <-> is_Some (vec s !! g)) -> good s'.
Proof.
  intros G I Hw Hl Hv Ho Hd. constructor; rewrite ?Hw, ?Hl, ?Hv, ?Ho; try apply G; [done|]. rewrite (cnt_same _ _ Hd). apply G.
Qed.
Lemma inv_change c s : inv s -> inv (set_change c s).
Proof. intros [A1 A2 A3 A4 A5 A6 A7 A8 A9 A10 A11]. by constructor. Qed.
Lemma good_change c s : good s -> good (set_change c s).
Proof. intros G. apply (good_same s); try done. apply inv_change, G. Qed.

(** * Free points *)
Lemma add_free_point_eff v g s p s' : inv s -> add_free_point v g s = (Ok p, s') ->
  inv s' /\ exists x c, polys s !! g = Some x /\ points s !! p = None /\
    s' = set_polys (<[g := Po (outer x) (free x ∪ {[p]})]> (polys s)) (set_points (<[p := Pt v (Some g) None]> (points s)) (set_ip c s)).
Proof.
  intros I H. unfold add_free_point in H. rd H as x Ex. bnd H as p' s1 E. destruct (new_id (ip s)) as [i c] eqn:En. injection E as <- <-.
  up H. apply ret_inv in H as [-> ->]. fld in *.
  destruct (src_insert _ (seg_of s) _ _ None (i_ip _ I) En) as [Fp Sp].
  assert (Fp' : points s !! i = None) by (rewrite lookup_fmap in Fp; by apply fmap_None in Fp).
  assert (HO : outer <$> <[g := Po (outer x) (free x ∪ {[i]})]> (polys s) = outer_of s) by (by apply (fmap_insert_same _ _ _ x)).
  assert (HS : p_seg <$> <[i := Pt v (Some g) None]> (points s) = <[i := None]> (seg_of s)) by (by rewrite fmap_insert).
  split; [|eauto 6].
  constructor; fld; rewrite ?HO, ?HS; try apply I.
  - destruct (i_pts _ I) as (P1 & P2 & P3). split; [|split].
    + intros q h E. apply lookup_insert_Some in E as [[_ ?]|[_ E]]; [done|]. by apply P1.
    + intros q h E. apply lookup_insert_Some in E as [[<- _]|[_ E]]; [|by apply P2]. intros X. apply P3 in X. rewrite Fp in X. by destruct X.
    + intros h q E. apply live_insert. right. by eapply P3.
  - destruct (i_free _ I) as [F1 F2]. split.
    + intros q z E. apply lookup_insert_Some in E as [[<- <-]|[D E]].
      * cbn. exists g, (Po (outer x) (free x ∪ {[i]})). rewrite lookup_insert. split; [done|]. split; [done|]. cbn. set_solver.
      * specialize (F1 q z E). destruct (p_seg z); [done|]. destruct F1 as (g' & y & A & B & C). exists g'. destruct (decide (g' = g)) as [-> | Dg].
        -- exists (Po (outer x) (free x ∪ {[i]})). rewrite lookup_insert. split; [done|]. split; [done|]. cbn. assert (y = x) as -> by congruence. set_solver.
        -- exists y. by rewrite lookup_insert_ne.
    + intros g' y q E Q. apply lookup_insert_Some in E as [[<- <-]|[D E]].
      * cbn in Q. apply elem_of_union in Q as [Q|Q%elem_of_singleton].
        -- destruct (F2 _ _ _ Ex Q) as (z & A & B). exists z. rewrite lookup_insert_ne; [done|]. intros <-. congruence.
        -- subst q. rewrite lookup_insert. eauto.
      * destruct (F2 _ _ _ E Q) as (z & A & B). exists z. rewrite lookup_insert_ne; [done|]. intros <-. congruence.
  - eapply src_ext; [|exact Sp]. done.
Qed.
Lemma remove_free_point_eff p s u s' : inv s -> remove_free_point p s = (Ok u, s') ->
  inv s' /\ exists x g y, points s !! p = Some x /\ p_seg x = None /\ p_poly x = Some g /\ polys s !! g = Some y /\
    s' = set_points (delete p (points s)) (set_ip (old_id p (ip s)) (set_polys (<[g := Po (outer y) (free y ∖ {[p]})]> (polys s)) s)).
Proof.
  intros I H. unfold remove_free_point in H. rd H as x Ex. rd H as g Eg. chk H as C.
  bnd H as u1 s1 E. apply drop_free_inv in E as (y & Y1 & Y2 & ->). apply upd_inv in H. subst s'. fld in *.
  assert (Es : p_seg x = None) by (unfold is_free in C; by destruct (p_seg x)).
  assert (HO : outer <$> <[g := Po (outer y) (free y ∖ {[p]})]> (polys s) = outer_of s) by (by apply (fmap_insert_same _ _ _ y)).
  assert (HS : p_seg <$> delete p (points s) = delete p (seg_of s)) by (by rewrite fmap_delete).
  assert (Mp : seg_of s !! p = Some None) by (rewrite lookup_fmap, Ex; cbn; by rewrite Es).
  split; [|eauto 10].
  constructor; fld; rewrite ?HO, ?HS; try apply I.
  - destruct (i_pts _ I) as (P1 & P2 & P3). split; [|split].
    + intros q h E. apply lookup_delete_Some in E as [_ E]. by apply P1.
    + intros q h E. apply lookup_delete_Some in E as [_ E]. by apply P2.
    + intros h q E. apply live_delete. split; [intros ->; by apply (P2 p h)|]. by eapply P3.
  - destruct (i_free _ I) as [F1 F2]. split.
    + intros q z E. apply lookup_delete_Some in E as [D E].
      specialize (F1 q z E). destruct (p_seg z); [done|]. destruct F1 as (g' & y' & A & B & E'). exists g'. destruct (decide (g' = g)) as [-> | Dg].
      * exists (Po (outer y) (free y ∖ {[p]})). rewrite lookup_insert. split; [done|]. split; [done|]. cbn. assert (y' = y) as -> by congruence. set_solver.
      * exists y'. by rewrite lookup_insert_ne.
    + intros g' y' q E Q. apply lookup_insert_Some in E as [[<- <-]|[D E]].
      * cbn in Q. apply elem_of_difference in Q as [Q1 Q2]. destruct (F2 _ _ _ Y1 Q1) as (z & A & B). exists z. rewrite lookup_delete_ne; [done|]. set_solver.
      * destruct (F2 _ _ _ E Q) as (z & A & B & B'). exists z. rewrite lookup_delete_ne; [done|]. intros <-. congruence.
  - eapply src_ext; [|apply (src_old _ _ p (i_ip _ I)); eauto]. intros j. apply live_delete.
Qed.

(** * Moves *)
Lemma update_inv (s0 : st) l s u s' :
  each (fun h : he => a <~ get_vtx (fst h, false) ; b <~ get_vtx (fst h, true) ; x <~ get_pt a ; y <~ get_pt b ;
                  upd (fun s => set_vec (<[fst h := vminus (xy y) (xy x)]> (vec s)) s)) l s = (Ok u, s') ->
  exists V, s' = set_vec V s /\
    (forall g, V !! g = vec s !! g \/ exists a b x y, vtx s !! (g, false) = Some a /\ vtx s !! (g, true) = Some b /\
       xy_of s !! a = Some x /\ xy_of s !! b = Some y /\ V !! g = Some (vminus y x)) /\
    (forall g c, (g, c) ∈ l -> exists a b x y, vtx s !! (g, false) = Some a /\ vtx s !! (g, true) = Some b /\
       xy_of s !! a = Some x /\ xy_of s !! b = Some y /\ V !! g = Some (vminus y x)).
Proof.
  revert s. induction l as [|h l IH]; intros s H.
  - cbn in H. apply ret_inv in H as [-> ->]. exists (vec s). split; [by destruct s|]. split; [auto|]. intros g c X. by apply elem_of_nil in X.
  - cbn [each] in H. bnd H as u1 s1 E. rd E as a Ea. rd E as b Eb. rd E as x Ex. rd E as y Ey. apply upd_inv in E. subst s1.
    apply IH in H as (V & -> & H1 & H2). fld in *. exists V. split; [done|].
    assert (N : exists a b x y, vtx s !! (fst h, false) = Some a /\ vtx s !! (fst h, true) = Some b /\
       xy_of s !! a = Some x /\ xy_of s !! b = Some y /\ V !! (fst h) = Some (vminus y x)).
    { destruct (H1 (fst h)) as [X|X]; [|done]. rewrite lookup_insert in X. exists a, b, (xy x), (xy y). rewrite !lookup_fmap, Ex, Ey. done. }
    split.
    + intros g. destruct (decide (g = fst h)) as [-> | D]; [by right|]. destruct (H1 g) as [X|X]; [left|by right]. by rewrite lookup_insert_ne in X by done.
    + intros g c X. apply elem_of_cons in X as [<- | X]; [exact N|]. by eapply H2.
Qed.
Lemma move_eff p v s u s' : inv s -> move p v s = (Ok u, s') ->
  inv s' /\ exists x V, points s !! p = Some x /\
    s' = set_vec V (set_points (<[p := Pt (vplus (xy x) v) (p_poly x) (p_seg x)]> (points s)) s) /\
    (forall g, is_Some (V !! g) <-> is_Some (vec s !! g)) /\
    (forall g a b xa xb, vtx s !! (g, false) = Some a -> vtx s !! (g, true) = Some b -> xy_of s' !! a = Some xa -> xy_of s' !! b = Some xb ->
       V !! g = Some (vminus xb xa) \/ (V !! g = vec s !! g /\ a <> p /\ b <> p)).
Proof.
  intros I H. unfold move in H. rd H as x Ex. up H. bnd H as l s1 E.
  set (P := <[p := Pt (vplus (xy x) v) (p_poly x) (p_seg x)]> (points s)) in *.
  assert (HS : p_seg <$> P = seg_of s) by (by apply (fmap_insert_same _ _ _ x)).
  unfold point_segments in E. rd E as x' Ex'. fld in *. unfold P in Ex'. rewrite lookup_insert in Ex'. injection Ex' as <-. cbn [p_seg] in E.
  assert (K : s1 = set_points P s /\ forall h, vtx s !! h = Some p -> h ∈ l).
  { destruct (p_seg x) as [h0|] eqn:Es.
    - unfold segments_from in E. fld in E. apply pair_equal_spec in E as [E <-]. split; [done|]. intros h Hh. eapply around_all; [exact E|].
      apply (labels_reach _ _ _ _ p (t_vtx _ _ _ (i_topo _ I))); [|done]. apply (i_pts _ I). rewrite lookup_fmap, Ex. cbn. by rewrite Es.
    - apply ret_inv in E as [-> ->]. split; [done|]. intros h Hh. exfalso. apply (proj1 (proj2 (i_pts _ I)) p h); [|done]. rewrite lookup_fmap, Ex. cbn. by rewrite Es. }
  destruct K as [-> Al]. clear E. apply (update_inv s) in H as (V & -> & H1 & H2). fld in *.
  assert (Dom : forall g, is_Some (V !! g) <-> is_Some (vec s !! g)).
  { intros g. destruct (H1 g) as [-> |(a & b & xa & xb & A & B & _ & _ & ->)]; [done|]. split; [|eauto]. intros _. apply (i_vec _ I). eauto. }
  split.
  - constructor; fld; rewrite ?HS; try apply I.
    + destruct (i_free _ I) as [F1 F2]. split.
      * intros q z E. unfold P in E. apply lookup_insert_Some in E as [[<- <-]|[D E]]; [|by apply F1]. cbn. by apply (F1 p x).
      * intros g y q E Q. destruct (F2 _ _ _ E Q) as (z & A & B & C). unfold P. destruct (decide (q = p)) as [-> | D]; [rewrite lookup_insert; eexists; split; [done|]; cbn; assert (z = x) as -> by congruence; done|].
        exists z. by rewrite lookup_insert_ne.
    + intros g. rewrite Dom. apply I.
    + eapply src_ext; [|apply (i_is _ I)]. intros g. symmetry. apply Dom.
  - exists x, V. split; [done|]. split; [done|]. split; [done|]. intros g a b xa xb Va Vb Xa Xb.
    assert (N : forall c, (g, c) ∈ l -> V !! g = Some (vminus xb xa)).
    { intros c C. destruct (H2 g c C) as (a' & b' & xa' & xb' & A & B & A' & B' & ->). congruence. }
    destruct (decide (a = p)) as [-> | Da]; [left; by eapply (N false), Al|]. destruct (decide (b = p)) as [-> | Db]; [left; by eapply (N true), Al|].
    destruct (H1 g) as [X|(a' & b' & xa' & xb' & A & B & A' & B' & ->)]; [by right|left; congruence].
Qed.

(** * The cases of new_segment and delete_segment *)
Lemma new_segment_cases K a b s i s' : inv s -> new_segment K a b s = (Ok i, s') -> a <> b /\ let s0 := set_change CNone s in
  ((p2s s !! (a, b) = Some i \/ p2s s !! (b, a) = Some i) /\ s' = s0) \/
  (p2s s !! (a, b) = None /\ p2s s !! (b, a) = None /\
   ((exists g, seg_of s !! a = Some None /\ seg_of s !! b = Some None /\ new_wire_op g a b s0 = (Ok i, s')) \/
    (exists prev next w (root : bool), seg_of s !! (if root then a else b) = Some None /\ fits s (if root then b else a) (prev, next, w) /\
       add_dendrite a b (prev, next, w) root s0 = (Ok i, s')) \/
    (exists pa na wa pb nb wb, fits s a (pa, na, wa) /\ fits s b (pb, nb, wb) /\
       ((wa = wb /\ split_poly K a b (pa, na, wa) (pb, nb, wb) s0 = (Ok i, s')) \/ (wa <> wb /\ join_wires a b (pa, na, wa) (pb, nb, wb) s0 = (Ok i, s')))))).
Proof.
  intros I H. unfold new_segment in H. rd H as x Ex. rd H as y Ey. cbv zeta in H. chk H as D. apply bool_decide_eq_true in D. split; [done|]. chk H as C. up H.
  assert (I0 := inv_change CNone _ I).
  bnd H as o1 s1 E. injection E as <- <-. bnd H as o2 s1 E. injection E as <- <-. fld in H. cbv zeta.
  assert (Sa : seg_of s !! a = Some (p_seg x)) by (by rewrite lookup_fmap, Ex). assert (Sb : seg_of s !! b = Some (p_seg y)) by (by rewrite lookup_fmap, Ey).
  destruct (p2s s !! (a, b)) as [j|] eqn:E1; [apply ret_inv in H as [-> ->]; left; auto|].
  destruct (p2s s !! (b, a)) as [j|] eqn:E2; [apply ret_inv in H as [-> ->]; left; auto|].
  right. split; [done|]. split; [done|]. unfold is_free in H.
  destruct (p_seg x) as [hx|] eqn:Fx; destruct (p_seg y) as [hy|] eqn:Fy; cbn [andb] in H.
  - bnd H as ia s1 E. apply insert_vector_inv in E as [-> Ia]; [|done]. bnd H as ib s1 E. apply insert_vector_inv in E as [-> Ib]; [|done].
    rd H as ii Eii. rd H as jj Ejj. subst ia ib. right. right. destruct ii as [[pa na] wa], jj as [[pb nb] wb]. cbn [snd] in H.
    exists pa, na, wa, pb, nb, wb. split; [apply Ia|]. split; [apply Ib|]. destruct (decide (wa = wb)) as [Dw|Dw]; auto.
  - bnd H as ia s1 E. apply insert_vector_inv in E as [-> Ia]; [|done]. bnd H as ib s1 E. apply insert_vector_inv in E as [-> Ib]; [|done].
    rd H as ii Eii. subst ia. right. left. destruct ii as [[pa na] wa]. exists pa, na, wa, false. split; [done|]. split; [apply Ia|done].
  - bnd H as ia s1 E. apply insert_vector_inv in E as [-> Ia]; [|done]. bnd H as ib s1 E. apply insert_vector_inv in E as [-> Ib]; [|done].
    rd H as ii Eii. subst ib. right. left. destruct ii as [[pa na] wa]. exists pa, na, wa, true. split; [done|]. split; [apply Ib|done].
  - chk H as C2. rd H as g Eg. left. exists g. done.
Qed.
Lemma delete_segment_cases K g s u s' : delete_segment K g s = (Ok u, s') -> let s0 := set_change CNone s in
  ((forall b, nxt s !! (g, b) = Some (g, negb b)) /\ rm_wire_op g s0 = (Ok u, s')) \/
  (exists tip, nxt s !! (g, tip) = Some (g, negb tip) /\ nxt s !! (g, negb tip) <> Some (g, tip) /\ rm_dendrite g tip s0 = (Ok u, s')) \/
  (nxt s !! (g, true) <> Some (g, false) /\ nxt s !! (g, false) <> Some (g, true) /\
   ((wir s !! (g, true) = wir s !! (g, false) /\ split_wire K g s0 = (Ok u, s')) \/ (wir s !! (g, true) <> wir s !! (g, false) /\ join_poly g s0 = (Ok u, s')))).
Proof.
  intros H. unfold delete_segment in H. up H. rd H as l El. rd H as r Er. fld in *. cbv zeta in *.
  destruct (bool_decide_reflect (l = (g, false))) as [-> | D1]; destruct (bool_decide_reflect (r = (g, true))) as [-> | D2]; cbn [andb] in H.
  - left. split; [by intros []|done].
  - right. left. exists true. split; [done|]. split; [cbn; congruence|done].
  - right. left. exists false. split; [done|]. split; [cbn; congruence|done].
  - right. right. split; [congruence|]. split; [congruence|]. bnd H as d s1 E. apply is_dendrite_inv in E as (-> & w & w' & Wt & Wf & ->). fld in *.
    destruct (bool_decide_reflect (w = w')) as [-> | Dw]; [left|right]; (split; [congruence|done]).
Qed.

Lemma good_new_segment K a b s i s' : good s -> sane K s' i -> new_segment K a b s = (Ok i, s') -> good s'.
Proof.
  intros G SK H. assert (G0 := good_change CNone _ G). destruct (new_segment_cases _ _ _ _ _ _ (g_inv _ G) H) as [D [[_ ->]|(E1 & E2 & C)]]; [done|].
  destruct C as [(g & A & B & C)|[(pv & nx & w & root & A & B & C)|(pa & na & wa & pb & nb & wb & A & B & [[Dw C]|[Dw C]])]].
  - exact (good_new_wire _ G0 _ _ _ _ _ A B E1 E2 C).
  - exact (good_dendrite _ G0 _ _ _ _ _ _ _ _ A B E1 E2 C).
  - exact (good_split _ G0 _ _ _ _ _ _ _ _ _ _ _ SK A B E1 E2 C).
  - exact (good_join _ G0 _ _ _ _ _ _ _ _ _ _ A B E1 E2 C).
Qed.
Lemma good_delete_segment K g s u s' : good s -> (exposed s g -> whole s') -> delete_segment K g s = (Ok u, s') -> good s'.
Proof.
  intros G Hx H. assert (G0 := good_change CNone _ G). destruct (delete_segment_cases _ _ _ _ _ H) as [[N C]|[(tip & N1 & N2 & C)|(N1 & N2 & [[Dw C]|[Dw C]])]].
  - eapply (good_rm_wire _ G0); [|exact C]. intros c w Ww Pc. fld in *.
    assert (Wf : wir s !! (g, false) = Some w) by (rewrite <- Ww; apply (topo_lab _ _ _ _ _ (i_topo _ (g_inv _ G)) (N true))).
    assert (Wh : whole s'). { apply Hx. exists w. split; [done|]. split; [done|]. left. eauto. }
    destruct (rm_wire_op_eff _ _ _ _ (g_inv _ G0) C) as (_ & w' & gp & q & a & b & _ & W' & _ & _ & _ & _ & _ & _ & HP & _). fld in *.
    assert (w' = w) as -> by congruence.
    assert (Dc : c <> w) by (intros ->; by apply (n_self _ _ _ (g_nest _ G) w)).
    assert (Pc' : par_of s' !! c = Some (Some w)) by (rewrite HP, lookup_delete_ne by done; done).
    destruct (Wh c ltac:(eauto)) as [U _]. apply up_next with (q := w) in U; [|by apply (n_ne _ _ _ (g_nest _ G) _ _ Pc)|done].
    destruct (good_live _ _ _ G Ww) as [D0 _]. inversion U as [|? ? ? X]; subst; [done|]. rewrite HP, lookup_delete in X. done.
  - exact (good_rm_dendrite _ G0 _ _ _ _ N1 N2 C).
  - eapply (good_cut _ G0); [exact N1|exact N2| |exact C]. fld. intros w x Ww Lw Ow. apply Hx. exists w. split; [done|]. split; [congruence|]. right. eauto.
  - exact (good_merge _ G0 _ _ _ N1 N2 Dw C).
Qed.

Lemma vec_both s s' i a b x y : inv s -> vec_ok s -> vec s !! i = None -> vtx s' = both (vtx s) i a b -> xy_of s' = xy_of s ->
  xy_of s !! a = Some x -> xy_of s !! b = Some y -> vec s' = <[i := vminus y x]> (vec s) -> vec_ok s'.
Proof.
  intros I V Fi HV HX Xa Xb Hv g a' b' x' y' Va Vb Xa' Xb'. rewrite HV in Va, Vb. rewrite HX in Xa', Xb'. rewrite Hv. destruct (decide (g = i)) as [-> | D].
  - rewrite both_f in Va. rewrite both_t in Vb. rewrite lookup_insert. congruence.
  - rewrite both_ne in Va, Vb by done. rewrite lookup_insert_ne by done. by eapply V.
Qed.
Lemma vec_dels s s' g : vec_ok s -> vtx s' = dels (vtx s) g -> xy_of s' = xy_of s -> vec s' = delete g (vec s) -> vec_ok s'.
Proof.
  intros V HV HX Hv g' a b x y Va Vb Xa Xb. rewrite HV in Va, Vb. rewrite HX in Xa, Xb. destruct (decide (g' = g)) as [-> | D]; [by rewrite dels_in in Va|].
  rewrite dels_ne in Va, Vb by done. rewrite Hv, lookup_delete_ne by done. by eapply V.
Qed.
Lemma vec_new_segment K a b s i s' : good s -> vec_ok s -> new_segment K a b s = (Ok i, s') -> vec_ok s'.
Proof.
  intros G V H. assert (I0 := inv_change CNone _ (g_inv _ G)). assert (V0 : vec_ok (set_change CNone s)) by exact V.
  destruct (new_segment_cases _ _ _ _ _ _ (g_inv _ G) H) as [D [[_ ->]|(E1 & E2 & C)]]; [done|].
  destruct C as [(g & A & B & C)|[(pv & nx & w & root & A & B & C)|(pa & na & wa & pb & nb & wb & A & B & [[Dw C]|[Dw C]])]].
  - destruct (new_wire_op_eff _ _ _ _ _ _ I0 A B E1 E2 C) as (_ & w & q & _ & _ & _ & _ & _ & _ & _ & _ & Fi & HV & HX & _ & _ & _ & _ & (x & y & Xa & Xb & Hv) & _).
    exact (vec_both _ _ _ _ _ _ _ I0 V0 Fi HV HX Xa Xb Hv).
  - destruct (add_dendrite_eff _ _ _ _ _ _ _ _ _ I0 A B E1 E2 C) as (_ & _ & _ & _ & Fi & HV & HX & _ & _ & _ & _ & (x & y & Xa & Xb & Hv) & _).
    exact (vec_both _ _ _ _ _ _ _ I0 V0 Fi HV HX Xa Xb Hv).
  - destruct (split_poly_eff _ _ _ _ _ _ _ _ _ _ _ _ I0 A B E1 E2 C) as (_ & left & n & g & o & q0 & on & sel & par1 & pol1 & _ & _ & _ & _ & _ & _ & _ & _ & _ & Fi & HV & HX & _ & _ & _ & _ & _ & _ & (x & y & Xa & Xb & Hv) & _).
    exact (vec_both _ _ _ _ _ _ _ I0 V0 Fi HV HX Xa Xb Hv).
  - destruct (join_wires_eff _ _ _ _ _ _ _ _ _ _ _ I0 A B E1 E2 C) as (_ & g & o & side & keep & rm & up' & xrm & _ & _ & _ & _ & _ & _ & _ & _ & _ & _ & _ & _ & _ & _ & _ & Fi & HV & HX & _ & _ & _ & _ & _ & (x & y & Xa & Xb & Hv) & _).
    exact (vec_both _ _ _ _ _ _ _ I0 V0 Fi HV HX Xa Xb Hv).
Qed.
Lemma vec_delete_segment K g s u s' : good s -> vec_ok s -> delete_segment K g s = (Ok u, s') -> vec_ok s'.
Proof.
  intros G V H. assert (I0 := inv_change CNone _ (g_inv _ G)). assert (V0 : vec_ok (set_change CNone s)) by exact V.
  destruct (delete_segment_cases _ _ _ _ _ H) as [[N C]|[(tip & N1 & N2 & C)|(N1 & N2 & [[Dw C]|[Dw C]])]].
  - destruct (rm_wire_op_eff _ _ _ _ I0 C) as (_ & w & gp & q & a & b & _ & _ & _ & _ & _ & _ & _ & _ & _ & _ & _ & _ & _ & _ & _ & HV & HX & _ & _ & Hv & _).
    exact (vec_dels _ _ g V0 HV HX Hv).
  - destruct (rm_dendrite_eff _ _ _ _ _ I0 N1 N2 C) as (_ & w & gp & m & k & pt & pr & sg1 & _ & _ & _ & _ & _ & _ & _ & _ & _ & _ & _ & _ & _ & HV & HX & _ & _ & Hv & _).
    exact (vec_dels _ _ g V0 HV HX Hv).
  - destruct (split_wire_eff _ _ _ _ _ I0 N1 N2 C) as (_ & wa & wb & gp & m0 & m1 & ka & kb & a & b & _ & _ & _ & _ & _ & _ & _ & _ & _ & HV & HX & _ & _ & _ & _ & _ & _ & Hv & _).
    exact (vec_dels _ _ g V0 HV HX Hv).
  - destruct (join_poly_eff _ _ _ _ I0 (good_nested _ (good_change CNone _ G) g) N1 N2 Dw C) as (_ & keep & rm & kp & n & m0 & m1 & ka & kb & a & b & xrm & _ & _ & _ & _ & _ & _ & _ & _ & _ & _ & _ & _ & _ & _ & _ & HV & HX & _ & _ & _ & _ & _ & Hv & _).
    exact (vec_dels _ _ g V0 HV HX Hv).
Qed.
Lemma vec_mid e mid s i s' : good s -> vec_ok s -> seg_of s !! mid = Some None -> split_segment e mid s = (Ok i, s') -> vec_ok s'.
Proof.
  intros G V Mm H. destruct (split_segment_eff _ _ _ _ _ (g_inv _ G) Mm H) as (I' & nx & pv & a & b & wt & wf & xa & xb & xm & kb & Nt & Np & Va & Vb & Wt & Wf & Fi & Db & Da & Xa & Xb & Xm & HV & HN & HW & Hw & HO & HX & Hv & _ & _ & _).
  destruct (fresh_sides _ _ (g_inv _ G) Fi) as [Fv _]. assert (Dei : e <> i) by (intros ->; by rewrite Fv in Va).
  intros g a' b' x' y' Va' Vb' Xa' Xb'. rewrite HV in Va', Vb'. unfold vm in Va', Vb'. rewrite HX in Xa', Xb'. rewrite Hv. destruct (decide (g = e)) as [-> | De].
  - rewrite lookup_insert in Vb'. rewrite lookup_insert_ne in Va' by done. rewrite both_ne in Va' by done. rewrite lookup_insert. congruence.
  - rewrite lookup_insert_ne in Va', Vb' by congruence. rewrite lookup_insert_ne by done. destruct (decide (g = i)) as [-> | Di].
    + rewrite both_f in Va'. rewrite both_t in Vb'. rewrite lookup_insert. congruence.
    + rewrite both_ne in Va', Vb' by done. rewrite lookup_insert_ne by done. by eapply V.
Qed.

(** * All histories *)
Lemma vec_ok_init : vec_ok init.
Proof. intros g a b x y H. done. Qed.
Lemma good_init : good init.
Proof.
  assert (E1 : par_of init = {[0 := None]}) by (unfold init; cbn [wires polys]; by rewrite map_fmap_singleton).
  assert (E2 : pol_of init = {[0 := Some 0]}) by (unfold init; cbn [wires polys]; by rewrite map_fmap_singleton).
  assert (E3 : outer_of init = {[0 := 0]}) by (unfold init; cbn [wires polys]; by rewrite map_fmap_singleton).
  assert (S0 : forall (P : nat -> Prop), (forall i, ~ P i) -> forall n, src_ok (Src [] n) P).
  { intros P H n. split; [constructor|]. split; [by intros i ?%elem_of_nil|]. intros i X. by apply H in X. }
  assert (S1 : forall A (m : A), src_ok (Src [] 1) (fun i => is_Some (({[0 := m]} : gmap nat A) !! i))).
  { intros A m. split; [constructor|]. split; [by intros i ?%elem_of_nil|]. intros i X. cbn. destruct (decide (i = 0)) as [-> | D]; [lia|].
    rewrite lookup_singleton_ne in X by done. by destruct X. }
  constructor.
  - constructor.
    + constructor.
      * split; [intros h h' k X|intros h k X]; done.
      * intros h. done.
      * split; [intros h|intros h k x y X; done]. rewrite rot_lookup. cbn [init nxt vtx]. rewrite !lookup_empty. split; by intros [].
      * split; [intros h; cbn [init nxt wir]; rewrite !lookup_empty; split; by intros []|intros h k x y X; done].
      * intros h p X. done.
    + cbn [init points vtx]. rewrite fmap_empty. split; [|split]; intros ? ? X; try done; by rewrite lookup_empty in X.
    + split; [intros p x X; done|]. intros g y p X Y. cbn [init polys] in X. apply lookup_singleton_Some in X as [_ <-]. set_solver.
    + intros g. cbn [init vec vtx]. rewrite !lookup_empty. split; by intros [].
    + split; intros a b g; cbn [init p2s vtx]; rewrite !lookup_empty; [|done]. split; [done|]. by intros [? _].
    + intros h w X. done.
    + intros h w X. done.
    + apply S0. intros i [? X]. done.
    + apply S0. intros i [? X]. done.
    + rewrite E1. apply S1.
    + rewrite E3. apply S1.
  - split.
    + intros x c (wx & X & Y). cbn [init wires] in X. apply lookup_singleton_Some in X as [_ <-]. set_solver.
    + intros x c X. rewrite E1 in X. by apply lookup_singleton_Some in X as [_ ?].
  - rewrite E1, E2, E3. constructor.
    + intros w. destruct (decide (w = 0)) as [-> | D]; [by rewrite !lookup_singleton; split; eauto|by rewrite !lookup_singleton_ne].
    + intros g o X. apply lookup_singleton_Some in X as [<- <-]. apply lookup_singleton.
    + intros w [x X]. apply lookup_singleton_Some in X as [<- _]. exists 0, 0. rewrite !lookup_singleton. auto.
    + intros c o g X. by apply lookup_singleton_Some in X as [_ ?].
    + intros w [x X]. apply lookup_singleton_Some in X as [<- _]. apply rtc_refl.
    + apply lookup_singleton.
    + apply lookup_singleton.
  - rewrite E1. intros w [x X] D. apply lookup_singleton_Some in X as [<- _]. done.
  - rewrite E3. intros w [x X]. apply lookup_singleton_Some in X as [<- _]. apply rtc_refl.
  - rewrite E1, E3, !map_size_singleton. reflexivity.
Qed.
Lemma good_run K o s r s' : good s -> run K o s = (Ok r, s') -> proper K s o r s' -> good s'.
Proof.
  intros G H Pr. destruct o as [v g|p|a b|e|e p|p v|p e n]; cbn [run proper] in *.
  - destruct (add_free_point_eff _ _ _ _ _ (g_inv _ G) H) as (I' & x & c & Ex & _ & ->). apply (good_same s); try done.
    fld. by apply (fmap_insert_same _ _ _ x).
  - bnd H as u s1 E. apply ret_inv in H as [_ ->]. destruct (remove_free_point_eff _ _ _ _ (g_inv _ G) E) as (I' & x & g & y & _ & _ & _ & Ey & ->).
    apply (good_same s); try done. fld. by apply (fmap_insert_same _ _ _ y).
  - by eapply good_new_segment.
  - bnd H as u s1 E. apply ret_inv in H as [_ ->]. by eapply good_delete_segment.
  - destruct Pr as (x & Ex & Es). eapply (good_mid _ G); [|exact H]. by rewrite lookup_fmap, Ex; cbn; rewrite Es.
  - bnd H as u s1 E. apply ret_inv in H as [_ ->]. destruct (move_eff _ _ _ _ _ (g_inv _ G) E) as (I' & x & V & Ex & -> & HV & _).
    by apply (good_same s).
  - destruct Pr as (A & B & C). eapply good_unmid; [exact G|exact A|exact B|exact C|exact H].
Qed.
Lemma vec_run K o s r s' : good s -> vec_ok s -> run K o s = (Ok r, s') -> proper K s o r s' -> (forall p e n, o <> JoinSegments p e n) -> vec_ok s'.
Proof.
  intros G Vo H Pr NJ. destruct o as [v g|p|a b|e|e p|p v|p e n]; cbn [run proper] in *.
  - destruct (add_free_point_eff _ _ _ _ _ (g_inv _ G) H) as (I' & x & c & Ex & Fp & ->). destruct (i_pts _ (g_inv _ G)) as (_ & _ & P3).
    intros g' a b xa xb Va Vb Xa Xb. fld in *.
    assert (D : forall q z, vtx s !! q = Some z -> z <> r).
    { intros q z Vq ->. destruct (P3 _ _ Vq) as [? X]. rewrite lookup_fmap, Fp in X. done. }
    rewrite fmap_insert, lookup_insert_ne in Xa, Xb by (apply not_eq_sym; by eapply D). by eapply Vo.
  - bnd H as u s1 E. apply ret_inv in H as [_ ->]. destruct (remove_free_point_eff _ _ _ _ (g_inv _ G) E) as (I' & x & g & y & _ & _ & _ & Ey & ->).
    intros g' a b xa xb Va Vb Xa Xb. fld in *. rewrite fmap_delete in Xa, Xb. apply lookup_delete_Some in Xa as [_ Xa], Xb as [_ Xb]. by eapply Vo.
  - by eapply vec_new_segment.
  - bnd H as u s1 E. apply ret_inv in H as [_ ->]. by eapply vec_delete_segment.
  - destruct Pr as (x & Ex & Es). eapply (vec_mid _ _ _ _ _ G Vo); [|exact H]. by rewrite lookup_fmap, Ex; cbn; rewrite Es.
  - bnd H as u s1 E. apply ret_inv in H as [_ ->]. destruct (move_eff _ _ _ _ _ (g_inv _ G) E) as (I' & x & V & Ex & -> & _ & HV).
    intros g a b xa xb Va Vb Xa Xb. fld in *. destruct (HV _ _ _ _ _ Va Vb Xa Xb) as [X|(X & Da & Db)]; [done|]. rewrite X.
    rewrite fmap_insert, lookup_insert_ne in Xa, Xb by done. by eapply Vo.
  - by destruct (NJ p e n).
Qed.
Lemma history_good s : history s -> good s.
Proof. induction 1 as [|K o s r s' _ G H Pr]; [apply good_init|by eapply good_run]. Qed.
Lemma plain_history s : plain s -> history s.
Proof. induction 1 as [|K o s r s' _ G H Pr _]; [constructor|by eapply hist_next]. Qed.
Lemma plain_vec s : plain s -> vec_ok s.
Proof.
  induction 1 as [|K o s r s' P V H Pr NJ]; [apply vec_ok_init|]. eapply vec_run; [|exact V|exact H|exact Pr|exact NJ]. by apply history_good, plain_history.
Qed.
