(** The segments that a new line crosses are split. *)
From stdpp Require Import gmap list.
From Coq Require Import Lia QArith Lqa.
From Verif Require Import Decomp_Model Decomp_Spec Decomp_Surgery Decomp_Eff Decomp_Inv Decomp_Good Decomp_Mid Decomp_Hist Editor_Model Editor_Spec Editor_Proofs Editor_Undo.
From Verif Require Import Aabb_Model Aabb_Spec Aabb_Proofs Editor_Box Geom_Model Snap_Model Snap_Spec Snap_Proofs Snap_Cand Snap_Main Snap_Add Snap_Split Line_Model Line_Spec Line_Geo.
Local Open Scope nat_scope.

(** A segment that was split: its id, the new point, the new segment, the place and its parameter on the line (polygons.py lines 583-584). *)
Record cut := Cut { c_g : nat; c_m : nat; c_n : nat; c_w : vect; c_p : Q }.

Lemma add_point_vec v g d p d' : einv d -> Editor_Model.add_point v g d = (Ok p, d') -> vec (dec d') = vec (dec d).
Proof.
  intros I H. apply add_point_inv in H as (s & x & b & t & H & X & B & T & ->). cbn [dec].
  destruct (add_free_point_eff _ _ _ _ _ (g_inv _ (e_good _ I)) H) as (_ & y & c & Y & F & E). by rewrite E.
Qed.
Lemma split_vec e mid d n d' : einv d -> loose (dec d) mid -> split_seg e mid d = (Ok n, d') ->
  (forall h, h <> e -> h <> n -> vec (dec d') !! h = vec (dec d) !! h) /\ is_Some (vec (dec d') !! n) /\ is_Some (vec (dec d') !! e).
Proof.
  intros I Lo H. apply split_seg_inv in H as (s & a & b & x & y & bx & t & H & Va & Vb & X & Y & B & T & ->). cbn [dec].
  assert (Mm : seg_of (dec d) !! mid = Some None) by (destruct Lo as (z & Ez & Es); rewrite lookup_fmap, Ez; cbn; by rewrite Es).
  assert (I0 := g_inv _ (e_good _ I)).
  destruct (split_segment_eff _ _ _ _ _ I0 Mm H) as (_ & nx & pv & a0 & b0 & wt & wf & xa & xb & xm & kb & Nt & Np & Va0 & Vb0 & Wt & Wf & Fi & Db & Da & Xa & Xb & Xm & HV & HN & HW & Hw & HO & HX & Hv & _ & _ & _).
  assert (NE : n <> e). { intros ->. destruct (fresh_sides _ _ I0 Fi) as (F & _). congruence. }
  rewrite Hv. split; [|split].
  - intros h H1 H2. rewrite !lookup_insert_ne by congruence. done.
  - rewrite lookup_insert_ne by congruence. rewrite lookup_insert. eauto.
  - rewrite lookup_insert. eauto.
Qed.

(** What a number of cuts has done. *)
Record after_cuts (d d1 : ed) (cs : list cut) : Prop := AfterCuts {
  ac_edits : edits d1;
  ac_tol : tolerance d1 = tolerance d;
  ac_pts : forall p v, is_at (dec d1) p v <-> is_at (dec d) p v \/ exists c, In c cs /\ p = c_m c /\ v = c_w c;
  ac_newp : forall c, In c cs -> (xy <$> points (dec d)) !! c_m c = None;
  ac_news : forall c, In c cs -> vec (dec d) !! c_n c = None;
  ac_g : NoDup (c_g <$> cs); ac_m : NoDup (c_m <$> cs); ac_n : NoDup (c_n <$> cs);
  ac_old : forall g, is_Some (vec (dec d) !! g) -> g ∉ c_g <$> cs -> vec (dec d1) !! g = vec (dec d) !! g /\ forall c, vtx (dec d1) !! (g, c) = vtx (dec d) !! (g, c);
  ac_cut : forall c, In c cs -> is_Some (vec (dec d) !! c_g c) /\ exists a b, vtx (dec d) !! (c_g c, false) = Some a /\ vtx (dec d) !! (c_g c, true) = Some b /\
    vtx (dec d1) !! (c_g c, false) = Some a /\ vtx (dec d1) !! (c_g c, true) = Some (c_m c) /\ vtx (dec d1) !! (c_n c, false) = Some (c_m c) /\ vtx (dec d1) !! (c_n c, true) = Some b;
  ac_live : forall g, is_Some (vec (dec d1) !! g) <-> is_Some (vec (dec d) !! g) \/ g ∈ c_n <$> cs }.
Lemma cuts_none d : edits d -> after_cuts d d [].
Proof.
  intros E. constructor; try done; try constructor.
  - by left.
  - intros [H|(c & [] & _)]; done.
  - by left.
  - intros [H|H]; [done|]. cbn in H. by apply elem_of_nil in H.
Qed.
Lemma in_fmap {A B} (f : A -> B) x l : In x l -> f x ∈ f <$> l.
Proof. intros H. apply elem_of_list_fmap. exists x. split; [done|]. by apply elem_of_list_In. Qed.
Lemma cuts_more (K : geometry) d d1 cs g w t m n d2 d3 : after_cuts d d1 cs -> is_Some (vec (dec d) !! g) -> g ∉ c_g <$> cs ->
  Editor_Model.add_point w 0 d1 = (Ok m, d2) -> split_seg g m d2 = (Ok n, d3) -> (forall x y, ends (dec d1) g x y -> between x y w) -> after_cuts d d3 (Cut g m n w t :: cs).
Proof.
  intros [ED TO PT NP NS Gg Gm Gn OL CU LI] Lg Ng H S BT. assert (I := edits_einv _ ED). destruct (add_point_at _ _ _ _ _ I H) as (T1 & AT & Fm & X1 & V1 & Lo). destruct (grow_polygon K _ _ _ _ _ ED H) as [ED2 _]. assert (I2 := edits_einv _ ED2).
  destruct (grow_split K _ _ _ _ _ _ _ ED H S BT) as [ED3 (T3 & _ & X3)]. destruct (split_vtx _ _ _ _ _ I2 Lo S) as (a & b & Va & Vb & Nn & W1 & W2 & W3 & W4 & Fn & W5).
  destruct (split_vec _ _ _ _ _ I2 Lo S) as (U1 & U2 & U3). assert (VV := add_point_vec _ _ _ _ _ I H). rewrite V1 in Va, Vb. rewrite VV in Fn. rewrite VV in U1. rewrite V1 in W5.
  assert (Fn0 : vec (dec d) !! n = None). { destruct (vec (dec d) !! n) eqn:E; [|done]. exfalso. assert (Z : is_Some (vec (dec d1) !! n)) by (apply LI; left; eauto). rewrite Fn in Z. by destruct Z. }
  assert (Fnc : n ∉ c_n <$> cs). { intros Z. assert (Y : is_Some (vec (dec d1) !! n)) by (apply LI; by right). rewrite Fn in Y. by destruct Y. }
  assert (Fm0 : (xy <$> points (dec d)) !! m = None). { destruct ((xy <$> points (dec d)) !! m) as [v|] eqn:E; [|done]. exfalso. assert (Z : is_at (dec d1) m v) by (apply PT; by left). unfold is_at in Z. unfold vect in *. congruence. }
  assert (Fmc : m ∉ c_m <$> cs). { intros Z. apply elem_of_list_fmap in Z as (c & -> & Z). assert (Y : is_at (dec d1) (c_m c) (c_w c)) by (apply PT; right; exists c; split; [by apply elem_of_list_In|done]). unfold is_at in Y. unfold vect in *. congruence. }
  assert (Ngn : g ∉ c_n <$> cs). { intros Z. apply elem_of_list_fmap in Z as (c & -> & Z). apply elem_of_list_In in Z. rewrite (NS _ Z) in Lg. by destruct Lg. }
  destruct (OL g Lg Ng) as [OV OT].
  constructor; cbn [fmap list_fmap c_g c_m c_n c_w].
  - exact ED3.
  - congruence.
  - intros p v. unfold is_at. unfold vect in *. rewrite X3. destruct (decide (p = m)) as [-> | D].
    + rewrite lookup_insert. split.
      * intros E. injection E as <-. right. exists (Cut g m n w t). split; [by left|]. done.
      * intros [E|(c & [<- | C] & E1 & E2)]; [congruence|by subst v|]. exfalso. apply Fmc. rewrite E1. by apply in_fmap.
    + rewrite lookup_insert_ne by congruence. etransitivity; [exact (PT p v)|]. split; (intros [E|(c & C & E1 & E2)]; [by left|right]).
      * exists c. split; [by right|done].
      * destruct C as [<- | C]; [by cbn in E1|]. exists c. done.
  - intros c [<- | C]; [done|by apply NP].
  - intros c [<- | C]; [done|by apply NS].
  - by constructor.
  - by constructor.
  - by constructor.
  - intros h L N. apply not_elem_of_cons in N as [N1 N2]. destruct (OL h L N2) as [A B]. assert (hn : h <> n) by (intros ->; rewrite Fn0 in L; by destruct L).
    split; [rewrite U1 by done; done|]. intros c. rewrite W5 by done. done.
  - intros c [<- | C]; cbn [c_g c_m c_n].
    + split; [done|]. exists a, b. rewrite <- !OT. done.
    + destruct (CU c C) as (L & a' & b' & A1 & A2 & A3 & A4 & A5 & A6). split; [done|]. exists a', b'.
      assert (D1 : c_g c <> g) by (intros E; apply Ng; rewrite <- E; by apply in_fmap). assert (D2 : c_g c <> n) by (intros E; rewrite E, Fn0 in L; by destruct L).
      assert (D3 : c_n c <> g) by (intros E; apply Ngn; rewrite <- E; by apply in_fmap). assert (D4 : c_n c <> n) by (intros E; apply Fnc; rewrite <- E; by apply in_fmap).
      rewrite !W5 by done. done.
  - intros h. rewrite elem_of_cons. destruct (decide (h = n)) as [-> | D1]; [split; auto|]. destruct (decide (h = g)) as [-> | D2]; [split; auto|]. rewrite U1 by done. rewrite LI. split; intros [?|?]; auto. destruct H0; auto. done.
Qed.

(** The items of the dictionary. *)
Fixpoint ordered (l : list (Q * nat)) : Prop := match l with [] => True | x :: r => (forall y, In y r -> (fst x < fst y)%Q) /\ ordered r end.
Lemma put_in t m l : (forall y, In y l -> ~ (t == fst y)%Q) -> forall y, In y (put t m l) <-> y = (t, m) \/ In y l.
Proof.
  induction l as [|[u k] r IH]; intros N y; cbn.
  - split; [intros [<- | []]; by left|intros [-> | []]; by left].
  - destruct (Qeq_bool t u) eqn:E; [exfalso; apply (N (u, k)); [by left|by apply Qeq_bool_iff]|]. destruct (Qle_bool t u) eqn:L; cbn.
    + split; intros [H|H]; auto.
    + rewrite IH by (intros z Z; apply N; by right). tauto.
Qed.
Lemma put_ordered t m l : (forall y, In y l -> ~ (t == fst y)%Q) -> ordered l -> ordered (put t m l).
Proof.
  induction l as [|[u k] r IH]; intros N O; cbn; [done|]. destruct O as [O1 O2].
  destruct (Qeq_bool t u) eqn:E; [exfalso; apply (N (u, k)); [by left|by apply Qeq_bool_iff]|]. apply Qeq_bool_neq in E. destruct (Qle_bool t u) eqn:L; cbn.
  - apply Qle_bool_iff in L. assert (t < u)%Q by lra. split; [|done]. intros y [<- | Y]; [done|]. specialize (O1 _ Y). cbn in O1. lra.
  - assert (u < t)%Q. { destruct (Qlt_le_dec u t); [done|]. apply Qle_bool_iff in q. congruence. }
    split; [|apply IH; [intros z Z; apply N; by right|done]]. intros y Y. apply put_in in Y as [-> | Y]; [done|by apply O1|]. intros z Z; apply N; by right.
Qed.
