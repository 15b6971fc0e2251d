(** The steps of merging: a new point, a segment that is split, a new segment. *)
From stdpp Require Import gmap list relations functions.
From Coq Require Import Lia QArith Lqa.
From Verif Require Import Decomp_Model Decomp_Spec Decomp_Perm Decomp_Surgery Decomp_Eff Decomp_Tree Decomp_Inv Decomp_Add Decomp_Join Decomp_Split
  Decomp_Mid Decomp_Nest Decomp_Good Decomp_Hist Decomp_Told Editor_Model Editor_Spec Editor_Proofs Editor_Undo.
From Verif Require Import Aabb_Model Aabb_Spec Editor_Box Snap_Model Snap_Spec Snap_Proofs Snap_Cand Line_Model Line_Spec Line_Geo Line_Cut Line_Run Line_Segs Merge_Spec Merge_Sides.
Local Open Scope nat_scope.

Lemma size_xy (s : st) : size (xy_of s) = size (points s).
Proof. apply map_size_fmap. Qed.
Lemma is_at_xy s p v : is_at s p v <-> xy_of s !! p = Some v.
Proof. done. Qed.

(** * A new point *)
Record pointed (d d' : ed) (p : nat) (v : vect) : Prop := Pointed {
  pt_good : good (dec d'); pt_vecok : vec_ok (dec d) -> vec_ok (dec d'); pt_tol : tolerance d' = tolerance d;
  pt_new : points (dec d) !! p = None; pt_xy : xy_of (dec d') = <[p := v]> (xy_of (dec d));
  pt_vtx : vtx (dec d') = vtx (dec d); pt_vec : vec (dec d') = vec (dec d); pt_wir : wir (dec d') = wir (dec d); pt_wires : wires (dec d') = wires (dec d);
  pt_outer : outer_of (dec d') = outer_of (dec d); pt_loose : loose (dec d') p }.
Lemma point_eff v g d p d' : good (dec d) -> Editor_Model.add_point v g d = (Ok p, d') -> pointed d d' p v.
Proof.
  intros G H. apply add_point_inv in H as (s & x & b & t & H & X & B & T & ->). pose (K := Geometry (fun _ _ _ => 0%Q) (fun _ _ _ => false) (fun _ _ _ => false)).
  destruct (add_free_point_eff _ _ _ _ _ (g_inv _ G) H) as (_ & y & c & Y & F & E).
  constructor; cbn [dec tolerance]; try done; try (by rewrite E).
  - exact (good_run K (AddPoint v g) _ _ _ G H Logic.I).
  - intros V. apply (vec_run K (AddPoint v g) _ _ _ G V H Logic.I). done.
  - rewrite E. fld. apply fmap_insert.
  - rewrite E. fld. by apply (fmap_insert_same _ _ _ y).
  - exists (Pt v (Some g) None). split; [|done]. rewrite E. fld. by rewrite lookup_insert.
Qed.

(** * A new point on a segment *)
Record divided (d d' : ed) (e m n : nat) (w : vect) : Prop := Divided {
  dv_good : good (dec d'); dv_vecok : vec_ok (dec d'); dv_tol : tolerance d' = tolerance d;
  dv_new : points (dec d) !! m = None; dv_xy : xy_of (dec d') = <[m := w]> (xy_of (dec d));
  dv_fresh : vec (dec d) !! n = None; dv_ne : n <> e; dv_live : forall g, is_Some (vec (dec d') !! g) <-> g = n \/ is_Some (vec (dec d) !! g);
  dv_le : is_Some (vec (dec d) !! e);
  dv_vtx : exists a b, vtx (dec d) !! (e, false) = Some a /\ vtx (dec d) !! (e, true) = Some b /\ vtx (dec d') !! (e, false) = Some a /\ vtx (dec d') !! (e, true) = Some m /\
    vtx (dec d') !! (n, false) = Some m /\ vtx (dec d') !! (n, true) = Some b;
  dv_old : forall h, fst h <> e -> fst h <> n -> vtx (dec d') !! h = vtx (dec d) !! h;
  dv_vec : forall g, g <> e -> g <> n -> vec (dec d') !! g = vec (dec d) !! g;
  dv_outer : outer_of (dec d') = outer_of (dec d);
  dv_side : forall g c, g <> n -> poly_at (dec d') (g, c) = poly_at (dec d) (g, c); dv_sides : forall c, poly_at (dec d') (n, c) = poly_at (dec d) (e, c);
  dv_seg : exists x, points (dec d') !! m = Some x /\ p_seg x = Some (n, false); dv_nxt : nxt (dec d') !! (n, false) = Some (e, false); dv_nxt' : nxt (dec d') !! (e, true) = Some (n, true) }.
Lemma divide_eff (w : vect) e d m n d1 d' : good (dec d) -> vec_ok (dec d) -> Editor_Model.add_point w 0 d = (Ok m, d1) -> split_seg e m d1 = (Ok n, d') -> divided d d' e m n w.
Proof.
  intros G V H1 H2. destruct (point_eff _ _ _ _ _ G H1) as [G1 V1 T1 N1 X1 Vt1 Ve1 W1 Ws1 O1 L1]. specialize (V1 V).
  apply split_seg_inv in H2 as (s & a0 & b0 & x & y & bx & t & H & Va & Vb & X & Y & B & T & ->).
  assert (Mm : seg_of (dec d1) !! m = Some None) by (destruct L1 as (z & Ez & Es); rewrite lookup_fmap, Ez; cbn; by rewrite Es).
  assert (I1 := g_inv _ G1).
  destruct (split_segment_eff _ _ _ _ _ I1 Mm H) as (I' & nx & pv & a & b & wt & wf & xa & xb & xm & kb & Nt & Np & Va0 & Vb0 & Wt & Wf & Fi & Db & Da & Xa & Xb & Xm & HV & HN & HW & Hw & HO & HX & Hv & Hp & HS & HL).
  assert (NE : n <> e). { intros ->. destruct (fresh_sides _ _ I1 Fi) as (F & _). congruence. }
  assert (Fx : forall c, nxt (dec d1) !! (n, c) = None) by (intros c; apply (fresh_nxt _ _ I1 Fi)).
  constructor; cbn [dec tolerance].
  - exact (good_mid _ G1 _ _ _ _ Mm H).
  - exact (vec_mid _ _ _ _ _ G1 V1 Mm H).
  - done.
  - done.
  - by rewrite HX.
  - by rewrite <- Ve1.
  - done.
  - intros g. rewrite Hv, Ve1. destruct (decide (g = e)) as [-> | D1].
    + rewrite lookup_insert. split; [|eauto]. intros _. right. rewrite <- Ve1. apply (i_vec _ I1). eauto.
    + rewrite lookup_insert_ne by done. destruct (decide (g = n)) as [-> | D2]; [rewrite lookup_insert; split; eauto|]. rewrite lookup_insert_ne by done. split; [auto|]. intros [?|?]; done.
  - rewrite <- Ve1. apply (i_vec _ I1). eauto.
  - exists a, b. rewrite <- Vt1. rewrite HV. unfold vm, both. split; [done|]. split; [done|].
    do 3 (split; [rewrite ?lookup_insert_ne by congruence; rewrite ?lookup_insert; done|]). rewrite ?lookup_insert_ne by congruence; rewrite ?lookup_insert; done.
  - intros [h c] E1 E2. cbn in E1, E2. rewrite HV, <- Vt1. unfold vm, both. rewrite !lookup_insert_ne by congruence. done.
  - intros g D1 D2. rewrite Hv, Ve1. rewrite !lookup_insert_ne by done. done.
  - by rewrite HO.
  - intros g c D. rewrite !poly_at_sides. unfold sides. rewrite !lookup_omap. rewrite HW, Hw, both_ne by done. by rewrite W1, Ws1.
  - intros c. rewrite !poly_at_sides. unfold sides. rewrite !lookup_omap. rewrite HW, Hw. rewrite W1 in Wt, Wf. destruct c; [rewrite both_t, Wt|rewrite both_f, Wf]; by rewrite Ws1.
  - assert (Z : seg_of s !! m = Some (Some (n, false))) by (rewrite HS; apply lookup_insert). rewrite lookup_fmap in Z. destruct (points s !! m) as [z|]; [|done]. cbn in Z. injection Z as Z. eauto.
  - rewrite HN. exact (fm_f _ _ _ _ _ (i_topo _ I1) Fx _ _ _ Nt Np Vb0).
  - rewrite HN. exact (fm_e _ _ _ _ Fx _ _ _ Nt Np Vb0).
Qed.

(** * A new segment *)
Record linked_up (d d' : ed) (g a b : nat) : Prop := LinkedUp {
  lk_good : good (dec d'); lk_vecok : vec_ok (dec d'); lk_tol : tolerance d' = tolerance d; lk_xy : xy_of (dec d') = xy_of (dec d);
  lk_join : joins (dec d') g a b;
  lk_live : forall h, is_Some (vec (dec d') !! h) <-> h = g \/ is_Some (vec (dec d) !! h);
  lk_old : forall h c, is_Some (vec (dec d) !! h) -> vtx (dec d') !! (h, c) = vtx (dec d) !! (h, c);
  lk_vec : forall h, is_Some (vec (dec d) !! h) -> vec (dec d') !! h = vec (dec d) !! h;
  lk_polys : ((exists q, last_change (dec d') = CShape q) \/ last_change (dec d') = CNone) /\ (forall z, is_Some (outer_of (dec d') !! z) <-> is_Some (outer_of (dec d) !! z)) /\ (forall h z, poly_at (dec d) h = Some z -> poly_at (dec d') h = Some z) \/
    exists q n, (last_change (dec d') = CSplit q n \/ last_change (dec d') = CAdd q n) /\ outer_of (dec d) !! n = None /\ is_Some (outer_of (dec d) !! q) /\ (forall z, is_Some (outer_of (dec d') !! z) <-> z = n \/ is_Some (outer_of (dec d) !! z)) /\
    forall h z, poly_at (dec d) h = Some z -> poly_at (dec d') h = Some z \/ (z = q /\ poly_at (dec d') h = Some n) }.
Lemma steady_sane K s i : steady K -> sane K s i.
Proof. intros [A B]. split; [intros s1 a b; apply A|]. intros c a b _ _. apply B. Qed.
Lemma segment_eff K a b d g d' : good (dec d) -> vec_ok (dec d) -> steady K -> Editor_Model.add_segment K a b d = (Ok g, d') -> linked_up d d' g a b.
Proof.
  intros G V SK H. assert (I := g_inv _ G). assert (H0 := H). apply add_segment_inv in H as (s & x & y & bx & t & H & X & Y & B & T & ->).
  destruct (add_segment_plan _ _ _ _ _ _ I H0) as (_ & D & _ & _ & J & _). cbn [dec tolerance] in *.
  destruct (new_plan_inv _ _ _ _ _ _ I H) as (I' & _ & HX & C).
  assert (LV : forall h, is_Some (vec s !! h) <-> h = g \/ is_Some (vec (dec d) !! h)).
  { destruct C as [[E ->]|(Fi & HV & y0 & Hv)].
    - intros h. change (vec (set_change CNone (dec d))) with (vec (dec d)). split; [auto|]. intros [-> |?]; [|done]. apply (i_vec _ I). destruct (i_pair _ I) as [J1 _]. destruct E as [E|E]; apply J1 in E as [E1 E2]; eauto.
    - intros h. rewrite Hv. destruct (decide (h = g)) as [-> | Dh]; [rewrite lookup_insert; split; eauto|]. rewrite lookup_insert_ne by done. split; [auto|]. intros [?|?]; done. }
  constructor; cbn [dec tolerance].
  - exact (good_new_segment _ _ _ _ _ _ G (steady_sane K s g SK) H).
  - exact (vec_new_segment _ _ _ _ _ _ G V H).
  - done.
  - done.
  - done.
  - done.
  - intros h c L. destruct C as [[E ->]|(Fi & HV & y0 & Hv)]; [done|]. rewrite HV, both_ne; [done|]. cbn. intros ->. rewrite Fi in L. by destruct L.
  - intros h L. destruct C as [[E ->]|(Fi & HV & y0 & Hv)]; [done|]. rewrite Hv, lookup_insert_ne; [done|]. intros ->. rewrite Fi in L. by destruct L.
  - exact (new_segment_sides _ _ _ _ _ _ G (steady_sane K s g SK) H).
Qed.

(** * What is kept *)
Record keeps (s0 s : st) (o1 o2 : nat -> nat) : Prop := Keeps {
  k_good : good s; k_vecok : vec_ok s;
  k_pts : forall p v, is_at s0 p v -> is_at s p v;
  k_seg : forall h, is_Some (vec s0 !! h) -> is_Some (vec s !! h) /\ o1 h = h;
  k_on : forall h w, is_Some (vec s0 !! h) -> (on s0 h w <-> exists g, is_Some (vec s !! g) /\ o1 g = h /\ on s g w);
  k_poly : forall z, is_Some (outer_of s0 !! z) -> is_Some (outer_of s !! z) /\ o2 z = z;
  k_polys : forall z, is_Some (outer_of s !! z) -> is_Some (outer_of s0 !! o2 z);
  k_side : forall g c z, is_Some (vec s !! g) -> is_Some (vec s0 !! o1 g) -> poly_at s (g, c) = Some z -> poly_at s0 (o1 g, c) = Some (o2 z) }.
Lemma on_live s g w : inv s -> on s g w -> is_Some (vec s !! g).
Proof. intros I (x & y & (a & b & A & _) & _). apply (i_vec _ I). eauto. Qed.
Lemma keeps_refl s : good s -> vec_ok s -> keeps s s (fun x => x) (fun x => x).
Proof.
  intros G V. constructor; try done.
  intros h w L. split; [intros O; eauto|]. intros (g & _ & -> & O). done.
Qed.
Lemma keeps_ext s0 s o1 o2 o1' o2' : (forall g, is_Some (vec s !! g) -> o1' g = o1 g) -> (forall z, is_Some (outer_of s !! z) -> o2' z = o2 z) -> keeps s0 s o1 o2 -> keeps s0 s o1' o2'.
Proof.
  intros E1 E2 [G V P S O Z ZS SI]. constructor; try done.
  - intros h L. destruct (S h L) as [A B]. split; [done|]. by rewrite E1.
  - intros h w L. rewrite O by done. split; intros (g & A & B & C); exists g; (split; [done|]; split; [|done]); [by rewrite E1|by rewrite <- E1].
  - intros z L. destruct (Z z L) as [A B]. split; [done|]. by rewrite E2.
  - intros z L. rewrite E2 by done. by apply ZS.
  - intros g c z L L0 A. rewrite E1 in L0 |- * by done. rewrite E2; [by apply SI|]. destruct (side_poly s g c G L) as (z' & A' & B'). congruence.
Qed.
(** Drawn as before. *)
Lemma keeps_point s0 d d' p v o1 o2 : keeps s0 (dec d) o1 o2 -> pointed d d' p v -> keeps s0 (dec d') o1 o2.
Proof.
  intros [G V P S O Z ZS SI] [G1 V1 T1 N1 X1 Vt1 Ve1 W1 Ws1 O1 L1].
  assert (EE : forall g x y, is_Some (vec (dec d) !! g) -> ends (dec d') g x y <-> ends (dec d) g x y).
  { intros g x y L. destruct (i_pts _ (g_inv _ G)) as (_ & _ & P3). unfold ends. change (xy <$> points (dec d')) with (xy_of (dec d')). change (xy <$> points (dec d)) with (xy_of (dec d)). rewrite Vt1, X1.
    assert (D : forall h q, vtx (dec d) !! h = Some q -> p <> q). { intros h q E ->. destruct (P3 _ _ E) as [? Q]. rewrite lookup_fmap, N1 in Q. done. }
    split; intros (a & b & A & B & C & C'); exists a, b; (split; [done|]; split; [done|]); [rewrite lookup_insert_ne in C, C' by (by eapply D); done|].
    rewrite !lookup_insert_ne by (by eapply D). done. }
  assert (PA : forall h, poly_at (dec d') h = poly_at (dec d) h) by (intros h; unfold poly_at; by rewrite W1, Ws1).
  constructor; try done.
  - by apply V1.
  - intros q u A. apply is_at_xy. rewrite X1, lookup_insert_ne; [by apply P|]. intros ->. apply P in A. unfold is_at in A. rewrite lookup_fmap, N1 in A. done.
  - rewrite Ve1. done.
  - intros h w L. rewrite O by done. rewrite Ve1. split; intros (g & A & B & x & y & C & D); exists g; (split; [done|]; split; [done|]); exists x, y; (split; [|done]); by apply EE.
  - rewrite O1. done.
  - rewrite O1. done.
  - rewrite Ve1. intros g c z L L0. rewrite PA. by apply SI.
Qed.
Lemma between_split x y w z : between x y w -> between x y z <-> between x w z \/ between w y z.
Proof.
  intros W. apply between_along in W as (t & T & A). change (same w (along x y t)) in A.
  split.
  - intros Z. apply between_along in Z as (u & U & B). change (same z (along x y u)) in B. destruct (Qlt_le_dec u t) as [L|L].
    + left. apply (in_part x y 0 t u z x w); [lra|apply same_sym, along_zero; reflexivity|exact A|lra|exact B].
    + destruct (Qlt_le_dec t 1) as [L'|L'].
      * right. apply (in_part x y t 1 u z w y); [lra|exact A|apply same_sym, along_one; reflexivity|lra|exact B].
      * right. apply between_same with (w := w); [|apply between_start]. eapply same_trans; [exact A|]. eapply same_trans; [|apply same_sym; exact B]. apply along_eq. lra.
  - intros [Z|Z].
    + destruct (part_in x y 0 t z x w) as (u & U & B); [lra|apply same_sym, along_zero; reflexivity|exact A|exact Z|]. apply between_along. exists u. split; [lra|exact B].
    + destruct (part_in x y t 1 z w y) as (u & U & B); [lra|exact A|apply same_sym, along_one; reflexivity|exact Z|]. apply between_along. exists u. split; [lra|exact B].
Qed.
(** The places on the parts of a segment. *)
Lemma divided_on d d' e m n w : good (dec d) -> divided d d' e m n w -> on (dec d) e w ->
  (forall z, on (dec d) e z <-> on (dec d') e z \/ on (dec d') n z) /\ forall g z, g <> e -> g <> n -> on (dec d') g z <-> on (dec d) g z.
Proof.
  intros G DV (x & y & E & W). destruct (i_pts _ (g_inv _ G)) as (_ & _ & P3). destruct (dv_vtx _ _ _ _ _ _ DV) as (a & b & A & B & A' & M' & M'' & B').
  assert (D : forall h q, vtx (dec d) !! h = Some q -> m <> q). { intros h q V ->. destruct (P3 _ _ V) as [? Q]. rewrite lookup_fmap, (dv_new _ _ _ _ _ _ DV) in Q. done. }
  destruct E as (a1 & b1 & A1 & B1 & X & Y). assert (a1 = a) as -> by congruence. assert (b1 = b) as -> by congruence.
  assert (XY := dv_xy _ _ _ _ _ _ DV).
  assert (Ea : xy_of (dec d') !! a = Some x) by (rewrite XY, lookup_insert_ne by (by eapply D); exact X). assert (Eb : xy_of (dec d') !! b = Some y) by (rewrite XY, lookup_insert_ne by (by eapply D); exact Y).
  assert (Em : xy_of (dec d') !! m = Some w) by (rewrite XY; apply lookup_insert).
  assert (F : forall s g x1 y1 x2 y2, ends s g x1 y1 -> ends s g x2 y2 -> x2 = x1 /\ y2 = y1) by (intros; by eapply ends_fun).
  assert (Ee : ends (dec d) e x y) by (exists a, b; done). assert (E1 : ends (dec d') e x w) by (exists a, m; done). assert (E2 : ends (dec d') n w y) by (exists m, b; done).
  split.
  - intros z. assert (Q := between_split x y w z W). split.
    + intros (x' & y' & E' & Z). destruct (F _ _ _ _ _ _ Ee E') as [-> ->]. apply Q in Z as [Z|Z]; [left|right]; [exists x, w|exists w, y]; done.
    + intros [(x' & y' & E' & Z)|(x' & y' & E' & Z)]; exists x, y; (split; [done|]); apply Q; [left; destruct (F _ _ _ _ _ _ E1 E') as [-> ->]|right; destruct (F _ _ _ _ _ _ E2 E') as [-> ->]]; done.
  - intros g z D1 D2. split; intros (x' & y' & (a' & b' & VA & VB & XA & XB) & Z); exists x', y'; (split; [|done]); exists a', b'.
    + rewrite !(dv_old _ _ _ _ _ _ DV) in VA, VB by done. split; [done|]. split; [done|]. change (xy_of (dec d') !! a' = Some x') in XA. change (xy_of (dec d') !! b' = Some y') in XB. rewrite XY, lookup_insert_ne in XA by (by eapply D). rewrite XY, lookup_insert_ne in XB by (by eapply D). done.
    + rewrite !(dv_old _ _ _ _ _ _ DV) by done. split; [done|]. split; [done|]. change (xy_of (dec d') !! a' = Some x' /\ xy_of (dec d') !! b' = Some y'). rewrite XY, !lookup_insert_ne by (by eapply D). done.
Qed.
Lemma keeps_divide s0 d d' e m n w o1 o2 : keeps s0 (dec d) o1 o2 -> divided d d' e m n w -> on (dec d) e w -> keeps s0 (dec d') (<[n := o1 e]> o1) o2.
Proof.
  intros [G V P S O Z ZS SI] DV W. destruct (divided_on _ _ _ _ _ _ G DV W) as [ON1 ON2].
  assert (Fn : forall g, is_Some (vec (dec d) !! g) -> n <> g) by (intros g L ->; rewrite (dv_fresh _ _ _ _ _ _ DV) in L; by destruct L).
  assert (LV := dv_live _ _ _ _ _ _ DV). assert (LE := dv_le _ _ _ _ _ _ DV). assert (NE := dv_ne _ _ _ _ _ _ DV).
  constructor.
  - apply DV.
  - apply DV.
  - intros q u A. apply is_at_xy. rewrite (dv_xy _ _ _ _ _ _ DV), lookup_insert_ne; [by apply P|]. intros ->. apply P in A. unfold is_at in A. rewrite lookup_fmap, (dv_new _ _ _ _ _ _ DV) in A. done.
  - intros h L. destruct (S h L) as [A B]. split; [apply LV; by right|]. rewrite fn_lookup_insert_ne by (by apply Fn). done.
  - intros h z L. rewrite O by done. split.
    + intros (g & A & B & C). destruct (decide (g = e)) as [-> | D].
      * apply ON1 in C as [C|C]; [exists e|exists n]; (split; [apply LV; auto|]; split; [|done]); [by rewrite fn_lookup_insert_ne|by rewrite fn_lookup_insert].
      * exists g. split; [apply LV; auto|]. rewrite fn_lookup_insert_ne by (by apply Fn). split; [done|]. apply ON2; [done| |done]. apply not_eq_sym. by apply Fn.
    + intros (g & A & B & C). destruct (decide (g = n)) as [-> | D].
      * rewrite fn_lookup_insert in B. exists e. split; [done|]. split; [done|]. apply ON1. by right.
      * rewrite fn_lookup_insert_ne in B by done. apply LV in A as [?|A]; [done|]. exists g. split; [done|]. split; [done|]. destruct (decide (g = e)) as [-> | D']; [apply ON1; by left|by apply ON2].
  - rewrite (dv_outer _ _ _ _ _ _ DV). done.
  - rewrite (dv_outer _ _ _ _ _ _ DV). done.
  - intros g c z A B C. destruct (decide (g = n)) as [-> | D].
    + rewrite fn_lookup_insert in B |- *. rewrite (dv_sides _ _ _ _ _ _ DV) in C. by apply SI.
    + rewrite fn_lookup_insert_ne in B |- * by done. apply LV in A as [?|A]; [done|]. rewrite (dv_side _ _ _ _ _ _ DV) in C by done. by apply SI.
Qed.
(** The next values for polygons. *)
Definition told_polys (s : st) (o2 : nat -> nat) : nat -> nat := match last_change s with CSplit q n | CAdd q n => <[n := o2 q]> o2 | _ => o2 end.
Lemma keeps_segment s0 d d' g a b o1 o2 : keeps s0 (dec d) o1 o2 -> linked_up d d' g a b -> (vec (dec d) !! g = None -> o1 g = g) -> keeps s0 (dec d') o1 (told_polys (dec d') o2).
Proof.
  intros [G V P S O Z ZS SI] LK FG.
  assert (ON : forall h z, is_Some (vec (dec d) !! h) -> on (dec d') h z <-> on (dec d) h z).
  { intros h z L. split; intros (x' & y' & (a' & b' & VA & VB & XA & XB) & B); exists x', y'; (split; [|done]); exists a', b'.
    - rewrite !(lk_old _ _ _ _ _ LK) in VA, VB by done. split; [done|]. split; [done|]. change (xy_of (dec d') !! a' = Some x') in XA. change (xy_of (dec d') !! b' = Some y') in XB. rewrite (lk_xy _ _ _ _ _ LK) in XA, XB. done.
    - rewrite !(lk_old _ _ _ _ _ LK) by done. split; [done|]. split; [done|]. change (xy_of (dec d') !! a' = Some x' /\ xy_of (dec d') !! b' = Some y'). rewrite (lk_xy _ _ _ _ _ LK). done. }
  assert (LV := lk_live _ _ _ _ _ LK).
  assert (NG : is_Some (vec (dec d) !! g) \/ ~ is_Some (vec s0 !! o1 g)).
  { destruct (vec (dec d) !! g) as [?|] eqn:E; [left; eauto|right]. rewrite (FG eq_refl). intros L. destruct (S g L) as [A _]. rewrite E in A. by destruct A. }
  assert (PL : (forall z, is_Some (outer_of s0 !! z) -> is_Some (outer_of (dec d') !! z) /\ told_polys (dec d') o2 z = z) /\ (forall z, is_Some (outer_of (dec d') !! z) -> is_Some (outer_of s0 !! told_polys (dec d') o2 z)) /\
    forall h c z z', is_Some (vec (dec d) !! h) -> poly_at (dec d) (h, c) = Some z -> poly_at (dec d') (h, c) = Some z' -> told_polys (dec d') o2 z' = o2 z).
  { unfold told_polys. destruct (lk_polys _ _ _ _ _ LK) as [(C & OU & PA)|(q & n & C & Fn & Lq & OU & PA)].
    - assert (X : match last_change (dec d') with CSplit q n | CAdd q n => <[n := o2 q]> o2 | _ => o2 end = o2) by (destruct C as [[q ->] | ->]; done). rewrite X. clear X.
      split; [intros z L; rewrite OU; by apply Z|]. split; [intros z L; apply ZS; by apply OU|]. intros h c z z' L A B. apply PA in A. congruence.
    - assert (X : match last_change (dec d') with CSplit q n | CAdd q n => <[n := o2 q]> o2 | _ => o2 end = <[n := o2 q]> o2) by (destruct C as [-> | ->]; done). rewrite X. clear X.
      assert (Dn : forall z, is_Some (outer_of (dec d) !! z) -> n <> z) by (intros z L ->; rewrite Fn in L; by destruct L).
      split; [|split].
      + intros z L. destruct (Z z L) as [A B]. split; [apply OU; by right|]. rewrite fn_lookup_insert_ne by (by apply Dn). done.
      + intros z L. apply OU in L as [-> |L]; [rewrite fn_lookup_insert; by apply ZS|]. rewrite fn_lookup_insert_ne by (by apply Dn). by apply ZS.
      + intros h c z z' L A B. destruct (side_poly _ h c G L) as (z1 & A1 & B1). assert (z1 = z) as -> by congruence. destruct (PA _ _ A) as [A'|[-> A']].
        * assert (z' = z) as -> by congruence. by rewrite fn_lookup_insert_ne by (by apply Dn).
        * assert (z' = n) as -> by congruence. by rewrite fn_lookup_insert. }
  destruct PL as (PL1 & PL2 & PL3).
  constructor.
  - apply LK.
  - apply LK.
  - intros q u A. apply is_at_xy. rewrite (lk_xy _ _ _ _ _ LK). by apply P.
  - intros h L. destruct (S h L) as [A B]. split; [apply LV; by right|done].
  - intros h z L. rewrite O by done. split.
    + intros (k & A & B & C). exists k. split; [apply LV; auto|]. split; [done|]. by apply ON.
    + intros (k & A & B & C). apply LV in A as [-> |A].
      * destruct NG as [NG|NG]; [|exfalso; apply NG; by rewrite B]. exists g. split; [done|]. split; [done|]. by apply ON.
      * exists k. split; [done|]. split; [done|]. by apply ON.
  - exact PL1.
  - exact PL2.
  - intros k c z A B C. assert (A' : is_Some (vec (dec d) !! k)) by (apply LV in A as [-> |A]; [destruct NG as [NG|NG]; [done|by destruct NG]|done]).
    destruct (side_poly _ k c G A') as (z0 & A1 & B1). rewrite (PL3 _ _ _ _ A' A1 C). by apply SI.
Qed.
