(** Proofs about the editor: the tables of boxes follow the decomposition. *)
From stdpp Require Import gmap list relations.
From Coq Require Import Lia QArith Lqa.
From Verif Require Import Aabb_Model Aabb_Spec Aabb_Proofs.
From Verif Require Import Decomp_Model Decomp_Spec Decomp_Perm Decomp_Surgery Decomp_Eff Decomp_Tree Decomp_Inv Decomp_Add Decomp_Join Decomp_Split
  Decomp_Del Decomp_Cut Decomp_Merge Decomp_Mid Decomp_Unmid Decomp_Planar Decomp_Nest Decomp_Good Decomp_Hist Decomp_Told Decomp_Back Decomp_Ids Editor_Model Editor_Spec.
Local Open Scope nat_scope.

(** * The plan after each operation of the decomposition *)
Lemma new_plan K a b s i s' : good s -> new_segment K a b s = (Ok i, s') -> a <> b /\ xy_of s' = xy_of s /\ exists x y, xy_of s !! a = Some x /\ xy_of s !! b = Some y /\
  (((p2s s !! (a, b) = Some i \/ p2s s !! (b, a) = Some i) /\ s' = set_change CNone s) \/
   (p2s s !! (a, b) = None /\ p2s s !! (b, a) = None /\ vec s !! i = None /\ vtx s' = both (vtx s) i a b /\ vec s' = <[i := vminus y x]> (vec s) /\ p2s s' = <[(a, b) := i]> (p2s s))).
Proof.
  intros G H. assert (I0 := inv_change CNone _ (g_inv _ G)). assert (X : (exists x, xy_of s !! a = Some x) /\ exists y, xy_of s !! b = Some y).
  { unfold new_segment in H. rd H as x Ex. rd H as y Ey. rewrite !lookup_fmap, Ex, Ey. cbn. eauto. }
  destruct X as [[x Xa] [y Xb]].
  destruct (new_segment_cases _ _ _ _ _ _ (g_inv _ G) H) as [D [[E ->]|(E1 & E2 & C)]]; (split; [done|]).
  { split; [done|]. exists x, y. auto. }
  enough (Z : xy_of s' = xy_of s /\ vec s !! i = None /\ vtx s' = both (vtx s) i a b /\ (exists x y, xy_of s !! a = Some x /\ xy_of s !! b = Some y /\ vec s' = <[i := vminus y x]> (vec s)) /\ p2s s' = <[(a, b) := i]> (p2s s)).
  { destruct Z as (Z1 & Z2 & Z3 & (x' & y' & Z4 & Z5 & Z6) & Z7). split; [done|]. exists x', y'. split; [done|]. split; [done|]. right. done. }
  destruct C as [(g & A & B & C)|[(pv & nx & w & root & A & B & C)|(pa & na & wa & pb & nb & wb & A & B & [[Dw C]|[Dw C]])]].
  - destruct (new_wire_op_eff _ _ _ _ _ _ I0 A B E1 E2 C) as (_ & w & q & _ & _ & _ & _ & _ & _ & _ & _ & Fi & HV & HX & _ & _ & _ & _ & Hv & Hp).
    split; [done|]. split; [done|]. split; [done|]. split; done.
  - destruct (add_dendrite_eff _ _ _ _ _ _ _ _ _ I0 A B E1 E2 C) as (_ & _ & _ & _ & Fi & HV & HX & _ & _ & _ & _ & Hv & Hp).
    split; [done|]. split; [done|]. split; [done|]. split; done.
  - destruct (split_poly_eff _ _ _ _ _ _ _ _ _ _ _ _ I0 A B E1 E2 C) as (_ & left & n & g & o & q0 & on & sel & par1 & pol1 & _ & _ & _ & _ & _ & _ & _ & _ & _ & Fi & HV & HX & _ & _ & _ & _ & _ & _ & Hv & Hp & _).
    split; [done|]. split; [done|]. split; [done|]. split; done.
  - destruct (join_wires_eff _ _ _ _ _ _ _ _ _ _ _ I0 A B E1 E2 C) as (_ & g & o & side & keep & rm & up' & xrm & _ & _ & _ & _ & _ & _ & _ & _ & _ & _ & _ & _ & _ & _ & _ & Fi & HV & HX & _ & _ & _ & _ & _ & Hv & Hp).
    split; [done|]. split; [done|]. split; [done|]. split; done.
Qed.
Lemma delete_plan K g s u s' : good s -> delete_segment K g s = (Ok u, s') -> xy_of s' = xy_of s /\ vtx s' = dels (vtx s) g /\ vec s' = delete g (vec s) /\
  exists a b, vtx s !! (g, false) = Some a /\ vtx s !! (g, true) = Some b /\ p2s s' = delete (b, a) (delete (a, b) (p2s s)).
Proof.
  intros G H. assert (I0 := inv_change CNone _ (g_inv _ G)).
  destruct (delete_segment_cases _ _ _ _ _ H) as [[N C]|[(tip & N1 & N2 & C)|(N1 & N2 & [[Dw C]|[Dw C]])]].
  - destruct (rm_wire_op_eff _ _ _ _ I0 C) as (_ & w & gp & q & a & b & _ & _ & _ & _ & _ & _ & _ & _ & _ & _ & _ & _ & Va & Vb & _ & HV & HX & _ & _ & Hv & Hp & _).
    split; [done|]. split; [done|]. split; [done|]. exists a, b. done.
  - destruct (rm_dendrite_eff _ _ _ _ _ I0 N1 N2 C) as (_ & w & gp & m & k & pt & pr & sg1 & _ & _ & _ & _ & _ & _ & _ & _ & _ & _ & Va & Vb & _ & HV & HX & _ & _ & Hv & Hp & _).
    split; [done|]. split; [done|]. split; [done|]. destruct tip; [exists pr, pt|exists pt, pr]; done.
  - destruct (split_wire_eff _ _ _ _ _ I0 N1 N2 C) as (_ & wa & wb & gp & m0 & m1 & ka & kb & a & b & _ & _ & _ & _ & _ & _ & Va & Vb & _ & HV & HX & _ & _ & _ & _ & _ & _ & Hv & Hp & _).
    split; [done|]. split; [done|]. split; [done|]. exists a, b. done.
  - destruct (join_poly_eff _ _ _ _ I0 (good_nested _ (good_change CNone _ G) g) N1 N2 Dw C) as (_ & keep & rm & kp & n & m0 & m1 & ka & kb & a & b & xrm & _ & _ & _ & _ & _ & _ & _ & _ & _ & _ & _ & _ & Va & Vb & _ & HV & HX & _ & _ & _ & _ & _ & Hv & Hp & _).
    split; [done|]. split; [done|]. split; [done|]. exists a, b. done.
Qed.

(** * Calls *)
Lemma ebind_inv {A B} (m : E A) (f : A -> E B) d r d' : ebind m f d = (Ok r, d') -> exists a d1, m d = (Ok a, d1) /\ f a d1 = (Ok r, d').
Proof. unfold ebind. destruct (m d) as [[a| |] d1]; [eauto|done|done]. Qed.
Lemma item_inv {A} (f : st -> option A) d r d' : item f d = (Ok r, d') -> d' = d /\ f (dec d) = Some r.
Proof. unfold item. destruct (f (dec d)); [|done]. by intros [= <- <-]. Qed.
Lemma on_dec_inv {A} (m : M A) d r d' : on_dec m d = (Ok r, d') -> exists s, m (dec d) = (Ok r, s) /\ d' = set_dec s d.
Proof. unfold on_dec. destruct (m (dec d)) as [x s]. intros [= -> <-]. eauto. Qed.
Lemma eret_inv {A} (a : A) d r d' : eret a d = (Ok r, d') -> r = a /\ d' = d.
Proof. by intros [= <- <-]. Qed.
Lemma push_inv u d r d' : push u d = (Ok r, d') -> d' = set_stack (u :: stack d) d.
Proof. by intros [= <- <-]. Qed.
Lemma add_p_box_inv i l d r d' : add_p_box i l d = (Ok r, d') -> exists b t, make_aabb l (tolerance d) = Some b /\ add_object (p_boxes d) i b = Some t /\ d' = set_p_boxes t d.
Proof. unfold add_p_box. destruct (make_aabb l _); [|done]. destruct (add_object _ _ _) eqn:E; [|done]. intros [= <- <-]. eauto. Qed.
Lemma add_s_box_inv i l d r d' : add_s_box i l d = (Ok r, d') -> exists b t, make_aabb l (tolerance d) = Some b /\ add_object (s_boxes d) i b = Some t /\ d' = set_s_boxes t d.
Proof. unfold add_s_box. destruct (make_aabb l _); [|done]. destruct (add_object _ _ _) eqn:E; [|done]. intros [= <- <-]. eauto. Qed.
Lemma rm_p_box_inv i d r d' : rm_p_box i d = (Ok r, d') -> exists t, rm_object (p_boxes d) i = Some t /\ d' = set_p_boxes t d.
Proof. unfold rm_p_box. destruct (rm_object _ _) eqn:E; [|done]. intros [= <- <-]. eauto. Qed.
Lemma rm_s_box_inv i d r d' : rm_s_box i d = (Ok r, d') -> exists t, rm_object (s_boxes d) i = Some t /\ d' = set_s_boxes t d.
Proof. unfold rm_s_box. destruct (rm_object _ _) eqn:E; [|done]. intros [= <- <-]. eauto. Qed.
Ltac ebnd H := let a := fresh "a" in let d := fresh "d" in let E := fresh "E" in apply ebind_inv in H as (a & d & E & H).
Ltac efld := cbn [dec p_boxes s_boxes tolerance stack cells set_dec set_p_boxes set_s_boxes set_stack set_cells].
Tactic Notation "efld" "in" "*" := cbn [dec p_boxes s_boxes tolerance stack cells set_dec set_p_boxes set_s_boxes set_stack set_cells] in *.

Lemma add_point_inv v g d p d' : add_point v g d = (Ok p, d') -> exists s (x : vect) b t, add_free_point v g (dec d) = (Ok p, s) /\ xy_of s !! p = Some x /\
  make_aabb [x] (tolerance d) = Some b /\ add_object (p_boxes d) p b = Some t /\ d' = Ed s t (s_boxes d) (tolerance d) (UnAddPoint p :: stack d) (cells d).
Proof.
  intros H. unfold add_point, xy_at in H. ebnd H. apply item_inv in E as [-> _]. ebnd H. apply on_dec_inv in E as (s & E & ->). ebnd H. apply item_inv in E0 as [-> X].
  ebnd H. apply add_p_box_inv in E0 as (b & t & B & T & ->). ebnd H. apply push_inv in E0 as ->. apply eret_inv in H as [-> ->]. efld in *.
  exists s, a1, b, t. split; [done|]. split; [by rewrite lookup_fmap|]. done.
Qed.
Lemma add_segment_inv K a b d i d' : add_segment K a b d = (Ok i, d') -> exists s (x y : vect) bx t, new_segment K a b (dec d) = (Ok i, s) /\ xy_of s !! a = Some x /\ xy_of s !! b = Some y /\
  make_aabb [x; y] (tolerance d) = Some bx /\ add_object (s_boxes d) i bx = Some t /\ d' = Ed s (p_boxes d) t (tolerance d) (UnAddSegment i :: stack d) (cells d).
Proof.
  intros H. unfold add_segment, xy_at in H. ebnd H. apply item_inv in E as [-> _]. ebnd H. apply item_inv in E as [-> _]. ebnd H. apply on_dec_inv in E as (s & E & ->).
  ebnd H. apply item_inv in E0 as [-> X]. ebnd H. apply item_inv in E0 as [-> Y].
  ebnd H. apply add_s_box_inv in E0 as (bx & t & B & T & ->). ebnd H. apply push_inv in E0 as ->. apply eret_inv in H as [-> ->]. efld in *.
  eexists s, _, _, bx, t. split; [done|]. rewrite !lookup_fmap. done.
Qed.
Lemma rm_point_inv p d u d' : rm_point p d = (Ok u, d') -> exists x g t s, points (dec d) !! p = Some x /\ p_poly x = Some g /\ rm_object (p_boxes d) p = Some t /\
  remove_free_point p (dec d) = (Ok tt, s) /\ d' = Ed s t (s_boxes d) (tolerance d) (UnRmPoint (xy x) g :: stack d) (cells d).
Proof.
  intros H. unfold rm_point in H. ebnd H. apply item_inv in E as [-> X]. ebnd H. apply rm_p_box_inv in E as (t & T & ->). ebnd H. apply on_dec_inv in E as (s & E & ->). destruct a1.
  ebnd H. apply item_inv in E0 as [-> G]. apply push_inv in H as ->. efld in *. eexists _, _, t, s. done.
Qed.
Lemma rm_segment_inv K g d c d' : Editor_Model.rm_segment K g d = (Ok c, d') -> exists a b t s, vtx (dec d) !! (g, false) = Some a /\ vtx (dec d) !! (g, true) = Some b /\
  rm_object (s_boxes d) g = Some t /\ delete_segment K g (dec d) = (Ok tt, s) /\ c = length (cells d) /\
  d' = Ed s (p_boxes d) t (tolerance d) (UnRmSegment (length (cells d)) :: stack d) (cells d ++ [(a, b)]).
Proof.
  intros H. unfold Editor_Model.rm_segment, end_at in H. ebnd H. apply item_inv in E as [-> X]. ebnd H. apply item_inv in E as [-> Y]. ebnd H. apply rm_s_box_inv in E as (t & T & ->).
  ebnd H. apply on_dec_inv in E as (s & E & ->). destruct a2. injection H as <- <-. efld in *. eexists _, _, t, s. done.
Qed.
Lemma split_seg_inv e mid d n d' : split_seg e mid d = (Ok n, d') -> exists s a b (x y : vect) bx t, split_segment e mid (dec d) = (Ok n, s) /\ vtx s !! (n, false) = Some a /\ vtx s !! (n, true) = Some b /\
  xy_of s !! a = Some x /\ xy_of s !! b = Some y /\
  make_aabb [x; y] (tolerance d) = Some bx /\ add_object (s_boxes d) n bx = Some t /\ d' = Ed s (p_boxes d) t (tolerance d) (UnSplit mid e n :: stack d) (cells d).
Proof.
  intros H. unfold split_seg, xy_at, end_at in H. ebnd H. apply item_inv in E as [-> _]. ebnd H. apply item_inv in E as [-> _]. ebnd H. apply on_dec_inv in E as (s & E & ->).
  ebnd H. apply item_inv in E0 as [-> Va]. ebnd H. apply item_inv in E0 as [-> Vb]. ebnd H. apply item_inv in E0 as [-> X]. ebnd H. apply item_inv in E0 as [-> Y].
  ebnd H. apply add_s_box_inv in E0 as (bx & t & B & T & ->). ebnd H. apply push_inv in E0 as ->. apply eret_inv in H as [-> ->]. efld in *.
  eexists s, _, _, _, _, bx, t. split; [done|]. split; [done|]. split; [done|]. rewrite !lookup_fmap. done.
Qed.
Lemma join_seg_inv mid e n d r d' : join_seg mid e n d = (Ok r, d') -> exists s m t, join_segments mid e n (dec d) = (Ok m, s) /\ rm_object (s_boxes d) n = Some t /\ r = mid /\
  d' = Ed s (p_boxes d) t (tolerance d) (UnJoin mid e :: stack d) (cells d).
Proof.
  intros H. unfold join_seg in H. ebnd H. apply item_inv in E as [-> _]. ebnd H. apply item_inv in E as [-> _]. ebnd H. apply item_inv in E as [-> _]. ebnd H. apply rm_s_box_inv in E as (t & T & ->).
  ebnd H. apply on_dec_inv in E as (s & E & ->). ebnd H. apply push_inv in E0 as ->. apply eret_inv in H as [-> ->]. efld in *. eauto 7.
Qed.

(** * Tables *)
Lemma tab_ext t f g : (forall i, f i = g i) -> tab_inv t f -> tab_inv t g.
Proof. intros H (A & B & C & D). split; [done|]. split; [done|]. split; intros i; rewrite <- H; auto. Qed.
Lemma tab_add t f i b t' g : tab_inv t f -> add_object t i b = Some t' -> (forall j, g j = if decide (j = i) then Some b else f j) -> tab_inv t' g /\ l_inf t' = l_inf t.
Proof.
  intros T H G. destruct (add_inv t f i b T) as (t1 & E & L & X). assert (t1 = t') as -> by congruence. split; [|done]. eapply tab_ext; [|exact X].
  intros j. cbn. rewrite G. destruct (decide (j = i)) as [-> | D]; [by rewrite Nat.eqb_refl|]. apply Nat.eqb_neq in D. by rewrite D.
Qed.
Lemma tab_rm t f i t' g : tab_inv t f -> rm_object t i = Some t' -> (forall j, g j = if decide (j = i) then None else f j) -> tab_inv t' g /\ l_inf t' = l_inf t.
Proof.
  intros T H G. destruct (rm_inv t f i T) as (t1 & E & L & X). cbn [l_step] in E. rewrite H in E. injection E as ->. split; [|done]. eapply tab_ext; [|exact X].
  intros j. cbn. rewrite G. destruct (decide (j = i)) as [-> | D]; [by rewrite Nat.eqb_refl|]. apply Nat.eqb_neq in D. by rewrite D.
Qed.
Lemma tab_box t f i b : tab_inv t f -> f i = Some b -> box_of t i = Some b.
Proof. intros (_ & _ & C & _) H. destruct (C i b H) as [A B]. unfold box_of. apply Nat.ltb_lt in B. by rewrite B. Qed.
Lemma tab_dead t f i b : tab_inv t f -> f i = None -> box_of t i = Some b -> b = inf_row (l_inf t).
Proof.
  intros (A & _ & _ & D) H. unfold box_of. destruct (i <? l_n t) eqn:E; [|done]. apply Nat.ltb_lt in E. rewrite (D i H) by lia. congruence.
Qed.
Lemma make_one (l : list pt) tol p : p ∈ l -> exists b, make_aabb l tol = Some b /\ forall q, q ∈ l -> covers b (eff_margin tol) q.
Proof.
  intros P. destruct (make_aabb_l l tol) as (b & E & C & _); [by intros ->; inversion P|]. exists b. split; [done|]. intros q Q. apply C. by apply elem_of_list_In.
Qed.
Lemma covers_between b m x y z : covers b m x -> covers b m y -> between x y z -> covers b m z.
Proof.
  intros [[A1 A2] [A3 A4]] [[B1 B2] [B3 B4]] (t & [T0 T1] & E1 & E2). unfold covers. rewrite E1, E2.
  assert (L : forall lo hi p q : Q, (lo <= p -> p <= hi -> lo <= q -> q <= hi -> lo <= p + t * (q - p) /\ p + t * (q - p) <= hi)%Q).
  { intros lo hi p q P1 P2 Q1 Q2. assert (U : (0 <= 1 - t)%Q) by lra. split.
    - assert (X := Qmult_le_0_compat t (q - lo) T0 ltac:(lra)). assert (Y := Qmult_le_0_compat (1 - t) (p - lo) U ltac:(lra)). lra.
    - assert (X := Qmult_le_0_compat t (hi - q) T0 ltac:(lra)). assert (Y := Qmult_le_0_compat (1 - t) (hi - p) U ltac:(lra)). lra. }
  destruct (L (bx0 b + m)%Q (bx1 b - m)%Q (fst x) (fst y)) as [L1 L2]; [lra..|]. destruct (L (by0 b + m)%Q (by1 b - m)%Q (snd x) (snd y)) as [L3 L4]; [lra..|]. done.
Qed.

(** * The invariant *)
Definition p_cur (s : st) (tol : Q) (i : nat) : option box := xy_of s !! i ≫= fun v => make_aabb [v] tol.
Record einv (d : ed) : Prop := EInv {
  e_good : good (dec d);
  e_pts : tab_inv (p_boxes d) (p_cur (dec d) (tolerance d));
  e_segs : exists cs, tab_inv (s_boxes d) cs /\ (forall g, is_Some (cs g) <-> is_Some (vec (dec d) !! g)) /\
    (forall g b, cs g = Some b -> exists x y, make_aabb [x; y] (tolerance d) = Some b) /\
    (forall g b x y, cs g = Some b -> ends (dec d) g x y -> covers b (eff_margin (tolerance d)) x /\ covers b (eff_margin (tolerance d)) y);
  e_pinf : l_inf (p_boxes d) = inject_Z (10 ^ 50);
  e_sinf : l_inf (s_boxes d) = inject_Z (10 ^ 50) }.

Lemma einv_init tol : einv (ed_init tol).
Proof.
  constructor; [apply good_init| | |done|done].
  - apply init_inv. lia.
  - exists (fun _ => None). split; [apply init_inv; lia|]. split; [|split; done]. intros g. cbn. rewrite lookup_empty. split; by intros [? ?].
Qed.
Lemma ends_same s s' g x y : vtx s' = vtx s -> xy_of s' = xy_of s -> ends s' g x y <-> ends s g x y.
Proof. intros HV HX. unfold ends. by rewrite HV, HX. Qed.
Lemma p_cur_same s s' tol i : xy_of s' = xy_of s -> p_cur s' tol i = p_cur s tol i.
Proof. intros H. unfold p_cur. by rewrite H. Qed.
Lemma stab_same d s' : einv d -> vtx s' = vtx (dec d) -> xy_of s' = xy_of (dec d) -> (forall g, is_Some (vec s' !! g) <-> is_Some (vec (dec d) !! g)) ->
  exists cs, tab_inv (s_boxes d) cs /\ (forall g, is_Some (cs g) <-> is_Some (vec s' !! g)) /\
    (forall g b, cs g = Some b -> exists x y, make_aabb [x; y] (tolerance d) = Some b) /\
    (forall g b x y, cs g = Some b -> ends s' g x y -> covers b (eff_margin (tolerance d)) x /\ covers b (eff_margin (tolerance d)) y).
Proof.
  intros I HV HX Hv. destruct (e_segs _ I) as (cs & T & L & Q & C). exists cs. split; [done|]. split; [intros g; by rewrite L, Hv|]. split; [done|].
  intros g b x y Cg. rewrite (ends_same (dec d) s') by done. by apply C.
Qed.
Lemma einv_stack l d : einv d -> einv (set_stack l d).
Proof. intros [A B C D F]. by constructor. Qed.
Lemma einv_cells l d : einv d -> einv (set_cells l d).
Proof. intros [A B C D F]. by constructor. Qed.

Lemma other_end s h p : inv s -> vtx s !! h = Some p -> exists q, vtx s !! flip h = Some q.
Proof.
  intros I V. assert (T := i_topo _ I). apply (topo_dom_v _ _ _ _ T). apply (t_flip _ _ _ T). apply (topo_dom_v _ _ _ _ T). eauto.
Qed.
Section Step.
Context (d : ed) (I : einv d).
Lemma step_add_point v g p d' : add_point v g d = (Ok p, d') -> einv d'.
Proof.
  intros H. apply add_point_inv in H as (s & x & b & t & H & X & B & T & ->).
  assert (G' : good s) by (apply (good_run (Geometry (fun _ _ _ => 0%Q) (fun _ _ _ => true) (fun _ _ _ => true)) (AddPoint v g) (dec d) p); [apply I|done|done]).
  destruct (add_free_point_eff _ _ _ _ _ (g_inv _ (e_good _ I)) H) as (_ & z & c & Z & F & E).
  assert (HX : xy_of s = <[p := v]> (xy_of (dec d))) by (rewrite E; fld; apply fmap_insert).
  assert (x = v) as -> by (rewrite HX, lookup_insert in X; congruence).
  destruct (tab_add _ _ _ _ _ (p_cur s (tolerance d)) (e_pts _ I) T) as [T' L'].
  { intros j. unfold p_cur. rewrite HX. destruct (decide (j = p)) as [-> | D]; [by rewrite lookup_insert|by rewrite lookup_insert_ne]. }
  constructor; efld; [done|done| |by rewrite L', (e_pinf _ I)|apply I].
  destruct (e_segs _ I) as (cs & T1 & L & Q & C). exists cs. split; [done|]. split; [intros g'; rewrite L; by rewrite E|]. split; [done|].
  intros g' b' x y Cg (a1 & b1 & Va & Vb & Xa & Xb). apply (C g' b' x y Cg). exists a1, b1. change (xy_of s !! a1 = Some x) in Xa. change (xy_of s !! b1 = Some y) in Xb.
  assert (V1 : vtx s = vtx (dec d)) by (by rewrite E). rewrite V1 in Va, Vb. rewrite HX in Xa, Xb.
  destruct (i_pts _ (g_inv _ (e_good _ I))) as (_ & _ & P3).
  assert (N : forall h, vtx (dec d) !! h <> Some p). { intros h Vh. destruct (P3 _ _ Vh) as [? Y]. rewrite lookup_fmap, F in Y. done. }
  rewrite lookup_insert_ne in Xa, Xb by (intros ->; by eapply N). done.
Qed.
Lemma step_rm_point p u d' : rm_point p d = (Ok u, d') -> einv d'.
Proof.
  intros H. apply rm_point_inv in H as (x & g & t & s & Ex & Eg & T & H & ->).
  assert (G' : good s).
  { apply (good_run (Geometry (fun _ _ _ => 0%Q) (fun _ _ _ => true) (fun _ _ _ => true)) (RemovePoint p) (dec d) 0); [apply I| |done]. cbn. unfold bind. by rewrite H. }
  destruct (remove_free_point_eff _ _ _ _ (g_inv _ (e_good _ I)) H) as (_ & x' & g' & y & Ex' & Es & Eg' & Ey & E).
  assert (HX : xy_of s = delete p (xy_of (dec d))) by (rewrite E; fld; apply fmap_delete).
  destruct (tab_rm _ _ _ _ (p_cur s (tolerance d)) (e_pts _ I) T) as [T' L'].
  { intros j. unfold p_cur. rewrite HX. destruct (decide (j = p)) as [-> | D]; [by rewrite lookup_delete|by rewrite lookup_delete_ne]. }
  constructor; efld; [done|done| |by rewrite L', (e_pinf _ I)|apply I].
  destruct (e_segs _ I) as (cs & T1 & L & Q & C). exists cs. split; [done|]. split; [intros g0; rewrite L; by rewrite E|]. split; [done|].
  intros g0 b' x0 y0 Cg (a1 & b1 & Va & Vb & Xa & Xb). apply (C g0 b' x0 y0 Cg). exists a1, b1. change (xy_of s !! a1 = Some x0) in Xa. change (xy_of s !! b1 = Some y0) in Xb.
  assert (V1 : vtx s = vtx (dec d)) by (by rewrite E). rewrite V1 in Va, Vb. rewrite HX in Xa, Xb. apply lookup_delete_Some in Xa as [_ Xa], Xb as [_ Xb]. done.
Qed.
Lemma step_add_segment K a b i d' : add_segment K a b d = (Ok i, d') -> sane K (dec d') i -> einv d'.
Proof.
  intros H SK. apply add_segment_inv in H as (s & x & y & bx & t & H & X & Y & B & T & ->). efld in *.
  assert (G' := good_new_segment _ _ _ _ _ _ (e_good _ I) SK H).
  destruct (new_plan _ _ _ _ _ _ (e_good _ I) H) as (D & HX & x' & y' & X' & Y' & C0). rewrite HX in X, Y. assert (x' = x) as -> by congruence. assert (y' = y) as -> by congruence.
  destruct (make_one [x; y] (tolerance d) x) as (bx' & B' & CV); [by left|]. assert (bx' = bx) as -> by congruence.
  assert (Cx : covers bx (eff_margin (tolerance d)) x) by (apply CV; by left). assert (Cy : covers bx (eff_margin (tolerance d)) y) by (apply CV; right; by left).
  destruct (e_segs _ I) as (cs & T1 & L & Q & C).
  destruct (tab_add _ _ _ _ _ (fun j => if decide (j = i) then Some bx else cs j) T1 T) as [T' L']; [done|].
  constructor; efld; [done| | |apply I|by rewrite L', (e_sinf _ I)].
  { eapply tab_ext; [|apply I]. intros j. symmetry. by apply p_cur_same. }
  exists (fun j => if decide (j = i) then Some bx else cs j). split; [done|].
  assert (Hv : forall g, is_Some (vec s !! g) <-> g = i \/ is_Some (vec (dec d) !! g)).
  { intros g. destruct C0 as [[P ->]|(_ & _ & Fi & _ & Hv & _)].
    - fld. split; [auto|]. intros [-> | ?]; [|done]. apply (i_vec _ (g_inv _ (e_good _ I))). destruct (i_pair _ (g_inv _ (e_good _ I))) as [J1 _].
      destruct P as [P|P]; apply J1 in P as [P _]; eauto.
    - rewrite Hv, <- live_insert. split; intros [E|E]; auto. }
  split; [|split].
  - intros g. rewrite Hv, <- L. destruct (decide (g = i)) as [-> | Dg]; [split; eauto|]. split; [auto|]. by intros [? | ?].
  - intros g b' Cg. destruct (decide (g = i)) as [-> | Dg]; [|by eapply Q]. injection Cg as <-. eauto.
  - intros g b' x0 y0 Cg En. destruct (decide (g = i)) as [-> | Dg].
    + injection Cg as <-. destruct En as (a1 & b1 & Va & Vb & Xa & Xb). change (xy_of s !! a1 = Some x0) in Xa. change (xy_of s !! b1 = Some y0) in Xb. rewrite HX in Xa, Xb.
      destruct C0 as [[P ->]|(_ & _ & Fi & HV & _ & _)].
      * fld in *. destruct (i_pair _ (g_inv _ (e_good _ I))) as [J1 _]. destruct P as [P|P]; apply J1 in P as [P1 P2].
        -- assert (a1 = a) as -> by congruence. assert (b1 = b) as -> by congruence. assert (x0 = x) as -> by congruence. assert (y0 = y) as -> by congruence. done.
        -- assert (a1 = b) as -> by congruence. assert (b1 = a) as -> by congruence. assert (x0 = y) as -> by congruence. assert (y0 = x) as -> by congruence. done.
      * rewrite HV, both_f in Va. rewrite HV, both_t in Vb. injection Va as <-. injection Vb as <-. assert (x0 = x) as -> by congruence. assert (y0 = y) as -> by congruence. done.
    + apply (C g b' x0 y0 Cg). destruct C0 as [[P ->]|(_ & _ & Fi & HV & _ & _)]; [done|].
      destruct En as (a1 & b1 & Va & Vb & Xa & Xb). exists a1, b1. change (xy_of s !! a1 = Some x0) in Xa. change (xy_of s !! b1 = Some y0) in Xb. rewrite HX in Xa, Xb.
      rewrite HV, both_ne in Va, Vb by done. done.
Qed.
Lemma step_rm_segment K g c d' : Editor_Model.rm_segment K g d = (Ok c, d') -> (exposed (dec d) g -> whole (dec d')) -> einv d'.
Proof.
  intros H W. apply rm_segment_inv in H as (a & b & t & s & Va & Vb & T & H & _ & ->). efld in *.
  assert (G' := good_delete_segment _ _ _ _ _ (e_good _ I) W H). destruct (delete_plan _ _ _ _ _ (e_good _ I) H) as (HX & HV & Hv & _).
  destruct (e_segs _ I) as (cs & T1 & L & Q & C).
  destruct (tab_rm _ _ _ _ (fun j => if decide (j = g) then None else cs j) T1 T) as [T' L']; [done|].
  constructor; efld; [done| | |apply I|by rewrite L', (e_sinf _ I)].
  { eapply tab_ext; [|apply I]. intros j. symmetry. by apply p_cur_same. }
  exists (fun j => if decide (j = g) then None else cs j). split; [done|]. split; [|split].
  - intros j. rewrite Hv, <- live_delete, <- L. destruct (decide (j = g)) as [-> | D]; [|tauto]. split; [by intros [? ?]|tauto].
  - intros j b' Cg. destruct (decide (j = g)) as [-> | D]; [done|by eapply Q].
  - intros j b' x0 y0 Cg En. destruct (decide (j = g)) as [-> | D]; [done|]. apply (C j b' x0 y0 Cg). destruct En as (a1 & b1 & Va' & Vb' & Xa & Xb). exists a1, b1.
    change (xy_of s !! a1 = Some x0) in Xa. change (xy_of s !! b1 = Some y0) in Xb. rewrite HX in Xa, Xb. rewrite HV, dels_ne in Va', Vb' by done. done.
Qed.
Lemma step_split e mid n d' : split_seg e mid d = (Ok n, d') -> loose (dec d) mid ->
  (forall x y m, ends (dec d) e x y -> (xy <$> points (dec d)) !! mid = Some m -> between x y m) -> einv d'.
Proof.
  intros H Lo Bt. apply split_seg_inv in H as (s & a & b & x & y & bx & t & H & Va & Vb & X & Y & B & T & ->).
  assert (Mm : seg_of (dec d) !! mid = Some None) by (destruct Lo as (z & Ez & Es); rewrite lookup_fmap, Ez; cbn; by rewrite Es).
  assert (G := e_good _ I). assert (G' := good_mid _ G _ _ _ _ Mm H).
  destruct (split_segment_eff _ _ _ _ _ (g_inv _ G) Mm H) as (_ & nx & pv & a0 & b0 & wt & wf & xa & xb & xm & kb & Nt & Np & Va0 & Vb0 & Wt & Wf & Fi & Db & Da & Xa & Xb & Xm & HV & HN & HW & Hw & HO & HX & Hv & _ & _ & _).
  destruct (fresh_sides _ _ (g_inv _ G) Fi) as [Fv _]. assert (Den : e <> n) by (intros ->; by rewrite Fv in Va0).
  assert (En : ends (dec d) e xa xb) by (exists a0, b0; done). assert (Bm := Bt _ _ _ En Xm).
  assert (a = mid) as -> by (rewrite HV in Va; unfold vm in Va; rewrite lookup_insert_ne in Va by congruence; rewrite both_f in Va; congruence).
  assert (b = b0) as -> by (rewrite HV in Vb; unfold vm in Vb; rewrite lookup_insert_ne in Vb by congruence; rewrite both_t in Vb; congruence).
  rewrite HX in X, Y. assert (x = xm) as -> by congruence. assert (y = xb) as -> by congruence.
  destruct (make_one [xm; xb] (tolerance d) xm) as (bx' & B' & CV); [by left|]. assert (bx' = bx) as -> by congruence.
  assert (Cx : covers bx (eff_margin (tolerance d)) xm) by (apply CV; by left). assert (Cy : covers bx (eff_margin (tolerance d)) xb) by (apply CV; right; by left).
  destruct (e_segs _ I) as (cs & T1 & L & Q & C).
  destruct (tab_add _ _ _ _ _ (fun j => if decide (j = n) then Some bx else cs j) T1 T) as [T' L']; [done|].
  constructor; efld; [done| | |apply I|by rewrite L', (e_sinf _ I)].
  { eapply tab_ext; [|apply I]. intros j. symmetry. by apply p_cur_same. }
  exists (fun j => if decide (j = n) then Some bx else cs j). split; [done|]. split; [|split].
  - intros g. rewrite Hv, <- !live_insert, <- L. assert (Le : is_Some (cs e)) by (apply L, (i_vec _ (g_inv _ G)); eauto).
    destruct (decide (g = n)) as [-> | Dg]; [split; eauto|]. split; [auto|]. intros [<- |[? | ?]]; done.
  - intros g b' Cg. destruct (decide (g = n)) as [-> | Dg]; [|by eapply Q]. injection Cg as <-. eauto.
  - intros g b' x0 y0 Cg (a1 & b1 & Va' & Vb' & Xa' & Xb'). change (xy_of s !! a1 = Some x0) in Xa'. change (xy_of s !! b1 = Some y0) in Xb'. rewrite HX in Xa', Xb'.
    rewrite HV in Va', Vb'. unfold vm in Va', Vb'. destruct (decide (g = n)) as [-> | Dg].
    + injection Cg as <-. rewrite lookup_insert_ne in Va', Vb' by congruence. rewrite both_f in Va'. rewrite both_t in Vb'.
      injection Va' as <-. injection Vb' as <-. assert (x0 = xm) as -> by congruence. assert (y0 = xb) as -> by congruence. done.
    + destruct (decide (g = e)) as [-> | De].
      * rewrite lookup_insert in Vb'. rewrite lookup_insert_ne, both_ne in Va' by done. injection Vb' as <-. assert (a1 = a0) as -> by congruence.
        assert (x0 = xa) as -> by congruence. assert (y0 = xm) as -> by congruence. destruct (C _ _ _ _ Cg En) as [C1 C2]. split; [done|]. exact (covers_between _ _ _ _ _ C1 C2 Bm).
      * rewrite lookup_insert_ne in Va', Vb' by congruence. rewrite both_ne in Va', Vb' by done. apply (C g b' x0 y0 Cg). exists a1, b1. done.
Qed.
Lemma step_join mid e n r d' : join_seg mid e n d = (Ok r, d') -> goes_on (dec d) mid e n ->
  (forall x y b, ends (dec d) n x y -> box_of (s_boxes d) e = Some b -> covers b (eff_margin (tolerance d)) y) -> einv d'.
Proof.
  intros H Go Bt. apply join_seg_inv in H as (s & m & t & H & T & -> & ->). assert (G := e_good _ I). assert (I0 := g_inv _ G). assert (TT := i_topo _ I0).
  destruct Go as (Vem & Vnm & Hp). assert (Sa : exists a, vtx (dec d) !! (e, false) = Some a) by (by apply (other_end _ _ _ I0 Vem)).
  assert (Sb : exists b, vtx (dec d) !! (n, true) = Some b) by (by apply (other_end _ _ _ I0 Vnm)). destruct Sa as [a Va], Sb as [b Vb].
  destruct (Hp _ _ Va Vb) as [P1 P2]. assert (G' : good s) by (eapply (good_unmid (dec d) mid e n m); [done|done|done| |done]; done).
  destruct (join_segments_eff mid e n (dec d) m s a b I0 Vem Vnm Va Vb P1 P2 H) as (-> & _ & nx' & pv' & wt' & wf' & gp & kb' & Ee & Ef & Et & Ep & _ & _ & _ & _ & _ & Den & Dab & Dma & Dmb &
    HV & HN & HW & HP & HL & _ & HO & HX & Hv & _ & _ & _ & _).
  destruct (i_pts _ I0) as (_ & _ & P3). 
  assert (Xx : forall p h, vtx (dec d) !! h = Some p -> exists z, xy_of (dec d) !! p = Some z).
  { intros p h Vh. destruct (P3 _ _ Vh) as [z Z]. rewrite lookup_fmap in Z. destruct (points (dec d) !! p) as [pp|] eqn:E; [|done]. exists (xy pp). by rewrite lookup_fmap, E. }
  destruct (Xx _ _ Vem) as [xm Xm]. destruct (Xx _ _ Va) as [xa Xa]. destruct (Xx _ _ Vb) as [xb Xb].
  assert (Ee' : ends (dec d) e xa xm) by (exists a, mid; done). assert (En' : ends (dec d) n xm xb) by (exists mid, b; done).
  destruct (e_segs _ I) as (cs & T1 & L & Q & C).
  destruct (tab_rm _ _ _ _ (fun j => if decide (j = n) then None else cs j) T1 T) as [T' L']; [done|].
  constructor; efld; [done| | |apply I|by rewrite L', (e_sinf _ I)].
  { eapply tab_ext; [|apply I]. intros j. symmetry. by apply p_cur_same. }
  exists (fun j => if decide (j = n) then None else cs j). split; [done|]. split; [|split].
  - intros j. rewrite Hv, <- live_delete, <- L. destruct (decide (j = n)) as [-> | D]; [|tauto]. split; [by intros [? ?]|tauto].
  - intros j b' Cg. destruct (decide (j = n)) as [-> | D]; [done|by eapply Q].
  - intros j b' x0 y0 Cg (a1 & b1 & Va' & Vb' & Xa' & Xb'). destruct (decide (j = n)) as [-> | D]; [done|].
    change (xy_of s !! a1 = Some x0) in Xa'. change (xy_of s !! b1 = Some y0) in Xb'. rewrite HX in Xa', Xb'. rewrite HV in Va', Vb'. unfold vu in Va', Vb'.
    destruct (decide (j = e)) as [-> | De].
    + rewrite lookup_insert in Vb'. rewrite lookup_insert_ne, dels_ne in Va' by done. injection Vb' as <-. assert (a1 = a) as -> by congruence.
      assert (x0 = xa) as -> by congruence. assert (y0 = xb) as -> by congruence. split; [apply (C _ _ _ _ Cg Ee')|]. apply (Bt _ _ _ En'). by eapply tab_box.
    + rewrite lookup_insert_ne in Va', Vb' by congruence. rewrite dels_ne in Va', Vb' by done. apply (C j b' x0 y0 Cg). exists a1, b1. done.
Qed.
Lemma step K o r d' : erun K o d = (Ok r, d') -> eproper K d o r d' -> einv d'.
Proof.
  destruct o as [v g|a b|p|g|e mid|mid e n]; cbn; intros H P.
  - by eapply step_add_point.
  - by eapply step_add_segment.
  - ebnd H. apply eret_inv in H as [_ ->]. by eapply step_rm_point.
  - by eapply step_rm_segment.
  - eapply step_split; [exact H|apply P..].
  - eapply step_join; [exact H|apply P..].
Qed.
End Step.
Lemma edits_einv d : edits d -> einv d.
Proof.
  induction 1 as [tol|K o d r d' _ IH H P|K u l o d r d' _ IH _ _ H P|c side a d d' _ IH H].
  - apply einv_init.
  - by eapply step.
  - apply einv_stack. eapply step; [apply (einv_stack l), IH|exact H|]. by destruct o.
  - unfold put_cell in H. destruct (cells d !! c) as [[x y]|]; [|done]. injection H as <-. by apply einv_cells.
Qed.
