(** Removing segments keeps the invariant: a wire of one segment, a segment with a free end. *)
From stdpp Require Import gmap list relations.
From Coq Require Import QArith.
From Verif Require Import Decomp_Model Decomp_Perm Decomp_Surgery Decomp_Eff Decomp_Tree Decomp_Inv Decomp_Add Decomp_Join.
Local Open Scope nat_scope.

(** * Points that lose a segment *)
(** Point [p] will have [o] when the end [(g, r)] leaves it. *)
Definition hold (s : st) (g : nat) (r : bool) (p : nat) (o : option he) : Prop :=
  exists c, seg_of s !! p = Some c /\
    match c with
    | None => o = None
    | Some k => (fst k <> g /\ o = Some k) \/ (k = (g, r) /\ nxt s !! k = Some (flip k) /\ o = None)
    end.
Lemma rm_segment_hold p g r s u s' o : rm_segment p (g, r) s = (Ok u, s') -> hold s g r p o -> pp s s' (<[p := o]> (seg_of s)).
Proof.
  intros H (c & C1 & C2). destruct c as [k|].
  - destruct C2 as [[D ->]|(-> & N & ->)].
    + rewrite insert_id by done. by eapply rm_segment_far.
    + unfold rm_segment in H. rd H as v Ev. chk H as C. rd H as x Ex. rewrite lookup_fmap, Ex in C1. cbn in C1. injection C1 as C1. rewrite C1 in H.
      bnd H as o s1 E. cbv beta in E. apply pair_equal_spec in E as [E <-]. unfold fuel in E. cbn [other] in E.
      rewrite decide_True in E by done. rewrite N in E. rewrite flip_flip in E. rewrite decide_True in E by done. injection E as <-.
      bnd H as d s2 Ed. apply is_dendrite_inv in Ed as (-> & wa & wb & W1 & W2 & ->). chk H as C3.
      rd H as w Ew. bnd H as g' s2 Eg. apply wire_poly_inv in Eg as [-> Eg]. by apply set_polygon_pp in H as (_ & _ & H).
  - subst o. unfold rm_segment in H. rd H as v Ev. chk H as C. rd H as x Ex. rewrite lookup_fmap, Ex in C1. cbn in C1. injection C1 as C1. rewrite C1 in H.
    bnd H as o s1 E. apply ret_inv in E as [-> ->].
    bnd H as d s2 Ed. apply is_dendrite_inv in Ed as (-> & wa & wb & W1 & W2 & ->). chk H as C3.
    rd H as w Ew. bnd H as g' s2 Eg. apply wire_poly_inv in Eg as [-> Eg]. by apply set_polygon_pp in H as (_ & _ & H).
Qed.
Lemma destroy_eff g s u s' a b oa ob : destroy_segment g s = (Ok u, s') -> vtx s !! (g, false) = Some a -> vtx s !! (g, true) = Some b -> a <> b ->
  hold s g false a oa -> hold s g true b ob ->
  exists P G, ppr (points s) (polys s) P G /\ p_seg <$> P = <[b := ob]> (<[a := oa]> (seg_of s)) /\
    s' = St P (dels (vtx s) g) (dels (nxt s) g) (dels (wir s) g) (delete g (vec s)) (delete (b, a) (delete (a, b) (p2s s))) (wires s) G
           (ip s) (old_id g (is_ s)) (iw s) (ig s) (last_change s).
Proof.
  intros H Ea Eb D Ha Hb. unfold destroy_segment in H. rd H as a' Ea'. replace a' with a in * by congruence.
  bnd H as u1 s1 E. apply rm_segment_hold with (o := oa) in E; [|done]. apply pp_open in E as (P1 & G1 & -> & R1 & M1).
  rd H as b' Eb'. fld in *. replace b' with b in * by congruence.
  bnd H as u2 s1 E. apply rm_segment_hold with (o := ob) in E.
  2: { destruct Hb as (c & C1 & C2). exists c. fld. rewrite M1, lookup_insert_ne by done. done. }
  apply pp_open in E as (P2 & G2 & -> & R2 & M2). up H. apply upd_inv in H. fld in *. subst s'.
  exists P2, G2. split; [by eapply ppr_trans|]. split; [by rewrite M2, M1|]. done.
Qed.
(** What all removed segments have in common. *)
Lemma del_common s s' g a b oa ob : inv s -> vtx s !! (g, false) = Some a -> vtx s !! (g, true) = Some b ->
  lost (vtx s) g a oa -> lost (vtx s) g b ob ->
  vtx s' = dels (vtx s) g -> is_ s' = old_id g (is_ s) -> ip s' = ip s -> vec s' = delete g (vec s) -> p2s s' = delete (b, a) (delete (a, b) (p2s s)) ->
  seg_of s' = <[b := ob]> (<[a := oa]> (seg_of s)) ->
  pts_ok (seg_of s') (vtx s') /\ (forall g, is_Some (vec s' !! g) <-> is_Some (vtx s' !! (g, false))) /\
  pairs (vtx s') (p2s s') /\ src_ok (is_ s') (fun i => is_Some (vec s' !! i)) /\ src_ok (ip s') (fun i => is_Some (seg_of s' !! i)).
Proof.
  intros I Ea Eb La Lb Hv Hc Hi Hd Hp HM.
  assert (D : a <> b) by (intros ->; by apply (t_loop _ _ _ (i_topo _ I) _ _ Ea)).
  rewrite Hv, Hc, Hi, Hd, Hp, HM. split; [|split; [|split; [|split]]].
  - rewrite insert_commute by done. apply pts_del; try done. apply I.
  - intros k. rewrite <- live_delete, (i_vec _ I). destruct (decide (k = g)) as [-> | Dk].
    + rewrite dels_in. split; [tauto|by intros [? ?]].
    + rewrite dels_ne by done. tauto.
  - apply pairs_del; try done. apply I.
  - apply src_delete; [apply I|]. apply (i_vec _ I). eauto.
  - eapply src_dom; [|apply (i_ip _ I)]. intros k. rewrite <- !live_insert. destruct (i_pts _ I) as (_ & _ & P3). split; [tauto|].
    intros [-> | [-> | ?]]; [by eapply P3|by eapply P3|done].
Qed.
Lemma rm_segment_polys p h s u s' k : rm_segment p h s = (Ok u, s') -> seg_of s' !! p = Some (Some k) -> polys s' = polys s.
Proof.
  intros H Sk. unfold rm_segment in H. rd H as v Ev. chk H as C. rd H as x Ex. bnd H as o s1 E.
  assert (s1 = s) as ->. { destruct (p_seg x); [by apply pair_equal_spec in E as [_ <-]|by apply ret_inv in E as [_ ->]]. }
  destruct o as [j|]; [unf H; apply upd_inv in H; subst s'; done|].
  bnd H as d s2 Ed. apply is_dendrite_inv in Ed as (-> & wa & wb & W1 & W2 & ->). chk H as C3.
  rd H as w Ew. bnd H as g' s2 Eg. apply wire_poly_inv in Eg as [-> Eg]. apply set_polygon_pp in H as (_ & _ & H).
  apply pp_open in H as (P1 & G1 & -> & R1 & M1). fld in *. rewrite M1, lookup_insert in Sk. done.
Qed.
Lemma disc_eff g r s v1 u s' p a : disconnect_vtx (g, r) s = (Ok u, s') -> perm (nxt s) -> closed_flip (nxt s) -> labels (rot (nxt s)) v1 ->
  vtx s !! (g, r) = Some p -> v1 !! (g, r) = Some p -> v1 !! (g, negb r) <> Some p -> seg_of s !! p = Some (Some a) -> v1 !! a = Some p ->
  nxt s !! (g, r) <> Some (g, negb r) ->
  exists m k P G, nxt s !! m = Some (g, negb r) /\ m <> (g, r) /\ v1 !! k = Some p /\ fst k <> g /\
    ppr (points s) (polys s) P G /\ p_seg <$> P = <[p := Some k]> (seg_of s) /\
    s' = set_nxt (swap (nxt s) (g, r) m) (set_polys G (set_points P s)) /\ G = polys s.
Proof.
  intros H P F L V V1 V2 Sa Va N. apply disconnect_vtx_inv in H as (p' & u1 & s1 & m & Ep & E & Em & ->). replace p' with p in * by congruence.
  assert (PR := perm_rot _ P F). assert (E' := E).
  apply (rm_segment_pp _ _ _ _ _ a v1) in E as [(k & K1 & K2 & K3)|(K1 & _ & _)]; [| |done|done|done|done|].
  - apply pp_open in K3 as (P1 & G1 & -> & R1 & M1). fld in *. exists m, k, P1, G1. split; [done|]. split; [by intros ->|].
    eapply rm_segment_polys in E'; [|fld; by rewrite M1, lookup_insert]. done.
  - exfalso. assert (I : is_Some (nxt s !! (g, r))) by (apply rot_dom, L; eauto). destruct I as [k Ek].
    assert (X : v1 !! flip k = Some p).
    { eapply (labels_same _ _ (g, r)); [done|done|done|]. apply reach_step. apply rot_some. by rewrite flip_flip. }
    apply K1 in X. apply N. rewrite Ek. f_equal. rewrite <- (flip_flip k), X. done.
  - intros x Vx Fx. destruct (same_seg x (g, r) Fx) as [-> | ->]; [done|]. by rewrite flip_pair in Vx.
Qed.
Lemma disconnect_wires_eff g w s u s' : disconnect_wires g s = (Ok u, s') -> wir s !! (g, true) = Some w -> wir s !! (g, false) = Some w ->
  exists W, s' = set_wires W s /\ parent <$> W = par_of s /\ w_poly <$> W = pol_of s /\ (forall X, tl X (wires s) -> tl X W) /\
    ((w_seg <$> W = sg_of s /\ forall h, sg_of s !! w = Some (Some h) -> fst h <> g) \/
     (exists k, w_seg <$> W = <[w := Some k]> (sg_of s) /\ wir s !! k = Some w /\ fst k <> g)).
Proof.
  intros H Wt Wf. unfold disconnect_wires in H. bnd H as u1 s1 E.
  apply disconnect_side_inv in E as (w1 & W1 & L1 & -> & P1 & G1 & T1 & C1). replace w1 with w in * by congruence.
  apply disconnect_side_inv in H as (w2 & W2 & L2 & -> & P2 & G2 & T2 & C2). fld in *. replace w2 with w in * by congruence.
  exists W2. split; [by destruct s|]. split; [congruence|]. split; [congruence|]. split; [auto|].
  destruct C2 as [[S2 N2]|(k & S2 & _ & K2 & K3 & _)].
  - destruct C1 as [[S1 N1]|(k & S1 & _ & K2 & K3 & _)].
    + left. split; [congruence|]. intros h Eh Fh. rewrite S1 in N2. destruct (side_cases h g) as [?|[-> | ->]]; done.
    + right. exists k. split; [congruence|]. done.
  - right. exists k. split; [|done]. rewrite S2. destruct C1 as [[S1 N1]|(k' & S1 & _)]; rewrite S1; [done|by rewrite insert_insert].
Qed.

(** * A wire of one segment *)
Lemma two_cycle s g w : inv s -> (forall b, nxt s !! (g, b) = Some (g, negb b)) -> wir s !! (g, true) = Some w ->
  wir s !! (g, false) = Some w /\ forall h, wir s !! h = Some w -> fst h = g.
Proof.
  intros I N E. split.
  - rewrite <- E. apply (topo_lab _ _ _ _ _ (i_topo _ I)). apply (N true).
  - intros h Eh. assert (R : reach (nxt s) (g, true) h) by (eapply labels_reach; [apply I|done|done]).
    assert (G : forall x, reach (nxt s) x h -> fst x = g -> fst h = g); [|by apply (G (g, true))].
    clear R. intros x R. induction R as [|x y z S R IH]; [done|]. intros Fx. apply IH; [done|]. unfold step in S. destruct x as [x b]. cbn in Fx. subst x.
    rewrite N in S. by injection S as <-.
Qed.
Lemma alone_end s g r p : inv s -> nxt s !! (g, r) = Some (g, negb r) -> vtx s !! (g, r) = Some p ->
  seg_of s !! p = Some (Some (g, r)) /\ forall x, vtx s !! x = Some p -> x = (g, r).
Proof.
  intros I N V.
  assert (U : forall x, vtx s !! x = Some p -> x = (g, r)).
  { intros x Vx. assert (R : reach (rot (nxt s)) (g, r) x) by (eapply labels_reach; [apply I|done|done]).
    eapply reach_fixed; [|exact R]. apply rot_some. by rewrite flip_pair. }
  split; [|done]. destruct (has_seg _ _ _ I V) as [x Ex]. rewrite Ex. do 2 f_equal. apply U. by apply (i_pts _ I).
Qed.
Lemma rm_wire_op_eff g s u s' : inv s -> rm_wire_op g s = (Ok u, s') ->
  inv s' /\ exists w gp q a b,
    (forall b, nxt s !! (g, b) = Some (g, negb b)) /\ wir s !! (g, true) = Some w /\ wir s !! (g, false) = Some w /\ (forall h, wir s !! h = Some w -> fst h = g) /\
    is_Some (par_of s !! w) /\ pol_of s !! w = Some (Some gp) /\ outer_of s !! gp = Some q /\ chl (wires s) q w /\
    par_of s' = delete w (par_of s) /\ pol_of s' = delete w (pol_of s) /\ outer_of s' = outer_of s /\ (tl ∅ (wires s) -> tl ∅ (wires s')) /\
    vtx s !! (g, false) = Some a /\ vtx s !! (g, true) = Some b /\ a <> b /\ vtx s' = dels (vtx s) g /\ xy_of s' = xy_of s /\
    nxt s' = dels (nxt s) g /\ wir s' = dels (wir s) g /\ vec s' = delete g (vec s) /\ p2s s' = delete (b, a) (delete (a, b) (p2s s)) /\
    seg_of s !! a = Some (Some (g, false)) /\ seg_of s !! b = Some (Some (g, true)) /\
    seg_of s' = <[b := None]> (<[a := None]> (seg_of s)) /\ last_change s' = last_change s.
Proof.
  intros I H. unfold rm_wire_op in H. rd H as l El. rd H as r Er. chk H as C. apply andb_true_iff in C as [C1 C2].
  apply bool_decide_eq_true in C1, C2. subst l r.
  bnd H as d s1 E. apply is_dendrite_inv in E as (-> & w & w' & Wt & Wf & ->). chk H as C. apply bool_decide_eq_true in C. subst w'.
  rd H as w' Ew'. replace w' with w in * by congruence. clear w' Ew'.
  bnd H as gp s1 E. apply wire_poly_inv in E as [-> Gp]. rd H as x Ex.
  bnd H as y1 s1 E. apply drop_child_inv in E as (W1 & -> & P1 & G1 & S1 & Ch & NCh & Sub & T1).
  assert (N : forall b, nxt s !! (g, b) = Some (g, negb b)) by (intros []; done).
  destruct (two_cycle _ _ _ I N Wt) as [_ U].
  assert (Va : is_Some (vtx s !! (g, false))) by (apply (topo_dom_v _ _ _ _ (i_topo _ I)); eauto). destruct Va as [a Va].
  assert (Vb : is_Some (vtx s !! (g, true))) by (apply (topo_dom_v _ _ _ _ (i_topo _ I)); eauto). destruct Vb as [b Vb].
  assert (D : a <> b) by (intros ->; by apply (t_loop _ _ _ (i_topo _ I) _ _ Va)).
  destruct (alone_end _ _ _ _ I (N false) Va) as [Ma Ua]. destruct (alone_end _ _ _ _ I (N true) Vb) as [Mb Ub].
  bnd H as y2 s1 E. apply destroy_eff with (a := a) (b := b) (oa := None) (ob := None) in E as (P & G & R & M & ->); [|done|done|done| |].
  2: { exists (Some (g, false)). fld. split; [done|]. right. split; [done|]. split; [|done]. by rewrite N. }
  2: { exists (Some (g, true)). fld. split; [done|]. right. split; [done|]. split; [|done]. by rewrite N. }
  apply rm_wire_inv in H as (W2 & -> & P2 & G2 & S2 & L2 & T2). fld in *.
  assert (PV : parent <$> W2 = delete w (par_of s)) by congruence.
  assert (SV : w_seg <$> W2 = delete w (sg_of s)) by congruence.
  match goal with |- inv ?s1 /\ _ => set (s' := s1) end.
  assert (Q : chl (wires s) (outer x) w -> tl ∅ (wires s) -> tl ∅ W2).
  { intros _ T. apply T2; [|by apply T1]. intros y Hy. exfalso. assert (y = outer x) as ->; [|done].
    apply Sub in Hy. apply T in Hy. apply T in Ch. congruence. }
  assert (AC := del_common s s' g a b None None I Va Vb). destruct AC as (A1 & A2 & A3 & A4 & A5); try done.
  { intros y Hy. by apply Ua in Hy as ->. }
  { intros y Hy. by apply Ub in Hy as ->. }
  split; [constructor|].
  - apply (topo_alone_rm _ _ _ _ (i_topo _ I) N).
  - done.
  - apply R, I.
  - done.
  - done.
  - intros h k. subst s'. fld. rewrite PV. intros Eh. destruct (side_cases h g) as [Dh|[-> | ->]]; [|by rewrite dels_in in Eh..]. rewrite dels_ne in Eh by done.
    rewrite lookup_delete_ne by (intros <-; by apply Dh, U). by apply (i_live _ I h).
  - intros h k. subst s'. fld. rewrite SV. intros Eh. destruct (side_cases h g) as [Dh|[-> | ->]]; [|by rewrite dels_in in Eh..]. rewrite dels_ne in Eh by done.
    assert (Dk : w <> k) by (intros <-; by apply Dh, U).
    destruct (i_seg _ I _ _ Eh) as (m & N1 & N2). exists m. rewrite lookup_delete_ne by done. split; [done|].
    rewrite dels_ne; [done|]. intros Fm. destruct (side_cases m g) as [?|[-> | ->]]; [done|congruence..].
  - done.
  - done.
  - subst s'. fld. rewrite PV. apply src_delete; [apply I|]. rewrite lookup_fmap, fmap_is_Some. rewrite lookup_fmap in Gp. by destruct (wires s !! w).
  - subst s'. fld. rewrite (p_outer _ _ _ _ R). apply I.
  - exists w, gp, (outer x), a, b. split; [done|]. split; [done|]. split; [done|]. split; [done|].
    split; [rewrite lookup_fmap, fmap_is_Some; rewrite lookup_fmap in Gp; by destruct (wires s !! w)|].
    split; [done|]. split; [by rewrite lookup_fmap, Ex|]. split; [done|]. subst s'. fld. split; [done|]. split; [congruence|]. split; [apply R|]. split; [by apply Q|].
    split; [done|]. split; [done|]. split; [done|]. split; [done|]. split; [apply R|]. done.
Qed.

(** * A segment with a free end *)
Lemma rm_dendrite_eff g tip s u s' : inv s -> nxt s !! (g, tip) = Some (g, negb tip) -> nxt s !! (g, negb tip) <> Some (g, tip) ->
  rm_dendrite g tip s = (Ok u, s') ->
  inv s' /\ exists w gp m k pt pr sg1,
    nxt s !! m = Some (g, tip) /\ m <> (g, negb tip) /\ wir s !! (g, true) = Some w /\ wir s !! (g, false) = Some w /\
    pol_of s !! w = Some (Some gp) /\
    par_of s' = par_of s /\ pol_of s' = pol_of s /\ sg_of s' = sg1 /\ outer_of s' = outer_of s /\ (tl ∅ (wires s) -> tl ∅ (wires s')) /\
    vtx s !! (g, tip) = Some pt /\ vtx s !! (g, negb tip) = Some pr /\ pt <> pr /\ vtx s' = dels (vtx s) g /\ xy_of s' = xy_of s /\
    nxt s' = dels (swap (nxt s) (g, negb tip) m) g /\ wir s' = dels (wir s) g /\ vec s' = delete g (vec s) /\
    p2s s' = (let a := if tip then pr else pt in let b := if tip then pt else pr in delete (b, a) (delete (a, b) (p2s s))) /\
    seg_of s !! pt = Some (Some (g, tip)) /\ (exists x, seg_of s !! pr = Some (Some x)) /\ vtx s !! k = Some pr /\ fst k <> g /\
    seg_of s' = <[pt := None]> (<[pr := Some k]> (seg_of s)) /\ last_change s' = CShape (Some gp).
Proof.
  intros I Nt Nr H. unfold rm_dendrite in H.
  bnd H as d s1 E. apply is_dendrite_inv in E as (-> & w & w' & Wt & Wf & ->). chk H as C. apply bool_decide_eq_true in C. subst w'.
  rd H as w' Ew'. replace w' with w in * by congruence. clear w' Ew'.
  bnd H as gp s1 E. apply wire_poly_inv in E as [-> Gp].
  bnd H as y1 s1 E. apply (disconnect_wires_eff _ w) in E as (W1 & -> & P1 & G1 & T1 & C1); [|done|done].
  assert (Vt : is_Some (vtx s !! (g, tip))) by (apply (topo_dom_v _ _ _ _ (i_topo _ I)); eauto). destruct Vt as [pt Vt].
  assert (Vr : is_Some (vtx s !! (g, negb tip))).
  { apply (topo_dom_v _ _ _ _ (i_topo _ I)). rewrite <- flip_pair. apply (t_flip _ _ _ (i_topo _ I)). eauto. }
  destruct Vr as [pr Vr].
  assert (D : pt <> pr) by (intros ->; apply (t_loop _ _ _ (i_topo _ I) _ _ Vt); by rewrite flip_pair).
  destruct (alone_end _ _ _ _ I Nt Vt) as [Mt Ut].
  destruct (has_seg _ _ _ I Vr) as [y My].
  bnd H as y2 s1 E. apply (disc_eff _ _ _ (vtx s) _ _ pr y) in E as (m & k & P & G & Em & Dm & Vk & Fk & R & M & -> & _);
    [|apply I|apply I|apply I|done|done|rewrite negb_involutive; congruence|done|by apply (i_pts _ I)|by rewrite negb_involutive].
  rewrite negb_involutive in Em. fld in *.
  set (a := if tip then pr else pt) in *. set (b := if tip then pt else pr) in *.
  set (oa := if tip then Some k else None) in *. set (ob := if tip then None else Some k) in *.
  assert (Va : vtx s !! (g, false) = Some a) by (subst a; by destruct tip).
  assert (Vb : vtx s !! (g, true) = Some b) by (subst b; by destruct tip).
  assert (Dab : a <> b) by (subst a b; destruct tip; congruence).
  assert (Dmt : m <> (g, tip)). { intros ->. rewrite Nt in Em. injection Em as Em. by destruct tip. }
  assert (Ht : forall W, hold (set_nxt (swap (nxt s) (g, negb tip) m) (set_polys G (set_points P W))) g tip pt None).
  { intros W. exists (Some (g, tip)). fld. rewrite M, lookup_insert_ne by done. split; [done|]. right. split; [done|]. split; [|done].
    rewrite swap_ne by (done || by destruct tip). done. }
  assert (Hr : forall W, hold (set_nxt (swap (nxt s) (g, negb tip) m) (set_polys G (set_points P W))) g (negb tip) pr (Some k)).
  { intros W. exists (Some k). fld. rewrite M, lookup_insert. split; [done|]. by left. }
  bnd H as y3 s1 E. apply destroy_eff with (a := a) (b := b) (oa := oa) (ob := ob) in E as (P' & G' & R' & M' & ->); [|done|done|done|subst a oa; by destruct tip..|subst b ob; by destruct tip].
  fld in *. unf H. apply upd_inv in H. subst s'.
  assert (Mf : p_seg <$> P' = <[pt := None]> (<[pr := Some k]> (seg_of s))).
  { rewrite M', M. subst a b oa ob. destruct tip; [by rewrite insert_insert|]. rewrite (insert_commute _ pt pr) by done. by rewrite insert_insert. }
  assert (Mf' : p_seg <$> P' = <[b := ob]> (<[a := oa]> (seg_of s))).
  { rewrite Mf. subst a b oa ob. destruct tip; [done|]. by rewrite (insert_commute _ pt pr). }
  match goal with |- inv ?s1 /\ _ => set (s' := s1) end.
  assert (Lk : lost (vtx s) g pr (Some k)) by done.
  assert (Lt : lost (vtx s) g pt None) by (intros x Hx; by apply Ut in Hx as ->).
  assert (AC := del_common s s' g a b oa ob I Va Vb). destruct AC as (A1 & A2 & A3 & A4 & A5); try done.
  { subst a oa. by destruct tip. }
  { subst b ob. by destruct tip. }
  assert (Em' : nxt s !! m = Some (g, negb (negb tip))) by (by rewrite negb_involutive).
  split; [constructor|].
  - apply (topo_dendrite_rm _ _ _ _ (i_topo _ I) (negb tip) m Em' Dm). by rewrite negb_involutive.
  - done.
  - apply R', R, I.
  - done.
  - done.
  - intros h j. subst s'. fld. rewrite P1. intros Eh. destruct (side_cases h g) as [Dh|[-> | ->]]; [|by rewrite dels_in in Eh..]. rewrite dels_ne in Eh by done.
    by apply (i_live _ I h).
  - intros h j. subst s'. fld. intros Eh. destruct (side_cases h g) as [Dh|[-> | ->]]; [|by rewrite dels_in in Eh..]. rewrite dels_ne in Eh by done.
    destruct (i_seg _ I _ _ Eh) as (n & N1 & N2). destruct C1 as [[S1 N3]|(k' & S1 & K1 & K2)].
    + exists n. rewrite S1. split; [done|]. rewrite dels_ne; [done|]. destruct (decide (j = w)) as [-> | Dj]; [by apply N3|].
      intros Fn. destruct (side_cases n g) as [?|[-> | ->]]; [done|congruence..].
    + rewrite S1. destruct (decide (j = w)) as [-> | Dj]; [exists k'; rewrite lookup_insert, dels_ne by done; done|].
      exists n. rewrite lookup_insert_ne by done. split; [done|]. rewrite dels_ne; [done|].
      intros Fn. destruct (side_cases n g) as [?|[-> | ->]]; [done|congruence..].
  - done.
  - done.
  - subst s'. fld. rewrite P1. apply I.
  - subst s'. fld. rewrite (p_outer _ _ _ _ R'), (p_outer _ _ _ _ R). apply I.
  - exists w, gp, m, k, pt, pr, (w_seg <$> W1). split; [done|]. split; [done|]. split; [done|]. split; [done|]. split; [done|].
    subst s'. fld. split; [done|]. split; [done|]. split; [done|]. split; [by rewrite (p_outer _ _ _ _ R'), (p_outer _ _ _ _ R)|]. split; [auto|].
    split; [done|]. split; [done|]. split; [done|]. split; [done|]. split; [by rewrite (p_xy _ _ _ _ R'), (p_xy _ _ _ _ R)|]. split; [done|].
    split; [done|]. split; [done|]. split; [done|]. split; [done|]. split; [eauto|]. done.
Qed.
