(** The way a segment of the other decomposition takes, and the polygons beside it. *)
From stdpp Require Import gmap list relations functions.
From Coq Require Import Lia QArith Lqa.
From Verif Require Import Decomp_Model Decomp_Spec Decomp_Surgery Decomp_Eff Decomp_Inv Decomp_Tree Decomp_Nest Decomp_Good Decomp_Hist Decomp_Told Editor_Model Editor_Spec Editor_Proofs Editor_Undo.
From Verif Require Import Aabb_Model Aabb_Spec Editor_Box Geom_Model Snap_Model Snap_Spec Snap_Proofs Snap_Cand Snap_Add Snap_Main Line_Model Line_Spec Line_Geo Line_Cut Line_Run Line_Segs Line_Main Merge_Model Merge_Spec Merge_Sides Merge_Keep Merge_Dict Merge_Run Merge_Cuts Merge_Lines Merge_Fill Merge_Maps.
Local Open Scope nat_scope.

Lemma walk_app s p l m l' q : walk s p l m -> walk s m l' q -> walk s p (l ++ l') q.
Proof. intros W W'. induction W as [p|p h k l m A B W IH]; [done|]. cbn. eapply walk_step; [exact A|exact B|by apply IH]. Qed.
Lemma walk_live s p l q : inv s -> walk s p l q -> forall h, In h l -> is_Some (vec s !! fst h).
Proof.
  intros I W. induction W as [p|p h k l m A B W IH]; [done|]. intros h' [<- |H]; [|by apply IH]. apply (i_vec _ I). destruct h as [g [|]]; cbn in *; eauto.
Qed.
(** A new segment leaves walks as they are. *)
Lemma walk_linked d d' g a b p l q : inv (dec d) -> linked_up d d' g a b -> walk (dec d) p l q -> walk (dec d') p l q.
Proof.
  intros I LK W. assert (L := walk_live _ _ _ _ I W). induction W as [p|p h k l m A B W IH]; [constructor|].
  assert (Lh := L h (or_introl eq_refl)). destruct h as [i c]. cbn [fst] in Lh. eapply walk_step; [rewrite (lk_old _ _ _ _ _ LK) by done; exact A|change (flip (i, c)) with (i, negb c) in *; rewrite (lk_old _ _ _ _ _ LK) by done; exact B|]. apply IH. intros h' H'. apply L. by right.
Qed.
(** A new point on a segment gives one more step. *)
Lemma walk_divided d d' e m n w p l q : inv (dec d) -> divided d d' e m n w -> walk (dec d) p l q ->
  exists l', walk (dec d') p l' q /\ (forall h, In h l -> In h l') /\ (forall h, In h l' -> In h l \/ exists c, h = (n, c) /\ In (e, c) l).
Proof.
  intros I DV W. assert (L := walk_live _ _ _ _ I W). induction W as [p|p h k l q A B W IH]; [exists []; split; [constructor|]; split; [done|by left]|].
  destruct IH as (l' & W' & S1 & S2); [intros h' H'; apply L; by right|]. assert (Lh := L h (or_introl eq_refl)). destruct h as [g c]. cbn [fst] in Lh. change (flip (g, c)) with (g, negb c) in B.
  assert (Dn : g <> n). { intros ->. rewrite (dv_fresh _ _ _ _ _ _ DV) in Lh. by destruct Lh. }
  destruct (decide (g = e)) as [-> | De].
  - destruct (dv_vtx _ _ _ _ _ _ DV) as (a & b & VA & VB & A1 & A2 & A3 & A4). destruct c; cbn [negb] in B.
    + assert (p = b) as -> by congruence. assert (k = a) as -> by congruence. exists ((n, true) :: (e, true) :: l'). split; [|split].
      * eapply walk_step; [exact A4|exact A3|]. eapply walk_step; [exact A2|exact A1|exact W'].
      * intros h [<- |H]; [right; by left|right; right; auto].
      * intros h [<- |[<- |H]]; [right; exists true; split; [done|by left]|left; by left|]. destruct (S2 h H) as [X|(c & -> & X)]; [left; by right|right; exists c; split; [done|by right]].
    + assert (p = a) as -> by congruence. assert (k = b) as -> by congruence. exists ((e, false) :: (n, false) :: l'). split; [|split].
      * eapply walk_step; [exact A1|exact A2|]. eapply walk_step; [exact A3|exact A4|exact W'].
      * intros h [<- |H]; [by left|right; right; auto].
      * intros h [<- |[<- |H]]; [left; by left|right; exists false; split; [done|by left]|]. destruct (S2 h H) as [X|(c & -> & X)]; [left; by right|right; exists c; split; [done|by right]].
  - exists ((g, c) :: l'). split; [|split].
    + eapply walk_step; [rewrite (dv_old _ _ _ _ _ _ DV) by done; exact A|change (flip (g, c)) with (g, negb c) in *; rewrite (dv_old _ _ _ _ _ _ DV) by done; exact B|exact W'].
    + intros h [<- |H]; [by left|right; auto].
    + intros h [<- |H]; [left; by left|]. destruct (S2 h H) as [X|(c' & -> & X)]; [left; by right|right; exists c'; split; [done|by right]].
Qed.
Lemma segment_told K a b d g d' : good (dec d) -> steady K -> Editor_Model.add_segment K a b d = (Ok g, d') ->
  told (last_change (dec d')) (dom (polys (dec d))) (dom (polys (dec d'))) (poly_at (dec d') (g, true)) (poly_at (dec d') (g, false)).
Proof.
  intros G SK H. apply add_segment_inv in H as (s & x & y & bx & t & H & X & Y & B & T & ->). cbn [dec]. exact (told_new _ _ _ _ _ _ G (steady_sane K s g SK) H).
Qed.
(** Polygons beside a walk have values. *)
Definition seen (s : st) (m : dict (option nat)) (l : list he) : Prop := forall h c z, In h l -> poly_at s (turned h c) = Some z -> valued m z.

Section Walk.
Context (K : geometry) (can : ed -> nat -> vect -> bool) (SK : steady K) (NC : forall d p v, can d p v = false) (other : st).
(** What a new segment does to the map. *)
Lemma note_sides e d d' g a b r l ms2 mo2 n d2 : good (dec d) -> vec_ok (dec d) -> a <> b -> add_segment K a b d = (Ok g, d') -> note_segment g a r l ms2 mo2 d' = (Ok n, d2) ->
  poly_at other (e, false) = Some r -> poly_at other (e, true) = Some l ->
  exists h, fst h = g /\ walk (dec d') a [h] b /\ seen (dec d') (snd n) [h] /\ (forall l, seen (dec d) mo2 l -> (forall h, In h l -> is_Some (vec (dec d) !! fst h)) -> seen (dec d') (snd n) l) /\
  (forall z v, dget z (snd n) = Some (Some v) -> (exists c, poly_at (dec d') (turned h c) = Some z /\ poly_at other (e, c) = Some v) \/
     (dget z mo2 = Some (Some v) /\ forall k, poly_at (dec d) k = Some z -> poly_at (dec d') k = Some z)).
Proof.
  intros G V Dab H1 H Pr Pl. assert (LK := segment_eff _ _ _ _ _ _ G V SK H1). assert (TO := segment_told _ _ _ _ _ _ G SK H1).
  unfold note_segment, end_at in H. apply ebind_inv in H as (v & d1 & H2 & H). apply item_inv in H2 as [-> EV]. cbv beta in EV.
  set (c0 := negb (v =? a)).
  assert (WK : walk (dec d') a [(g, c0)] b).
  { eapply walk_step; [| |constructor]; unfold c0; destruct (lk_join _ _ _ _ _ LK) as [[A B]|[A B]]; assert (Ev := eq_trans (eq_sym EV) A); injection Ev as ->.
    - by rewrite Nat.eqb_refl.
    - rewrite (proj2 (Nat.eqb_neq b a)) by congruence. done.
    - by rewrite Nat.eqb_refl.
    - rewrite (proj2 (Nat.eqb_neq b a)) by congruence. done. }
  assert (SD : exists gr gl m0, poly_at (dec d') (g, c0) = Some gr /\ poly_at (dec d') (g, negb c0) = Some gl /\ snd n = dput gl (Some l) (dput gr (Some r) m0) /\
    match last_change (dec d') with CAdd q z | CSplit q z => m0 = dput z (mjoin (dget q mo2)) mo2 | CShape _ | CNone => m0 = mo2 | _ => False end).
  { cbv zeta in H. unfold c0. rewrite negb_involutive. change (poly_beside (dec d') (g, negb (v =? a))) with (poly_at (dec d') (g, negb (v =? a))) in H. change (poly_beside (dec d') (g, v =? a)) with (poly_at (dec d') (g, v =? a)) in H.
    destruct (last_change (dec d')); try done; destruct (poly_at (dec d') (g, negb (v =? a))) as [gr|]; try done; destruct (poly_at (dec d') (g, v =? a)) as [gl|]; try done; injection H as <- <-; eauto 10. }
  destruct SD as (gr & gl & m0 & SR & SL & EN & CH). clearbody c0. clear H EV.
  assert (GET : forall z, dget z (snd n) = if gl =? z then Some (Some l) else if gr =? z then Some (Some r) else dget z m0) by (intros z; rewrite EN; by rewrite !dget_dput).
  (* other polygons *)
  assert (REST : forall z, z <> gl -> z <> gr -> dget z m0 = dget z mo2 /\ forall k, poly_at (dec d) k = Some z -> poly_at (dec d') k = Some z).
  { intros z D1 D2. destruct (lk_polys _ _ _ _ _ LK) as [(C & _ & PA)|(q & n' & C & _ & _ & _ & PA)].
    - assert (m0 = mo2) as -> by (destruct C as [[q C]|C]; rewrite C in CH; done). split; [done|]. intros k. apply PA.
    - assert (SS : (gl = q /\ gr = n') \/ (gl = n' /\ gr = q)).
      { assert (TT : (poly_at (dec d') (g, true) = Some q /\ poly_at (dec d') (g, false) = Some n') \/ (poly_at (dec d') (g, true) = Some n' /\ poly_at (dec d') (g, false) = Some q)) by (destruct C as [C|C]; rewrite C in TO; apply TO).
        destruct c0; cbn [negb] in SL; destruct TT as [[T1 T2]|[T1 T2]]; rewrite T1 in *; rewrite T2 in *; [right|left|left|right]; split; congruence. }
      assert (Dq : z <> q /\ z <> n') by (destruct SS as [[-> ->]|[-> ->]]; done). destruct Dq as [Dq Dn].
      assert (m0 = dput n' (mjoin (dget q mo2)) mo2) as -> by (destruct C as [C|C]; rewrite C in CH; done). rewrite dget_dput. rewrite (proj2 (Nat.eqb_neq n' z)) by congruence. split; [done|].
      intros k E. destruct (PA k z E) as [X|[X _]]; done. }
  assert (VG : valued (snd n) gl /\ valued (snd n) gr). { split; [exists l; by rewrite GET, Nat.eqb_refl|]. unfold valued. rewrite GET, Nat.eqb_refl. destruct (gl =? gr); eauto. }
  assert (GV : forall z, z <> gl -> z <> gr -> dget z (snd n) = dget z mo2). { intros z D1 D2. rewrite GET. rewrite (proj2 (Nat.eqb_neq gl z)), (proj2 (Nat.eqb_neq gr z)) by congruence. by apply REST. }
  exists (g, c0). split; [done|]. split; [done|]. split; [|split].
  - intros h c z [<- |[]] E. destruct c; [change (poly_at (dec d') (g, negb c0) = Some z) in E; assert (z = gl) as -> by congruence|change (poly_at (dec d') (g, c0) = Some z) in E; assert (z = gr) as -> by congruence]; apply VG.
  - intros l' SE LI h c z Hh E. destruct (decide (z = gl)) as [-> | D1]; [apply VG|]. destruct (decide (z = gr)) as [-> | D2]; [apply VG|]. destruct (REST z D1 D2) as [_ RK].
    assert (Lh := LI h Hh). destruct (side_poly (dec d) (fst h) (snd (turned h c)) G Lh) as (y & Y & _).
    assert (ET : (fst h, snd (turned h c)) = turned h c) by (by destruct h, c). rewrite ET in Y.
    unfold valued. rewrite GV by done. apply (SE h c z Hh).
    destruct (lk_polys _ _ _ _ _ LK) as [(C & _ & PA)|(q & n' & C & _ & _ & _ & PA)].
    + assert (X := PA _ _ Y). congruence.
    + destruct (PA _ _ Y) as [X|[-> X]]; [congruence|]. exfalso. assert (z = n') as -> by congruence.
      assert (TT : (poly_at (dec d') (g, true) = Some q /\ poly_at (dec d') (g, false) = Some n') \/ (poly_at (dec d') (g, true) = Some n' /\ poly_at (dec d') (g, false) = Some q)) by (destruct C as [C|C]; rewrite C in TO; apply TO).
      destruct c0; cbn [negb] in SL; destruct TT as [[T1 T2]|[T1 T2]]; rewrite T1 in *; rewrite T2 in *; congruence.
  - intros z v'. rewrite GET. destruct (Nat.eqb_spec gl z) as [<- | D1]; [intros E; injection E as <-; left; by exists true|]. destruct (Nat.eqb_spec gr z) as [<- | D2]; [intros E; injection E as <-; left; by exists false|].
    destruct (REST z) as [-> RK]; [congruence|congruence|]. intros E. right. done.
Qed.
Context (pm : dict nat) (segs0 : list nat).
(** The way of a segment of the other decomposition from the place of its first to that of its second end. *)
Definition trip (s : st) (m : dict (option nat)) (e : nat) (l : list he) : Prop := In e segs0 /\ seen s m l /\
  exists a b p q, vtx other !! (e, false) = Some a /\ vtx other !! (e, true) = Some b /\ dget a pm = Some p /\ dget b pm = Some q /\ walk s p l q.
(** Values and keys come from ways. *)
Definition based (s : st) (mo1 : dict nat) (m : dict (option nat)) (C : nat -> list he -> Prop) : Prop :=
  (forall z v, dget z m = Some (Some v) -> exists e l h c, C e l /\ In h l /\ poly_at s (turned h c) = Some z /\ poly_at other (e, c) = Some v) /\
  (forall g e, dget g mo1 = Some e -> exists l c, C e l /\ In (g, c) l).
Lemma based_mono s mo1 m (C C' : nat -> list he -> Prop) : (forall e l, C e l -> exists l', C' e l' /\ forall h, In h l -> In h l') -> based s mo1 m C -> based s mo1 m C'.
Proof.
  intros S [A B]. split.
  - intros z v E. destruct (A z v E) as (e & l & h & c & X & Y & Z). destruct (S _ _ X) as (l' & X' & Y'). exists e, l', h, c. auto.
  - intros g e E. destruct (B g e E) as (l & c & X & Y). destruct (S _ _ X) as (l' & X' & Y'). exists l', c. auto.
Qed.
(** One more segment on the way of [e]. *)
Lemma step_line e d d' g a b r l ms2 mo1 mo2 n d2 l0 : good (dec d) -> vec_ok (dec d) -> a <> b -> add_segment K a b d = (Ok g, d') -> note_segment g a r l ms2 mo2 d' = (Ok n, d2) ->
  poly_at other (e, false) = Some r -> poly_at other (e, true) = Some l -> seen (dec d) mo2 l0 -> (exists p, walk (dec d) p l0 a) ->
  based (dec d) mo1 mo2 (fun e' l' => trip (dec d) mo2 e' l' \/ e' = e /\ l' = l0) ->
  (forall e' l', trip (dec d) mo2 e' l' -> trip (dec d') (snd n) e' l') /\
  exists h, walk (dec d') a [h] b /\ seen (dec d') (snd n) (l0 ++ [h]) /\ based (dec d') (dput g e mo1) (snd n) (fun e' l' => trip (dec d') (snd n) e' l' \/ e' = e /\ l' = l0 ++ [h]).
Proof.
  intros G V D H1 H2 Pr Pl S0 [p0 W0] [B1 B2]. destruct (note_sides e _ _ _ _ _ _ _ _ _ _ _ G V D H1 H2 Pr Pl) as (h & Eh & WH & SH & SK' & VV). assert (LK := segment_eff _ _ _ _ _ _ G V SK H1). assert (I := g_inv _ G).
  assert (TR : forall e' l', trip (dec d) mo2 e' l' -> trip (dec d') (snd n) e' l').
  { intros e' l' (IN & SE & a' & b' & p & q & X1 & X2 & X3 & X4 & W). split; [done|]. split; [apply SK'; [done|by eapply walk_live]|]. exists a', b', p, q. repeat (split; [done|]). by eapply walk_linked. }
  split; [done|]. exists h. split; [done|].
  assert (S1 : seen (dec d') (snd n) (l0 ++ [h])).
  { intros k c z IN. apply in_app_or in IN as [IN|IN]; [apply (SK' l0); [done|by eapply walk_live|done]|by apply SH]. }
  split; [done|].
  assert (MO : forall e' l', trip (dec d) mo2 e' l' \/ e' = e /\ l' = l0 -> exists l2, (trip (dec d') (snd n) e' l2 \/ e' = e /\ l2 = l0 ++ [h]) /\ forall k, In k l' -> In k l2).
  { intros e' l' [X|[-> ->]]; [exists l'; auto|]. exists (l0 ++ [h]). split; [by right|]. intros k Hk. apply in_or_app. by left. }
  split.
  - intros z v E. destruct (VV z v E) as [(c & X & Y)|[E' RK]].
    + exists e, (l0 ++ [h]), h, c. split; [by right|]. split; [apply in_or_app; right; by left|done].
    + destruct (B1 z v E') as (e' & l' & k & c & X & IN & Y & Z). destruct (MO _ _ X) as (l2 & X2 & S2). exists e', l2, k, c. auto.
  - intros g' e'. rewrite dget_dput. destruct (Nat.eqb_spec g g') as [<- | Dg].
    + intros E. injection E as <-. exists (l0 ++ [h]), (snd h). split; [by right|]. apply in_or_app. right. left. destruct h as [i c]. cbn in *. by subst i.
    + intros E. destruct (B2 g' e' E) as (l' & c & X & IN). destruct (MO _ _ X) as (l2 & X2 & S2). exists l2, c. auto.
Qed.
Lemma line_trip e r l a b div : poly_at other (e, false) = Some r -> poly_at other (e, true) = Some l -> forall start ms2 mo1 mo2 d n d' l0, fine d -> put_line K can e r l start b div ms2 mo1 mo2 d = (Ok n, d') ->
  spread (dec d') (tolerance d) -> walk (dec d) a l0 start -> seen (dec d) mo2 l0 -> based (dec d) mo1 mo2 (fun e' l' => trip (dec d) mo2 e' l' \/ e' = e /\ l' = l0) ->
  (forall e' l', trip (dec d) mo2 e' l' -> trip (dec d') (snd n) e' l') /\
  exists l1, walk (dec d') a l1 b /\ seen (dec d') (snd n) l1 /\ based (dec d') (snd (fst n)) (snd n) (fun e' l' => trip (dec d') (snd n) e' l' \/ e' = e /\ l' = l1).
Proof.
  intros Pr Pl. induction div as [|[t m] div IH]; intros start ms2 mo1 mo2 d n d' l0 F H SP W S0 B0; cbn [put_line] in H.
  - destruct (Nat.eqb_spec start b) as [-> | D]; [apply eret_inv in H as [-> ->]; split; [done|]; by exists l0|].
    apply ebind_inv in H as (g & d1 & H1 & H). apply ebind_inv in H as (m & d2 & H2 & H). apply eret_inv in H as [-> ->]. destruct F as (G & V & T).
    assert (H3 := H2). apply note_segment_inv in H3 as [-> _]. cbn [fst snd].
    destruct (step_line e _ _ _ _ _ _ _ _ _ _ _ _ l0 G V D H1 H2 Pr Pl S0 (ex_intro _ a W) B0) as (TR & h & WH & S1 & B1). split; [done|]. exists (l0 ++ [h]). split; [|done].
    eapply walk_app; [|exact WH]. eapply walk_linked; [apply G|exact (segment_eff _ _ _ _ _ _ G V SK H1)|exact W].
  - destruct (Nat.eqb_spec start m) as [-> | D]; [by eapply IH|]. unfold xy_at in H. apply ebind_inv in H as (x & d1 & H1 & H). apply item_inv in H1 as [-> X]. apply ebind_inv in H as (y & d1 & H1 & H). apply item_inv in H1 as [-> Y].
    destruct (below _ _) eqn:BL.
    + exfalso. apply ebind_inv in H as (p & d1 & H1 & H). assert (d1 = d) as ->.
      { unfold merge_points in H1. destruct (if m <? start then _ else _) as [x' y']. unfold xy_at in H1. apply ebind_inv in H1 as (vx & d2 & H2 & H1). apply item_inv in H2 as [-> _]. apply ebind_inv in H1 as (vy & d2 & H2 & H1). apply item_inv in H2 as [-> _]. rewrite NC in H1. by injection H1. }
      destruct (put_line_run K can SK NC (dec d) _ _ _ _ _ _ [] _ _ _ _ _ _ F H) as (GR & _). assert (SD := grows_spread _ _ _ GR SP).
      apply (SD start m x y D); [unfold is_at; by rewrite lookup_fmap|unfold is_at; by rewrite lookup_fmap|]. by apply below_near in BL.
    + apply ebind_inv in H as (g & d1 & H1 & H). apply ebind_inv in H as (q & d2 & H2 & H). assert (F' := F). destruct F as (G & V & T).
      assert (H3 := H2). apply note_segment_inv in H3 as [-> _]. assert (LK := segment_eff _ _ _ _ _ _ G V SK H1). assert (GR := linked_grows _ _ _ _ _ F' LK).
      destruct (step_line e _ _ _ _ _ _ _ _ _ _ _ _ l0 G V D H1 H2 Pr Pl S0 (ex_intro _ a W) B0) as (TR & h & WH & S1 & B1).
      destruct (IH m _ _ _ _ _ _ (l0 ++ [h]) (proj1 GR) H) as (TR' & X'); [by rewrite (lk_tol _ _ _ _ _ LK)| |done|done|].
      { eapply walk_app; [|exact WH]. eapply walk_linked; [apply G|exact LK|exact W]. }
      split; [auto|done].
Qed.
(** Crossings. *)
Lemma trip_divided d d' e m n w mo1 mo2 : good (dec d) -> divided d d' e m n w ->
  (forall e' l, trip (dec d) mo2 e' l -> exists l', trip (dec d') mo2 e' l' /\ forall h, In h l -> In h l') /\
  (based (dec d) mo1 mo2 (trip (dec d) mo2) -> based (dec d') mo1 mo2 (trip (dec d') mo2)).
Proof.
  intros G DV. assert (I := g_inv _ G).
  assert (PA : forall h c, is_Some (vec (dec d) !! fst h) -> poly_at (dec d') (turned h c) = poly_at (dec d) (turned h c)).
  { intros [g b] c L. cbn in L. assert (g <> n) by (intros ->; rewrite (dv_fresh _ _ _ _ _ _ DV) in L; by destruct L). destruct c; apply (dv_side _ _ _ _ _ _ DV); done. }
  assert (TR : forall e' l, trip (dec d) mo2 e' l -> exists l', trip (dec d') mo2 e' l' /\ forall h, In h l -> In h l').
  { intros e' l (IN & SE & a' & b' & p & q & X1 & X2 & X3 & X4 & W). destruct (walk_divided _ _ _ _ _ _ _ _ _ I DV W) as (l' & W' & S1 & S2). exists l'. split; [|done]. split; [done|]. split; [|exists a', b', p, q; done].
    intros h c z Hh E. destruct (S2 h Hh) as [Y|(c' & -> & Y)].
    - rewrite PA in E by (by eapply walk_live). by eapply SE.
    - apply (SE (e, c') c z Y). destruct c; [change (turned (n, c') true) with (n, negb c') in E; change (turned (e, c') true) with (e, negb c')|]; cbn [turned] in *; by rewrite <- (dv_sides _ _ _ _ _ _ DV). }
  split; [done|]. intros [B1 B2]. split.
  - intros z v E. destruct (B1 z v E) as (e' & l & h & c & X & IN & Y & Z). destruct (TR _ _ X) as (l' & X' & S'). exists e', l', h, c. split; [done|]. split; [auto|]. split; [|done]. rewrite PA; [done|]. destruct X as (_ & _ & ? & ? & ? & ? & _ & _ & _ & _ & W). by eapply walk_live.
  - intros g e' E. destruct (B2 g e' E) as (l & c & X & IN). destruct (TR _ _ X) as (l' & X' & S'). exists l', c. auto.
Qed.
Lemma cuts_trip xa xb mo1 mo2 cs : forall div d div' d', fine d -> cuts xa xb cs div d = (Ok div', d') ->
  (forall e l, trip (dec d) mo2 e l -> exists l', trip (dec d') mo2 e l' /\ forall h, In h l -> In h l') /\
  (based (dec d) mo1 mo2 (trip (dec d) mo2) -> based (dec d') mo1 mo2 (trip (dec d') mo2)).
Proof.
  induction cs as [|g cs IH]; intros div d div' d' F H; cbn [cuts] in H; [apply eret_inv in H as [_ ->]; split; [intros e l T; by exists l|done]|].
  apply ebind_inv in H as (c & d2 & H1 & H). apply crossing_inv in H1 as (-> & _); [|done]. destruct c as [[t0 t1]|]; [|by eapply IH].
  apply ebind_inv in H as ([m n] & d2 & H1 & H). destruct (there_eff _ _ _ _ _ _ F H1) as (x & y & E & [(-> & _)|(w & DV & _)]); [by eapply IH|].
  destruct (IH _ _ _ _ (proj1 (divided_grows _ _ _ _ _ _ F DV)) H) as [T1 B1]. destruct (trip_divided _ _ _ _ _ _ mo1 mo2 (proj1 F) DV) as [T2 B2]. split; [|auto].
  intros e l T. destruct (T2 _ _ T) as (l1 & X1 & S1). destruct (T1 _ _ X1) as (l2 & X2 & S2). exists l2. auto.
Qed.
Lemma segments_trip segs : forall ms1 ms2 mo1 mo2 d r d', (forall e, In e segs -> In e segs0) -> fine d -> put_segments K can other pm segs ms1 ms2 mo1 mo2 d = (Ok r, d') -> spread (dec d') (tolerance d) ->
  based (dec d) mo1 mo2 (trip (dec d) mo2) -> based (dec d') (snd (fst r)) (snd r) (trip (dec d') (snd r)) /\
  (forall e, (exists l, trip (dec d) mo2 e l) \/ In e segs -> exists l, trip (dec d') (snd r) e l).
Proof.
  induction segs as [|e segs IH]; intros ms1 ms2 mo1 mo2 d r d' SU F H SP B0; cbn [put_segments] in H.
  { apply eret_inv in H as [-> ->]. split; [done|]. intros e [T|[]]. done. }
  assert (SU' : forall e, In e segs -> In e segs0) by (intros e' I; apply SU; by right).
  apply ebind_inv in H as (a & d1 & H1 & H). apply of_other_inv in H1 as [-> EA]. apply ebind_inv in H as (b & d1 & H1 & H). apply of_other_inv in H1 as [-> EB].
  assert (EA' : exists qa, vtx other !! (e, false) = Some qa /\ dget qa pm = Some a) by (destruct (vtx other !! (e, false)) as [qa|]; [|done]; eauto). destruct EA' as (qa & VA & PA).
  assert (EB' : exists qb, vtx other !! (e, true) = Some qb /\ dget qb pm = Some b) by (destruct (vtx other !! (e, true)) as [qb|]; [|done]; eauto). destruct EB' as (qb & VB & PB). clear EA EB.
  apply ebind_inv in H as (pa & d1 & H1 & H). apply item_inv in H1 as [-> _]. apply ebind_inv in H as (pb & d1 & H1 & H). apply item_inv in H1 as [-> _].
  destruct (Nat.eqb_spec a b) as [-> | D].
  { destruct (IH _ _ _ _ _ _ _ SU' F H SP B0) as [B1 T1]. split; [done|]. intros e' [T|[<- |T]]; [apply T1; by left| |apply T1; by right]. apply T1. left. exists []. split; [apply SU; by left|]. split; [by intros ? ? ? []|]. exists qa, qb, b, b. repeat (split; [done|]). constructor. }
  apply ebind_inv in H as (x & d1 & H1 & H). apply of_other_inv in H1 as [-> Px]. apply ebind_inv in H as (l & d1 & H1 & H). apply of_other_inv in H1 as [-> Pl].
  apply ebind_inv in H as (div & d1 & H1 & H). apply ebind_inv in H as (ms1' & d2 & H2 & H). apply of_other_inv in H2 as [-> HN].
  apply ebind_inv in H as (n & d2 & H2 & H).
  unfold line_cuts, xy_at in H1. apply ebind_inv in H1 as (xa & d3 & H0 & H1). apply item_inv in H0 as [-> _]. apply ebind_inv in H1 as (xb & d3 & H0 & H1). apply item_inv in H0 as [-> _]. apply ebind_inv in H1 as (cs & d3 & H0 & H1). apply around_inv in H0 as (-> & _).
  assert (G1 := cuts_grow _ _ _ _ _ _ _ F H1). destruct (put_line_run K can SK NC (dec d) _ _ _ _ _ _ ms1' _ _ _ _ _ _ (proj1 G1) H2) as (G2 & _).
  destruct (segments_run K can SK NC (dec d) _ _ _ _ _ _ _ _ _ _ (proj1 G2) H) as (G3 & _).
  assert (T1 : tolerance d1 = tolerance d) by apply G1. assert (T2 : tolerance d2 = tolerance d) by (destruct G2 as (_ & T2 & _); congruence).
  destruct (cuts_trip _ _ mo1 mo2 _ _ _ _ _ F H1) as [TC BC]. specialize (BC B0).
  assert (LB := line_trip e x l a b (sort_cuts div) Px Pl a _ _ _ _ _ _ [] (proj1 G1) H2). destruct LB as (TL & l1 & W1 & S1 & B1).
  { rewrite T1. by eapply grows_spread. } { constructor. } { by intros ? ? ? []. } { eapply based_mono; [|exact BC]. intros e' l' T. exists l'. split; [by left|done]. }
  assert (TE : trip (dec d2) (snd n) e l1). { split; [apply SU; by left|]. split; [done|]. exists qa, qb, a, b. done. }
  destruct (IH _ _ _ _ _ _ _ SU' (proj1 G2) H) as [B2 T3]; [by rewrite T2| |].
  { eapply based_mono; [|exact B1]. intros e' l' [T|[-> ->]]; eauto. }
  split; [done|]. intros e' [[l' T]|[<- |T]]; apply T3; [|left; eauto|by right]. left. destruct (TC _ _ T) as (l2 & X & _). exists l2. by apply TL.
Qed.
End Walk.
(** Where points of the other decomposition are put. *)
Lemma points_pm K inside root other pts : forall ms1 mo0 pm d r d', fine d -> NoDup pts -> (forall q, In q pts -> dget q pm = None) -> put_points K inside root other pts ms1 mo0 pm d = (Ok r, d') ->
  (forall p q, dget p mo0 = Some q -> dget q pm = Some p) -> (forall q p, dget q pm = Some p -> is_Some (dget p mo0)) ->
  (forall p q, dget p (snd (fst r)) = Some q -> dget q (snd r) = Some p) /\ (forall q p, dget q (snd r) = Some p -> is_Some (dget p (snd (fst r)))) /\ (forall q, is_Some (dget q (snd r)) <-> is_Some (dget q pm) \/ In q pts).
Proof.
  induction pts as [|q pts IH]; intros ms1 mo0 pm d r d' F ND FR H I1 I2; cbn [put_points] in H.
  { apply eret_inv in H as [-> ->]. cbn. split; [done|]. split; [done|]. intros q. split; [by left|]. by intros [?|[]]. }
  apply ebind_inv in H as (z & d1 & H1 & H). apply of_other_inv in H1 as [-> _].
  apply ebind_inv in H as (p & d1 & H2 & H). apply ebind_inv in H as (ms1' & d2 & H3 & H). assert (d2 = d1) as -> by (by eapply note_split_state).
  assert (GR := impl_grows _ _ _ _ _ _ _ F H2). apply list.NoDup_cons in ND as [Nq ND]. rewrite elem_of_list_In in Nq.
  assert (FR' : forall q', In q' pts -> dget q' (dput q p pm) = None). { intros q' I. rewrite dget_dput. destruct (Nat.eqb_spec q q') as [-> | D]; [done|]. apply FR. by right. }
  assert (Fq : dget q pm = None) by (apply FR; by left).
  destruct (IH _ _ _ _ _ _ (proj1 GR) ND FR' H) as (A & B & C).
  - intros p' q'. rewrite !dget_dput. destruct (Nat.eqb_spec p p') as [<- | Dp]; [intros E; injection E as <-; by rewrite Nat.eqb_refl|]. intros E. apply I1 in E. destruct (Nat.eqb_spec q q') as [<- | Dq]; [congruence|done].
  - intros q' p'. rewrite !dget_dput. destruct (Nat.eqb_spec q q') as [<- | Dq]; [intros E; injection E as <-; rewrite Nat.eqb_refl; by eexists|]. intros E. destruct (p =? p'); [by eexists|]. by eapply I2.
  - split; [done|]. split; [done|]. intros q'. rewrite C, dget_dput. destruct (Nat.eqb_spec q q') as [<- | Dq]; [split; [intros _; right; by left|intros _; left; by eexists]|]. split; (intros [?|?]; [by left|]); [right; by right|]. by destruct H0 as [?|?]; [|right].
Qed.
(** All of intersect_single. *)
Lemma single_trip K can inside root k tol other pts segs d ms mo d' : steady K -> (forall d p v, can d p v = false) -> good (dec d) -> vec_ok (dec d) -> (0 < tol)%Q -> NoDup pts -> intersect_single K can inside root k tol other pts segs d = (Ok (ms, mo), d') -> spread (dec d') tol ->
  exists pm m, (forall p q, dget p (m_points mo) = Some q -> dget q pm = Some p) /\ (forall q p, dget q pm = Some p -> is_Some (dget p (m_points mo))) /\ (forall q, is_Some (dget q pm) <-> In q pts) /\
  drawn_map (fun _ => True) (dec d') m /\ fill k (dec d') m = Ok (m_polys mo) /\ based other (dec d') (m_segs mo) m (trip other pm segs (dec d') m) /\ (forall e, In e segs -> exists l, trip other pm segs (dec d') m e l).
Proof.
  intros SK NC G V P ND H SP. unfold intersect_single in H.
  destruct ((x <% put_points K inside root other pts [] [] []; _) (set_tol tol d)) as [[m| |] d1] eqn:E; [|done|done]. injection H as -> <-.
  apply ebind_inv in E as ([[ms1 mo0] pm] & d2 & H1 & E). apply ebind_inv in E as ([[[ms1' ms2] mo1] mo2] & d3 & H2 & E).
  destruct (fill k (dec d3) mo2) as [mo2'| |] eqn:FI; [|done|done]. injection E as <- <- <-. cbn [m_segs m_polys m_points].
  assert (F : fine (set_tol tol d)) by done. destruct (points_run _ _ _ (dec d) _ _ _ _ _ _ _ _ F H1) as (G1 & _). assert (T : tolerance d2 = tol) by (destruct G1 as (_ & T & _); exact T).
  destruct (points_pm _ _ _ _ _ _ _ [] _ _ _ F ND (fun _ _ => eq_refl) H1) as (A & B & C); [done|done|]. cbn [fst snd] in *.
  exists pm, mo2. split; [done|]. split; [done|]. split; [intros q; rewrite C; split; [by intros [[? X]|X]|by right]|]. split.
  - refine (segments_map K can SK NC (fun _ => True) other pm segs (fun _ _ _ _ _ => Logic.I) _ _ _ _ _ _ _ (proj1 G1) H2 _). split; [apply NoDup_nil_2|done].
  - split; [done|]. rewrite <- T in SP. destruct (segments_trip K can SK NC other pm segs segs _ _ _ _ _ _ _ (fun _ X => X) (proj1 G1) H2 SP) as [X Y]; [done|]. split; [done|]. intros e IN. apply Y. by right.
Qed.
