(** The crossings of a new line, and how they are recorded. *)
From stdpp Require Import gmap list relations functions.
From Coq Require Import Lia QArith Lqa.
From Verif Require Import Decomp_Model Decomp_Spec Decomp_Surgery Decomp_Eff Decomp_Inv Decomp_Good Decomp_Hist Decomp_Told Editor_Model Editor_Spec Editor_Proofs Editor_Undo.
From Verif Require Import Aabb_Model Aabb_Spec Editor_Box Geom_Model Snap_Model Snap_Spec Snap_Proofs Snap_Cand Snap_Add Snap_Main Line_Model Line_Spec Line_Geo Line_Cut Line_Run Line_Main Merge_Model Merge_Spec Merge_Sides Merge_Keep Merge_Dict Merge_Run.
Local Open Scope nat_scope.

Notation entry := (Q * (nat * nat * nat))%type.
(** Every segment that is cut is known when its part is recorded. *)
Fixpoint ok_cuts (o : nat -> nat) (G : nat -> Prop) (l : list entry) : Prop :=
  match l with [] => True | (_, (_, ga, gb)) :: r => (gb = ga \/ G ga /\ o gb = o ga) /\ ok_cuts o (fun k => G k \/ gb <> ga /\ k = gb) r end.
Lemma ok_mono o (G G' : nat -> Prop) l : (forall k, G k -> G' k) -> ok_cuts o G l -> ok_cuts o G' l.
Proof.
  revert G G'. induction l as [|[t [[m ga] gb]] l IH]; intros G G' S; [done|]. intros [A B]. cbn. split; [destruct A as [A|[A A']]; [by left|right; auto]|]. eapply IH; [|exact B]. intros k [C|C]; [left; auto|by right].
Qed.
Lemma ok_snoc o t m ga gb l : forall G, ok_cuts o G l -> (gb = ga \/ o gb = o ga /\ (G ga \/ exists t' m' a', In (t', (m', a', ga)) l /\ ga <> a')) -> ok_cuts o G (l ++ [(t, (m, ga, gb))]).
Proof.
  induction l as [|[u [[p a] b]] l IH]; intros G; [intros _ [A|[A [B|(? & ? & ? & [] & _)]]]; (split; [|done]); [by left|by right]|].
  intros [A B] C. cbn. split; [done|]. apply IH; [done|]. destruct C as [C|[C D]]; [by left|]. right. split; [done|]. destruct D as [D|(t' & m' & a' & [D|D] & N)]; [left; by left| |right; eauto 6].
  injection D as <- <- <- <-. left. right. done.
Qed.
Lemma ok_ext o o' l : forall G, (forall t m a b, In (t, (m, a, b)) l -> o' a = o a /\ o' b = o b) -> ok_cuts o G l -> ok_cuts o' G l.
Proof.
  induction l as [|[t [[m ga] gb]] l IH]; intros G E; [done|]. intros [A B]. cbn. split.
  - destruct (E t m ga gb) as [E1 E2]; [by left|]. destruct A as [A|[A A']]; [by left|right]. split; [done|congruence].
  - apply IH; [|done]. intros t' m' a b I. eapply E. by right.
Qed.
Lemma ok_swap o u m g m' g' l2 l1 : forall G, ok_cuts o G (l1 ++ (u, (m, g, g)) :: l2) -> ok_cuts o G (l1 ++ (u, (m', g', g')) :: l2).
Proof.
  induction l1 as [|[t [[p ga] gb]] l1 IH]; intros G.
  - intros [_ B]. cbn. split; [by left|]. eapply ok_mono; [|exact B]. intros k [C|[C _]]; [by left|done].
  - intros [A B]. cbn. split; [done|]. by apply IH.
Qed.
Lemma record_cases t c l : (record_cut t c l = l ++ [(t, c)]) \/ exists l1 u x l2, l = l1 ++ (u, x) :: l2 /\ (t == u)%Q /\ record_cut t c l = l1 ++ (u, c) :: l2.
Proof.
  induction l as [|[u x] l IH]; [by left|]. cbn. destruct (Qeq_bool t u) eqn:E.
  - right. exists [], u, x, l. split; [done|]. split; [by apply Qeq_bool_eq|done].
  - destruct IH as [-> |(l1 & u' & x' & l2 & -> & E' & ->)]; [by left|]. right. exists ((u, x) :: l1), u', x', l2. done.
Qed.
Lemma note_ok mo1 l : forall ms ms' o (G : nat -> Prop), note_cuts mo1 l ms = Some ms' -> (forall k, G k -> origin ms k = o k) -> ok_cuts o G l ->
  (forall k, origin ms k = o k \/ (exists t m a, In (t, (m, a, k)) l /\ k <> a) -> origin ms' k = o k) /\ (forall t m a b, In (t, (m, a, b)) l -> dget a mo1 = None) /\ (uniq ms -> uniq ms').
Proof.
  induction l as [|[t [[m ga] gb]] l IH]; intros ms ms' o G H KN OK; cbn in H.
  { injection H as <-. split; [|done]. intros k [A|(? & ? & ? & [] & _)]. done. }
  destruct (dget ga mo1) eqn:E; [done|]. destruct OK as [A B].
  destruct (decide (gb = ga)) as [-> | D].
  - assert (OO : forall k, origin (dput ga (origin ms ga) ms) k = origin ms k). { intros k. rewrite origin_dput. destruct (decide (k = ga)) as [-> | D]; [by rewrite fn_lookup_insert|by rewrite fn_lookup_insert_ne]. }
    destruct (IH _ _ o (fun k => G k \/ ga <> ga /\ k = ga) H) as (X & Y & Z); [intros k [C|[C _]]; [rewrite OO; auto|done]|exact B|]. split; [|split].
    + intros k [C|(t' & m' & a & [C|C] & N)]; [apply X; left; by rewrite OO|congruence|apply X; right; eauto 6].
    + intros t' m' a b [C|C]; [congruence|by eapply Y].
    + intros U. by apply Z, uniq_dput.
  - destruct A as [A|[A A']]; [done|].
    assert (OO : forall k, origin (dput gb (origin ms ga) ms) k = if decide (k = gb) then o gb else origin ms k).
    { intros k. rewrite origin_dput. destruct (decide (k = gb)) as [-> | D']; [rewrite fn_lookup_insert; rewrite KN by done; done|by rewrite fn_lookup_insert_ne]. }
    destruct (IH _ _ o (fun k => G k \/ gb <> ga /\ k = gb) H) as (X & Y & Z); [|exact B|].
    { intros k C. rewrite OO. destruct (decide (k = gb)) as [-> | D']; [done|]. destruct C as [C|[_ C]]; [auto|done]. }
    split; [|split].
    + intros k C. apply X. rewrite OO. destruct (decide (k = gb)) as [-> | D']; [by left|]. destruct C as [C|(t' & m' & a & [C|C] & N)]; [by left|congruence|right; eauto 6].
    + intros t' m' a b [C|C]; [congruence|by eapply Y].
    + intros U. by apply Z, uniq_dput.
Qed.
(** Keys and values that are added. *)
Lemma note_keys mo1 l : forall ms ms' (P Q : nat -> Prop), note_cuts mo1 l ms = Some ms' -> (forall g v, dget g ms = Some v -> P g /\ Q v) -> (forall t m a b, In (t, (m, a, b)) l -> P b) ->
  (forall g v, dget g ms' = Some v -> P g).
Proof.
  induction l as [|[t [[m ga] gb]] l IH]; intros ms ms' P Q H KE PB; cbn in H; [injection H as <-; intros g v E; by destruct (KE _ _ E)|].
  destruct (dget ga mo1) eqn:E; [done|]. apply (IH _ _ P (fun _ => True) H); [|intros; eapply PB; by right]. intros g v. rewrite dget_dput. destruct (Nat.eqb_spec gb g) as [-> | D]; [intros _; split; [|done]; eapply PB; by left|]. intros E'. split; [|done]. by destruct (KE _ _ E').
Qed.

Section Cuts.
Context (s0 : st) (d1 : ed) (ms1 ms2 mo1 : dict nat) (xa xb : vect).
Context (F1 : fine d1) (R : recorded s0 d1 ms1 ms2 mo1).
Record cutting (d : ed) (div : list entry) (o : nat -> nat) : Prop := Cutting {
  c_grows : grows d1 d;
  c_keep : keeps s0 (dec d) o (origin ms2);
  c_old : forall k, is_Some (vec (dec d1) !! k) -> o k = origin ms1 k /\ is_Some (vec (dec d) !! k);
  c_ent : forall t m ga gb, In (t, (m, ga, gb)) div -> is_Some (vec (dec d) !! ga) /\ is_Some (vec (dec d) !! gb) /\ exists w, is_at (dec d) m w /\ near w (along xa xb t) (tolerance d1) /\ (gb <> ga -> same w (along xa xb t));
  c_new : forall g, is_Some (vec (dec d) !! g) -> is_Some (vec (dec d1) !! g) \/ exists t m a, In (t, (m, a, g)) div /\ g <> a;
  c_ok : ok_cuts o (fun k => is_Some (vec (dec d1) !! k)) div;
  c_outer : outer_of (dec d) = outer_of (dec d1) }.
Lemma cutting_start : cutting d1 [] (origin ms1).
Proof.
  constructor; try done.
  - apply R.
  - intros g L. by left.
Qed.
Lemma crossing_inv g d c d' : fine d -> crossing g xa xb d = (Ok c, d') -> d' = d /\ is_Some (vec (dec d) !! g) /\ exists x y, ends (dec d) g x y /\ c = seg_intersection (vminus y x) x xa xb.
Proof.
  intros (G & V & _) H. unfold crossing, end_at, xy_at in H. apply ebind_inv in H as (v & d2 & H1 & H). apply item_inv in H1 as [-> EV].
  apply ebind_inv in H as (a & d2 & H1 & H). apply item_inv in H1 as [-> EA]. apply ebind_inv in H as (o & d2 & H1 & H). apply item_inv in H1 as [-> EO]. apply eret_inv in H as [-> ->]. cbv beta in *.
  split; [done|]. split; [eauto|]. destruct (live_ends _ g (g_inv _ G)) as (x & y & a' & b & A & B & X & Y); [eauto|]. assert (a' = a) as -> by congruence. exists x, y. split; [exists a, b; done|].
  assert (o = x) as ->. { rewrite lookup_fmap in X. unfold vect in *. congruence. }
  assert (v = vminus y x) as -> by (assert (EV2 := eq_trans (eq_sym EV) (V _ _ _ _ _ A B X Y)); injection EV2; done). done.
Qed.
Lemma cuts_grow l : forall div d div' d', fine d -> cuts xa xb l div d = (Ok div', d') -> grows d d'.
Proof.
  induction l as [|g l IH]; intros div d div' d' F H; cbn [cuts] in H; [apply eret_inv in H as [_ ->]; by apply grows_refl|].
  apply ebind_inv in H as (c & d2 & H1 & H). apply crossing_inv in H1 as (-> & _); [|done]. destruct c as [[t0 t1]|]; [|by eapply IH].
  apply ebind_inv in H as ([m n] & d2 & H1 & H). destruct (there_eff _ _ _ _ _ _ F H1) as (x & y & E & [(-> & _)|(w & DV & _)]); [by eapply IH|].
  assert (GR := divided_grows _ _ _ _ _ _ F DV). eapply grows_trans; [exact GR|]. eapply IH; [apply GR|exact H].
Qed.
Lemma near_both v w z r : (0 < r)%Q -> near v z r -> same w z -> near v w r.
Proof. intros P N S. eapply near_same; [apply same_refl|apply same_sym, S|exact N]. Qed.
Lemma cutting_step g d m n d' t0 t1 x y div o : cutting d div o -> spread (dec d') (tolerance d1) -> ends (dec d) g x y -> is_Some (vec (dec d) !! g) -> seg_intersection (vminus y x) x xa xb = Some (t0, t1) ->
  split_there g t0 d = (Ok (m, n), d') -> exists o', cutting d' (record_cut t1 (m, g, n) div) o'.
Proof.
  intros C SP EN LG SI H. assert (Fd : fine d) by apply C. assert (P : (0 < tolerance d1)%Q) by apply F1.
  destruct (isec_sound _ _ _ _ _ _ SI) as ([T1 T2] & [T3 T4] & SA & DT). assert (TT : (0 < t0 < 1)%Q) by lra. clear T1 T2 T3 T4.
  destruct (there_eff _ _ _ _ _ _ Fd H) as (x' & y' & E' & ST). destruct (ends_fun _ _ _ _ _ _ EN E') as [-> ->].
  assert (TOL : tolerance d = tolerance d1) by apply C.
  (* an entry for the same place *)
  assert (TIE : forall u m' ga gb, In (u, (m', ga, gb)) div -> (t1 == u)%Q -> gb = ga /\ n = g).
  { intros u m' ga gb IN E. destruct (c_ent _ _ _ C _ _ _ _ IN) as (_ & _ & w' & A' & N' & S').
    assert (SU : same (along xa xb u) (along x y t0)) by (eapply same_trans; [apply along_eq; symmetry; exact E|apply same_sym, SA]).
    destruct ST as [(-> & -> & c & v & Vm & Am & Nm)|(w & DV & SW & _)].
    - split; [|done]. destruct (decide (gb = ga)) as [->|D]; [done|exfalso]. specialize (S' D). specialize (Nm ltac:(lra)). rewrite TOL in Nm.
      destruct (decide (m = m')) as [->|Dm].
      + assert (v = w') as -> by (by eapply at_fun). assert (EN' := EN). destruct EN' as (a & b & Va & Vb & Xa & Xb).
        assert (Q : same w' x \/ same w' y). { destruct c; [right; assert (m' = b) as -> by congruence|left; assert (m' = a) as -> by congruence]; [rewrite (at_fun _ _ _ _ A' Xb)|rewrite (at_fun _ _ _ _ A' Xa)]; apply same_refl. }
        assert (S1 : same w' (along xa xb t1)) by (eapply same_trans; [exact S'|]; apply along_eq; by symmetry).
        destruct Q as [Q|Q].
        * destruct (one_meet x y xa xb t0 t1 0 t1 DT SA) as [Z _]; [|lra]. eapply same_trans; [apply along_zero; reflexivity|]. eapply same_trans; [apply same_sym, Q|exact S1].
        * destruct (one_meet x y xa xb t0 t1 1 t1 DT SA) as [Z _]; [|lra]. eapply same_trans; [apply along_one; reflexivity|]. eapply same_trans; [apply same_sym, Q|exact S1].
      + apply (SP _ _ _ _ Dm Am A'). eapply near_both; [done|exact Nm|]. eapply same_trans; [exact S'|exact SU].
    - exfalso. assert (Am : is_at (dec d') m w). { unfold is_at. change (xy_of (dec d') !! m = Some w). rewrite (dv_xy _ _ _ _ _ _ DV). apply lookup_insert. }
      assert (GR := divided_grows _ _ _ _ _ _ Fd DV). assert (Dm : m' <> m). { intros ->. unfold is_at in A'. rewrite lookup_fmap, (dv_new _ _ _ _ _ _ DV) in A'. done. }
      apply (SP _ _ _ _ Dm (proj2 (proj2 GR) _ _ A') Am). eapply near_both; [done|exact N'|]. eapply same_trans; [exact SW|apply same_sym, SU]. }
  destruct ST as [(-> & -> & c & v & Vm & Am & Nm)|(w & DV & SW & _)].
  - exists o. specialize (Nm ltac:(lra)). rewrite TOL in Nm. assert (NE : near v (along xa xb t1) (tolerance d1)) by (eapply near_both; [done|exact Nm|apply same_sym, SA]).
    destruct (record_cases t1 (m, g, g) div) as [-> |(l1 & u & [[m' ga] gb] & l2 & -> & E & ->)].
    + destruct C as [C1 C2 C3 C4 C5 C6 C7]. constructor; try done.
      * intros t m' ga gb IN. apply in_app_or in IN as [IN|[IN|[]]]; [by eapply C4|]. injection IN as <- <- <- <-. split; [done|]. split; [done|]. exists v. split; [done|]. done.
      * intros h L. destruct (C5 h L) as [A|(t & p & a & A & B)]; [by left|]. right. exists t, p, a. split; [|done]. apply in_or_app. by left.
      * apply ok_snoc; [done|by left].
    + destruct (TIE u m' ga gb) as [-> _]; [apply in_or_app; right; by left|done|]. destruct C as [C1 C2 C3 C4 C5 C6 C7]. constructor; try done.
      * intros t p a b IN. apply in_app_or in IN as [IN|[IN|IN]]; [eapply C4; apply in_or_app; by left| |eapply C4; apply in_or_app; right; by right].
        injection IN as <- <- <- <-. split; [done|]. split; [done|]. exists v. split; [done|]. split; [|done]. eapply near_both; [done|exact NE|]. apply along_eq. by symmetry.
      * intros h L. destruct (C5 h L) as [A|(t & p & a & A & B)]; [by left|]. right. exists t, p, a. split; [|done]. apply in_app_or in A as [A|[A|A]]; [apply in_or_app; by left|congruence|apply in_or_app; right; by right].
      * by eapply ok_swap.
  - exists (<[n := o g]> o). destruct (record_cases t1 (m, g, n) div) as [-> |(l1 & u & [[m' ga] gb] & l2 & E1 & E & _)].
    2:{ exfalso. destruct (TIE u m' ga gb) as [_ X]; [rewrite E1; apply in_or_app; right; by left|done|]. by apply (dv_ne _ _ _ _ _ _ DV). }
    assert (GR := divided_grows _ _ _ _ _ _ Fd DV). assert (LV := dv_live _ _ _ _ _ _ DV). destruct C as [C1 C2 C3 C4 C5 C6 C7].
    assert (Fn : forall k, is_Some (vec (dec d) !! k) -> n <> k) by (intros k L ->; rewrite (dv_fresh _ _ _ _ _ _ DV) in L; by destruct L).
    constructor.
    + by eapply grows_trans.
    + eapply keeps_divide; [exact C2|exact DV|]. by eapply divided_place.
    + intros k L. destruct (C3 k L) as [A B]. rewrite fn_lookup_insert_ne by (by apply Fn). split; [done|]. apply LV. by right.
    + intros t p ga gb IN. apply in_app_or in IN as [IN|[IN|[]]].
      * destruct (C4 _ _ _ _ IN) as (A & B & w' & A' & N' & S'). split; [apply LV; by right|]. split; [apply LV; by right|]. exists w'. split; [by apply GR|done].
      * injection IN as <- <- <- <-. split; [apply LV; by right|]. split; [apply LV; by left|]. exists w. split; [unfold is_at; change (xy_of (dec d') !! m = Some w); rewrite (dv_xy _ _ _ _ _ _ DV); apply lookup_insert|].
        assert (S1 : same w (along xa xb t1)) by (eapply same_trans; [exact SW|exact SA]). split; [|done]. eapply near_same; [apply same_sym, S1|apply same_refl|]. by apply near_refl.
    + intros h L. apply LV in L as [-> |L].
      * right. exists t1, m, g. split; [apply in_or_app; right; by left|]. apply (dv_ne _ _ _ _ _ _ DV).
      * destruct (C5 h L) as [A|(t & p & a & A & B)]; [by left|]. right. exists t, p, a. split; [|done]. apply in_or_app. by left.
    + apply ok_snoc.
      * eapply ok_ext; [|exact C6]. intros t p a b IN. destruct (C4 _ _ _ _ IN) as (A & B & _). rewrite !fn_lookup_insert_ne by (by apply Fn). done.
      * right. rewrite fn_lookup_insert, fn_lookup_insert_ne by (by apply Fn). split; [done|]. exact (C5 g LG).
    + by rewrite (dv_outer _ _ _ _ _ _ DV).
Qed.
Lemma cuts_run l : forall div d div' d' o, cutting d div o -> spread (dec d') (tolerance d1) -> cuts xa xb l div d = (Ok div', d') -> exists o', cutting d' div' o'.
Proof.
  induction l as [|g l IH]; intros div d div' d' o C SP H; cbn [cuts] in H; [apply eret_inv in H as [-> ->]; eauto|].
  assert (Fd : fine d) by apply C. apply ebind_inv in H as (c & d2 & H1 & H). apply crossing_inv in H1 as (-> & LG & x & y & EN & SI); [|done]. destruct c as [[t0 t1]|]; [|by eapply IH].
  apply ebind_inv in H as ([m n] & d2 & H1 & H). cbn [fst snd] in H.
  assert (G2 : grows d d2). { destruct (there_eff _ _ _ _ _ _ Fd H1) as (x' & y' & _ & [(-> & _)|(w & DV & _)]); [by apply grows_refl|by eapply divided_grows]. }
  destruct (cutting_step g d m n d2 t0 t1 x y div o C) as [o' C']; try done; [|by eapply IH].
  eapply grows_spread; [|exact SP]. eapply cuts_grow; [apply G2|exact H].
Qed.
(** The crossings are recorded. *)
Lemma cuts_recorded d div o ms1' : cutting d div o -> note_cuts mo1 div ms1 = Some ms1' -> recorded s0 d ms1' ms2 mo1.
Proof.
  intros [C1 C2 C3 C4 C5 C6 C7] H. destruct R as [K N KE U1 U2 UM PO OT].
  destruct (note_ok _ _ _ _ o _ H (fun k L => eq_sym (proj1 (C3 k L))) C6) as (OO & MO & UU).
  assert (EO : forall g, is_Some (vec (dec d) !! g) -> origin ms1' g = o g).
  { intros g L. apply OO. destruct (C5 g L) as [A|A]; [left; symmetry; by apply C3|by right]. }
  assert (X : forall l (G : nat -> Prop), (forall k, G k -> is_Some (vec s0 !! o k) \/ o k = k /\ is_Some (dget k mo1)) -> ok_cuts o G l -> (forall t m a b, In (t, (m, a, b)) l -> dget a mo1 = None) ->
      forall t m a b, In (t, (m, a, b)) l -> b <> a -> is_Some (vec s0 !! o b)).
  { induction l as [|[t [[m a] b]] l IH]; intros G GK OK MM t' m' a' b' IN D; [done|]. destruct OK as [A B]. assert (X : b <> a -> is_Some (vec s0 !! o b)).
    { intros D'. destruct A as [A|[A A']]; [done|]. rewrite A'. destruct (GK _ A) as [Z|[_ Z]]; [done|]. rewrite (MM t m a b) in Z by (by left). by destruct Z. }
    destruct IN as [IN|IN]; [injection IN as -> -> -> ->; by apply X|]. eapply IH; [|exact B| |exact IN|done].
    - intros k [Gk|[D' ->]]; [by apply GK|]. left. by apply X.
    - intros t2 m2 a2 b2 I2. eapply MM. by right. }
  assert (XP : forall t m a b, In (t, (m, a, b)) div -> b <> a -> is_Some (vec s0 !! o b)).
  { apply (X div (fun k => is_Some (vec (dec d1) !! k))); [|done|done]. intros k L'. destruct (C3 k L') as [-> _]. by apply N. }
  assert (KN : forall g, is_Some (vec (dec d) !! g) -> is_Some (vec s0 !! o g) \/ o g = g /\ is_Some (dget g mo1)).
  { intros g L. destruct (C5 g L) as [A|(t & m & a & A & B)]; [destruct (C3 g A) as [-> _]; by apply N|]. left. by apply (XP t m a). }
  constructor; try done.
  - eapply keeps_ext; [exact EO|done|exact C2].
  - intros g L. rewrite EO by done. by apply KN.
  - assert (KL : forall g v, dget g ms1' = Some v -> is_Some (vec (dec d) !! g) /\ is_Some (vec s0 !! o g)).
    { apply (note_keys _ _ _ _ (fun g => is_Some (vec (dec d) !! g) /\ is_Some (vec s0 !! o g)) (fun _ => True) H).
      - intros g v E. split; [|done]. destruct (KE _ _ E) as [A B]. destruct (C3 g A) as [O1 L1]. split; [done|]. rewrite O1. unfold origin. by rewrite E.
      - intros t m a b IN. destruct (C4 _ _ _ _ IN) as (A & B & _). split; [done|]. destruct (KN b B) as [Z|[Z Z']]; [done|]. destruct (decide (b = a)) as [-> | D]; [rewrite (MO _ _ _ _ IN) in Z'; by destruct Z'|]. by apply (XP t m a b). }
    intros g v E. destruct (KL _ _ E) as [L L0]. split; [done|]. assert (V : origin ms1' g = v) by (unfold origin; by rewrite E). rewrite EO in V by done. by subst v.
  - auto.
  - rewrite C7. done.
  - intros g v E. apply C3. by eapply OT.
Qed.
End Cuts.
