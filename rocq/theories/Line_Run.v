(** What splitting the crossed segments does, if the line keeps away from vertices. *)
From stdpp Require Import gmap list.
From Coq Require Import Lia QArith Lqa.
From Verif Require Import Decomp_Model Decomp_Spec Decomp_Surgery Decomp_Eff Decomp_Inv Decomp_Good Decomp_Mid Decomp_Hist Editor_Model Editor_Spec Editor_Proofs Editor_Undo.
From Verif Require Import Aabb_Model Aabb_Spec Aabb_Proofs Editor_Box Geom_Model Snap_Model Snap_Spec Snap_Proofs Snap_Cand Snap_Main Snap_Add Snap_Split Line_Model Line_Spec Line_Geo Line_Cut.
Local Open Scope nat_scope.

Lemma at_fun s p v w : is_at s p v -> is_at s p w -> v = w.
Proof. unfold is_at. unfold vect in *. congruence. Qed.
Lemma det_flip x y xa xb : (det y x xa xb == - det x y xa xb)%Q.
Proof. unfold det. ring. Qed.
Lemma param_same v o x y t : v = vminus y x -> o = x -> same (parametric v o t) (along x y t).
Proof. intros -> ->. unfold same, parametric, along, vminus. cbn. split; ring. Qed.

Section Run.
Context (K : geometry) (d : ed) (a b : nat) (xa xb : vect).
Context (ED : edits d) (P : (0 < tolerance d)%Q) (V : vec_ok (dec d)) (A : is_at (dec d) a xa) (B : is_at (dec d) b xb) (C : clean d a b xa xb).

Lemma no_end x y t0 t1 : ~ (det x y xa xb == 0)%Q -> same (along x y t0) (along xa xb t1) -> (0 < t1 < 1)%Q -> ~ same x xa /\ ~ same x xb.
Proof.
  intros D S T. split; intros E.
  - destruct (one_meet x y xa xb t0 t1 0 0 D S) as [_ U]; [|lra]. eapply same_trans; [apply along_zero; reflexivity|]. eapply same_trans; [exact E|]. apply same_sym, along_zero. reflexivity.
  - destruct (one_meet x y xa xb t0 t1 0 1 D S) as [_ U]; [|lra]. eapply same_trans; [apply along_zero; reflexivity|]. eapply same_trans; [exact E|]. apply same_sym, along_one. reflexivity.
Qed.
Lemma along_rev x y t : same (along x y t) (along y x (1 - t)).
Proof. unfold same, along. cbn. split; ring. Qed.
(** The ends of a crossed segment are not those of the line. *)
Lemma crossed_ends g p q x y t0 t1 : vtx (dec d) !! (g, false) = Some p -> vtx (dec d) !! (g, true) = Some q -> is_at (dec d) p x -> is_at (dec d) q y ->
  ~ (det x y xa xb == 0)%Q -> same (along x y t0) (along xa xb t1) -> (0 < t1 < 1)%Q -> p <> a /\ p <> b /\ q <> a /\ q <> b.
Proof.
  intros G1 G2 X Y D S T. destruct (no_end x y t0 t1 D S T) as [N1 N2]. destruct (no_end y x (1 - t0)%Q t1) as [N3 N4]; [rewrite det_flip; lra|eapply same_trans; [apply same_sym, along_rev|exact S]|exact T|].
  split; [|split; [|split]]; intros ->; [rewrite (at_fun _ _ _ _ X A) in N1|rewrite (at_fun _ _ _ _ X B) in N2|rewrite (at_fun _ _ _ _ Y A) in N3|rewrite (at_fun _ _ _ _ Y B) in N4]; [apply N1|apply N2|apply N3|apply N4]; apply same_refl.
Qed.
(** A crossing as seg_intersection answers it. *)
Lemma isec_crosses g x y t0 t1 w : ends (dec d) g x y -> seg_intersection (vminus y x) x xa xb = Some (t0, t1) -> same w (along x y t0) ->
  crosses (dec d) g xa xb w /\ ~ near x w (tolerance d) /\ ~ near y w (tolerance d) /\ ~ near xa w (tolerance d) /\ ~ near xb w (tolerance d) /\ (0 < t0 < 1)%Q /\ (0 < t1 < 1)%Q /\ same w (along xa xb t1) /\ ~ (det x y xa xb == 0)%Q.
Proof.
  intros E H W. destruct (isec_sound _ _ _ _ _ _ H) as ([T1 T2] & [U1 U2] & S & D). assert (T : (0 < t0 < 1)%Q) by lra. assert (U : (0 < t1 < 1)%Q) by lra. clear T1 T2 U1 U2.
  assert (WL : same w (along xa xb t1)) by (eapply same_trans; [exact W|exact S]).
  assert (WB : between x y w) by (apply between_along; exists t0; split; [lra|exact W]). assert (WA : between xa xb w) by (apply between_along; exists t1; split; [lra|exact WL]).
  assert (E' := E). destruct E' as (p & q & G1 & G2 & X & Y). destruct (crossed_ends g p q x y t0 t1 G1 G2 X Y D S U) as (Pa & Pb & Qa & Qb).
  assert (NX : ~ near x w (tolerance d)) by exact (l_vertex _ _ _ _ _ C g false p x w G1 Pa Pb X WA).
  assert (NY : ~ near y w (tolerance d)) by exact (l_vertex _ _ _ _ _ C g true q y w G2 Qa Qb Y WA).
  assert (NA : ~ near xa w (tolerance d)). { intros N. destruct (l_from _ _ _ _ _ C g) as ([|] & Z); [exists x, y, w; done| |]; congruence. }
  assert (NB : ~ near xb w (tolerance d)). { intros N. destruct (l_to _ _ _ _ _ C g) as ([|] & Z); [exists x, y, w; done| |]; congruence. }
  assert (OFF : forall z, ~ near z w (tolerance d) -> ~ same w z). { intros z N SZ. apply N. eapply near_same; [exact SZ|apply same_refl|]. by apply near_refl. }
  split; [|split; [done|]; split; [done|]; split; [done|]; split; [done|]; split; [done|]; split; [done|]; split; done].
  exists x, y. split; [done|]. split; [split; [done|]; split; by apply OFF|]. split; [split; [done|]; split; by apply OFF|].
  intros Z. apply D. unfold det. rewrite Z. ring.
Qed.
(** Facts about cuts and the dictionary. *)
Definition cuts_here (cs : list cut) : Prop := forall c, In c cs -> exists x y t0, ends (dec d) (c_g c) x y /\ seg_intersection (vminus y x) x xa xb = Some (t0, c_p c) /\ same (c_w c) (along x y t0).
Definition listed (div : list (Q * nat)) (cs : list cut) : Prop := ordered div /\ forall t m, In (t, m) div <-> exists c, In c cs /\ t = c_p c /\ m = c_m c.
Lemma far_part t x y w : (0 < t)%Q -> same w (along x y t) -> ~ near x w (tolerance d) -> below_part t (norm2 (vminus y x)) (tolerance d) = false.
Proof.
  intros T W N. destruct (below_part _ _ _) eqn:E; [|done]. exfalso. apply N. apply below_part_sq in E; [|done|lra]. unfold near. rewrite (dist2_same x x w (along x y t) (same_refl _) W).
  assert (Z : (dist2 x (along x y t) == t * t * norm2 (vminus y x))%Q) by (unfold dist2, along, norm2, dot, vminus; cbn; ring). by rewrite Z.
Qed.
Lemma cut_run l : forall div d1 div' d2 cs, after_cuts d d1 cs -> NoDup l -> (forall g, g ∈ l -> is_Some (vec (dec d) !! g) /\ g ∉ c_g <$> cs) -> cuts_here cs -> listed div cs ->
  cut_all xa xb l div d1 = (Ok div', d2) ->
  exists cs', after_cuts d d2 cs' /\ cuts_here cs' /\ listed div' cs' /\ (forall g, g ∈ c_g <$> cs -> g ∈ c_g <$> cs') /\
    forall g x y, g ∈ l -> g ∉ c_g <$> cs' -> ends (dec d) g x y -> seg_intersection (vminus y x) x xa xb = None.
Proof.
  induction l as [|g l IH]; intros div d1 div' d2 cs AC ND LI CH LD H; cbn [cut_all] in H.
  { injection H as <- <-. exists cs. split; [done|]. split; [done|]. split; [done|]. split; [done|]. intros g x y G. by apply elem_of_nil in G. }
  apply NoDup_cons in ND as [Ng ND]. destruct (LI g (elem_of_list_here _ _)) as [Lg Nc]. destruct (ac_old _ _ _ AC g Lg Nc) as [OV OT].
  apply ebind_inv in H as (c & d1' & H1 & H). unfold crossing, end_at, xy_at in H1. apply ebind_inv in H1 as (v & d1'' & H2 & H1). apply item_inv in H2 as [-> EV].
  apply ebind_inv in H1 as (p & d1'' & H2 & H1). apply item_inv in H2 as [-> EP]. apply ebind_inv in H1 as (o & d1'' & H2 & H1). apply item_inv in H2 as [-> EO]. apply eret_inv in H1 as [-> ->].
  cbv beta in EV, EP, EO. assert (I := edits_einv _ ED). assert (I0 := g_inv _ (e_good _ I)).
  assert (EP' := EP). rewrite OT in EP'. assert (EV1 : vec (dec d) !! g = Some v) by exact (eq_trans (eq_sym OV) EV).
  assert (EN : exists x q y, vtx (dec d) !! (g, true) = Some q /\ is_at (dec d) p x /\ is_at (dec d) q y).
  { destruct (live_ends _ _ I0 Lg) as (x & y & p' & q & E1 & E2 & E3 & E4). assert (p' = p) as -> by congruence. exists x, q, y. done. }
  destruct EN as (x & q & y & EQ & X & Y). assert (EE : ends (dec d) g x y) by (exists p, q; done).
  assert (EVV : forall v0 : vect, vec (dec d) !! g = Some v0 -> v0 = vminus y x). { intros v0 E0. assert (EV2 := V _ _ _ _ _ EP' EQ X Y). exact (f_equal (fun o => default v0 o) (eq_trans (eq_sym E0) EV2)). }
  assert (v = vminus y x) as -> by (apply EVV; exact EV1).
  assert (o = x) as ->. { assert (X1 : is_at (dec d1) p x) by (apply (ac_pts _ _ _ AC); by left). unfold is_at in X1. rewrite lookup_fmap in X1. unfold vect in *. congruence. }
  destruct (seg_intersection (vminus y x) x xa xb) as [[t0 t1]|] eqn:SI.
  - apply ebind_inv in H as (m & d3 & H1 & H). destruct (isec_crosses g x y t0 t1 (along x y t0) EE SI (same_refl _)) as (CR & NX & NY & NA & NB & T0 & T1 & WL & DT).
    unfold point_on_segment, end_at, xy_at in H1. apply ebind_inv in H1 as (v' & d1'' & H2 & H1). apply item_inv in H2 as [-> EV'].
    apply ebind_inv in H1 as (p' & d1'' & H2 & H1). apply item_inv in H2 as [-> EP'']. apply ebind_inv in H1 as (q' & d1'' & H2 & H1). apply item_inv in H2 as [-> EQ''].
    apply ebind_inv in H1 as (o' & d1'' & H2 & H1). apply item_inv in H2 as [-> EO']. cbv beta in EV', EP'', EQ'', EO'.
    assert (p' = p) as -> by congruence. assert (o' = x) as -> by (unfold vect in *; congruence). assert (v' = vminus y x) as -> by (assert (EV3 : vec (dec d) !! g = Some v') by exact (eq_trans (eq_sym OV) EV'); by apply EVV).
    rewrite (ac_tol _ _ _ AC) in H1. rewrite (far_part t0 x y (along x y t0)) in H1; [|lra|apply same_refl|done].
    assert (F2 : below_part (1 - t0) (norm2 (vminus y x)) (tolerance d) = false).
    { assert (Z := far_part (1 - t0)%Q y x (along x y t0)). assert (Y1 : norm2 (vminus y x) = norm2 (vminus y x)) by done. destruct (below_part (1 - t0) (norm2 (vminus y x)) (tolerance d)) eqn:E; [|done]. exfalso. apply NY.
      apply below_part_sq in E; [|done|lra]. unfold near. assert (Z2 : (dist2 y (along x y t0) == (1 - t0) * (1 - t0) * norm2 (vminus y x))%Q) by (unfold dist2, along, norm2, dot, vminus; cbn; ring). by rewrite Z2. }
    rewrite F2 in H1. apply ebind_inv in H1 as (m' & d4 & H2 & H1). apply ebind_inv in H1 as (n & d5 & H3 & H1). apply eret_inv in H1 as [-> ->].
    assert (PS := param_same _ _ x y t0 eq_refl eq_refl).
    assert (AC2 : after_cuts d d5 (Cut g m' n (parametric (vminus y x) x t0) t1 :: cs)).
    { eapply cuts_more; [exact K|exact AC|done|done|exact H2|exact H3|]. intros x' y' (p1 & q1 & E1 & E2 & E3 & E4).
      assert (X1 : is_at (dec d1) p x) by (apply (ac_pts _ _ _ AC); by left). assert (Y1 : is_at (dec d1) q y) by (apply (ac_pts _ _ _ AC); by left). rewrite OT in E1, E2. assert (p1 = p) as -> by congruence. assert (q1 = q) as -> by congruence.
      rewrite (at_fun _ _ _ _ E3 X1), (at_fun _ _ _ _ E4 Y1). apply between_along. exists t0. split; [lra|done]. }
    assert (DI : forall z, In z div -> ~ (t1 == fst z)%Q).
    { intros [t k] Z E. cbn in E. apply LD in Z as (c & IC & -> & ->). destruct (CH c IC) as (x' & y' & t' & E' & S' & W'). destruct (isec_crosses _ _ _ _ _ _ E' S' W') as (CR' & _ & _ & _ & _ & _ & _ & WL' & _).
      assert (c_g c = g); [|apply Nc; subst g; by apply in_fmap]. symmetry. eapply (l_apart _ _ _ _ _ C); [exact CR|exact CR'|]. apply (near_same (along xa xb t1) _ (along xa xb t1) _); [apply same_sym, WL| |by apply near_refl].
      apply same_sym. eapply same_trans; [exact WL'|]. apply along_eq. by symmetry. }
    destruct (IH (put t1 m' div) d5 div' d2 (Cut g m' n (parametric (vminus y x) x t0) t1 :: cs)) as (cs' & Q1 & Q2 & Q3 & Q4 & Q5); [exact AC2|done| | | |exact H|].
    + intros h L. destruct (LI h (elem_of_list_further _ _ _ L)) as [L1 L2]. split; [done|]. cbn. apply not_elem_of_cons. split; [|done]. intros ->. done.
    + intros c [<- | IC]; [|by apply CH]. cbn. exists x, y, t0. done.
    + destruct LD as [O1 O2]. split; [by apply put_ordered|]. intros t k. rewrite put_in by done. rewrite O2. split.
      * intros [E|(c & IC & E1 & E2)]; [injection E as -> ->; eexists; split; [by left|done]|]. exists c. split; [by right|done].
      * intros (c & [<- | IC] & -> & ->); [by left|]. right. eauto.
    + exists cs'. split; [done|]. split; [done|]. split; [done|]. split.
      * intros h Hh. apply Q4. cbn. apply elem_of_cons. by right.
      * intros h x' y' Hh Nh E'. apply elem_of_cons in Hh as [-> | Hh]; [exfalso; apply Nh, Q4; cbn; apply elem_of_cons; by left|]. by eapply Q5.
  - destruct (IH div d1 div' d2 cs) as (cs' & Q1 & Q2 & Q3 & Q4 & Q5); [exact AC|done| |done|done|exact H|].
    + intros h L. exact (LI h (elem_of_list_further _ _ _ L)).
    + exists cs'. split; [done|]. split; [done|]. split; [done|]. split; [done|]. intros h x' y' Hh Nh E'. apply elem_of_cons in Hh as [-> | Hh]; [|by eapply Q5].
      destruct E' as (p1 & q1 & E1 & E2 & E3 & E4). assert (p1 = p) as -> by congruence. assert (q1 = q) as -> by congruence. by rewrite (at_fun _ _ _ _ E3 X), (at_fun _ _ _ _ E4 Y).
Qed.
End Run.
