(** Points and segments of the other decomposition are put into this one. *)
From stdpp Require Import gmap list relations functions.
From Coq Require Import Lia QArith Lqa.
From Verif Require Import Decomp_Model Decomp_Spec Decomp_Surgery Decomp_Eff Decomp_Inv Decomp_Good Decomp_Hist Decomp_Told Editor_Model Editor_Spec Editor_Proofs Editor_Undo.
From Verif Require Import Aabb_Model Aabb_Spec Editor_Box Geom_Model Snap_Model Snap_Spec Snap_Proofs Snap_Cand Snap_Add Snap_Main Line_Model Line_Spec Line_Geo Line_Cut Line_Run Line_Main Merge_Model Merge_Spec Merge_Sides Merge_Keep Merge_Dict.
Local Open Scope nat_scope.

(** Decompositions that grow. *)
Definition fine (d : ed) : Prop := good (dec d) /\ vec_ok (dec d) /\ (0 < tolerance d)%Q.
Definition grows (d d' : ed) : Prop := fine d' /\ tolerance d' = tolerance d /\ forall p v, is_at (dec d) p v -> is_at (dec d') p v.
Lemma grows_refl d : fine d -> grows d d.
Proof. intros F. done. Qed.
Lemma grows_trans d1 d2 d3 : grows d1 d2 -> grows d2 d3 -> grows d1 d3.
Proof. intros (A & B & C) (A' & B' & C'). split; [done|]. split; [congruence|auto]. Qed.
Lemma grows_spread d d' r : grows d d' -> spread (dec d') r -> spread (dec d) r.
Proof. intros (_ & _ & P) S p q v w D A B. by apply (S p q v w); auto. Qed.
Lemma at_new s (s' : st) m (w : vect) : points s !! m = None -> xy_of s' = <[m := w]> (xy_of s) -> forall p v, is_at s p v -> is_at s' p v.
Proof. intros N X p v A. unfold is_at in *. change (xy_of s' !! p = Some v). rewrite X, lookup_insert_ne; [done|]. intros ->. rewrite lookup_fmap, N in A. done. Qed.
Lemma pointed_grows d d' p v : fine d -> pointed d d' p v -> grows d d'.
Proof. intros (G & V & T) P. split; [split; [apply P|split; [by apply P|by rewrite (pt_tol _ _ _ _ P)]]|]. split; [apply P|]. exact (at_new _ _ _ _ (pt_new _ _ _ _ P) (pt_xy _ _ _ _ P)). Qed.
Lemma divided_grows d d' e m n w : fine d -> divided d d' e m n w -> grows d d'.
Proof. intros (G & V & T) P. split; [split; [apply P|split; [by apply P|by rewrite (dv_tol _ _ _ _ _ _ P)]]|]. split; [apply P|]. exact (at_new _ _ _ _ (dv_new _ _ _ _ _ _ P) (dv_xy _ _ _ _ _ _ P)). Qed.
Lemma linked_grows d d' g a b : fine d -> linked_up d d' g a b -> grows d d'.
Proof. intros (G & V & T) P. split; [split; [apply P|split; [by apply P|by rewrite (lk_tol _ _ _ _ _ P)]]|]. split; [apply P|]. intros p v A. unfold is_at in *. change (xy_of (dec d') !! p = Some v). by rewrite (lk_xy _ _ _ _ _ P). Qed.

(** * A point on a segment *)
Lemma part_off t q tol : (0 < tol)%Q -> below_part t q tol = false -> (0 < t)%Q.
Proof.
  intros P H. unfold below_part in H. destruct (Qle_bool tol 0) eqn:E0; [apply Qle_bool_iff in E0; lra|]. apply orb_false_iff in H as [H _]. destruct (Qlt_le_dec 0 t) as [L|L]; [done|]. apply Qle_bool_iff in L. congruence.
Qed.
Lemma there_eff g t d m n d' : fine d -> split_there g t d = (Ok (m, n), d') -> exists x y, ends (dec d) g x y /\
  ((d' = d /\ n = g /\ exists c v, vtx (dec d) !! (g, c) = Some m /\ is_at (dec d) m v /\ ((0 <= t <= 1)%Q -> near v (along x y t) (tolerance d))) \/
   (exists w, divided d d' g m n w /\ same w (along x y t) /\ (0 < t < 1)%Q)).
Proof.
  intros (G & V & P) H. unfold split_there, end_at, xy_at in H. apply ebind_inv in H as (v & d1 & H1 & H). apply item_inv in H1 as [-> EV].
  apply ebind_inv in H as (a & d1 & H1 & H). apply item_inv in H1 as [-> EA]. apply ebind_inv in H as (b & d1 & H1 & H). apply item_inv in H1 as [-> EB]. apply ebind_inv in H as (o & d1 & H1 & H). apply item_inv in H1 as [-> EO]. cbv beta in EV, EA, EB, EO.
  destruct (live_ends _ g (g_inv _ G)) as (x & y & a' & b' & A & B & X & Y); [eauto|]. assert (a' = a) as -> by congruence. assert (b' = b) as -> by congruence.
  assert (o = x) as ->. { rewrite lookup_fmap in X. unfold vect in *. congruence. }
  assert (v = vminus y x) as -> by (assert (EV2 := V _ _ _ _ _ EA EB X Y); unfold vect in *; rewrite EV2 in EV; congruence).
  exists x, y. split; [exists a, b; done|].
  destruct (below_part t (norm2 (vminus y x)) (tolerance d)) eqn:B1.
  { injection H as <- <- <-. left. split; [done|]. split; [done|]. exists false, x. split; [done|]. split; [done|]. intros T. apply below_part_sq in B1; [|done|lra].
    unfold near. assert (Z : (dist2 x (along x y t) == t * t * norm2 (vminus y x))%Q) by (unfold dist2, along, norm2, dot, vminus; cbn; ring). by rewrite Z. }
  destruct (below_part (1 - t) (norm2 (vminus y x)) (tolerance d)) eqn:B2.
  { injection H as <- <- <-. left. split; [done|]. split; [done|]. exists true, y. split; [done|]. split; [done|]. intros T. apply below_part_sq in B2; [|done|lra].
    unfold near. assert (Z : (dist2 y (along x y t) == (1 - t) * (1 - t) * norm2 (vminus y x))%Q) by (unfold dist2, along, norm2, dot, vminus; cbn; ring). by rewrite Z. }
  right. apply ebind_inv in H as (m' & d2 & H1 & H). apply ebind_inv in H as (n' & d3 & H2 & H). apply eret_inv in H as [E ->]. injection E as -> ->.
  exists (parametric (vminus y x) x t). split; [exact (divide_eff _ _ _ _ _ _ _ G V H1 H2)|]. split; [by apply param_same|]. apply part_off in B1, B2; try done. lra.
Qed.
Lemma divided_place d g x y t w : ends (dec d) g x y -> same w (along x y t) -> (0 < t < 1)%Q -> on (dec d) g w.
Proof. intros E S T. exists x, y. split; [done|]. apply between_along. exists t. split; [lra|done]. Qed.
Lemma there_of g t d p d' : point_on_segment g t d = (Ok p, d') -> exists n, split_there g t d = (Ok (p, n), d').
Proof.
  unfold point_on_segment, split_there. intros H. apply ebind_inv in H as (v & d1 & H1 & H). apply ebind_inv in H as (a & d2 & H2 & H). apply ebind_inv in H as (b & d3 & H3 & H). apply ebind_inv in H as (o & d4 & H4 & H).
  unfold ebind at 1. rewrite H1. unfold ebind at 1. rewrite H2. unfold ebind at 1. rewrite H3. unfold ebind at 1. rewrite H4.
  destruct (below_part t _ _); [injection H as <- <-; eauto|]. destruct (below_part (1 - t) _ _); [injection H as <- <-; eauto|].
  apply ebind_inv in H as (m & d5 & H5 & H). unfold ebind at 1. rewrite H5. apply ebind_inv in H as (n & d6 & H6 & H). unfold ebind at 1. rewrite H6. apply eret_inv in H as [-> ->]. exists n. done.
Qed.

(** * Adding a point *)
Lemma set_same d : set_dec (dec d) d = d.
Proof. by destruct d. Qed.
Lemma snap_polygon_state K inside c z s r s' : inv s -> vec_ok s -> snap_polygon K inside c z s = (Ok r, s') -> s' = s.
Proof.
  intros I V H. destruct c as [c|]; cbn in H; [|destruct (bool_decide _); congruence].
  apply bind_inv in H as (q & s1 & H1 & H). destruct (next_to_ok _ _ _ _ _ _ I V H1) as [-> _]. destruct (poly_holds _ _ _ _); congruence.
Qed.
Lemma first_point_at tol z l s p : first_point tol z l s = Ok (Some p) -> exists v, is_at s p v.
Proof.
  induction l as [|q l IH]; cbn; [done|]. destruct (points s !! q) as [x|] eqn:E; [|done]. destruct (below _ _); [|exact IH]. intros [= ->]. exists (xy x). unfold is_at. by rewrite lookup_fmap, E.
Qed.
Lemma snap_state K inside root z d r d' : fine d -> snap_point K inside root z d = (Ok r, d') -> d' = d /\ forall p, r = SPoint p -> exists v, is_at (dec d) p v.
Proof.
  intros (G & V & P) H. unfold snap_point in H. destruct (closest_candidates _ _) as [l|]; [|done]. destruct (first_point _ _ _ _) as [[p|]| |] eqn:F; [| |done|done].
  - injection H as <- <-. split; [done|]. intros q [= <-]. by eapply first_point_at.
  - unfold snap_segment in H. destruct (closest_candidates _ _) as [l'|]; [|done]. destruct (all_close _ _ _) as [cs|]; [|done]. destruct (List.filter _ _) as [|a [|b r']].
    + apply on_dec_inv in H as (s & H & ->). assert (X := H). apply snap_polygon_kind in X as [q ->]. apply snap_polygon_state in H as ->; [|apply G|done]. rewrite set_same. done.
    + injection H as <- <-. done.
    + destruct (two _ _ _ _ _ _); [|done]. injection H as <- <-. done.
Qed.
Lemma impl_eff K inside root z d p d' : fine d -> add_point_impl K inside root z d = (Ok p, d') ->
  (d' = d /\ exists v, is_at (dec d) p v) \/ (exists v, pointed d d' p v) \/ exists e n w, divided d d' e p n w /\ on (dec d) e w.
Proof.
  intros F H. unfold add_point_impl in H. apply ebind_inv in H as (r & d1 & H1 & H). apply snap_state in H1 as [-> SP]; [|done]. destruct r as [q|g t|g].
  - apply eret_inv in H as [-> ->]. left. split; [done|]. by apply SP.
  - apply there_of in H as [n H]. apply there_eff in H as (x & y & E & [(-> & _ & c & v & _ & A & _)|(w & DV & SA & T)]); [left; eauto| |done]. right. right. exists g, n, w. split; [done|]. by eapply divided_place.
  - right. left. exists z. eapply point_eff; [apply F|exact H].
Qed.
Lemma impl_grows K inside root z d p d' : fine d -> add_point_impl K inside root z d = (Ok p, d') -> grows d d'.
Proof.
  intros F H. destruct (impl_eff _ _ _ _ _ _ _ F H) as [[-> _]|[[v P]|(e & n & w & D & _)]]; [by apply grows_refl|by eapply pointed_grows|by eapply divided_grows].
Qed.

(** * What is recorded *)
Record recorded (s0 : st) (d : ed) (ms1 ms2 mo1 : dict nat) : Prop := Recorded {
  r_keep : keeps s0 (dec d) (origin ms1) (origin ms2);
  r_known : forall g, is_Some (vec (dec d) !! g) -> is_Some (vec s0 !! origin ms1 g) \/ origin ms1 g = g /\ is_Some (dget g mo1);
  r_keys : forall g v, dget g ms1 = Some v -> is_Some (vec (dec d) !! g) /\ is_Some (vec s0 !! v);
  r_u1 : uniq ms1; r_u2 : uniq ms2; r_um : uniq mo1;
  r_polys : forall z v, dget z ms2 = Some v -> is_Some (outer_of (dec d) !! z) /\ outer_of s0 !! z = None /\ is_Some (outer_of s0 !! v);
  r_other : forall g v, dget g mo1 = Some v -> is_Some (vec (dec d) !! g) }.
Lemma recorded_start d : fine d -> recorded (dec d) d [] [] [].
Proof.
  intros (G & V & _). constructor; try done; try (apply NoDup_nil_2); [exact (keeps_refl _ G V)|]. intros g L. by left.
Qed.
Lemma recorded_pointed s0 d d' ms1 ms2 mo1 p v : recorded s0 d ms1 ms2 mo1 -> pointed d d' p v -> recorded s0 d' ms1 ms2 mo1.
Proof.
  intros [K N KE U1 U2 UM PO OT] P. constructor; rewrite ?(pt_vec _ _ _ _ P), ?(pt_outer _ _ _ _ P); try done. by eapply keeps_point.
Qed.

(** * The loop over points *)
Section Points.
Context (K : geometry) (inside : st -> nat -> vect -> bool) (root : Q -> Q) (s0 : st).
Lemma note_split_state k p ms1 d r d' : note_split k p ms1 d = (Ok r, d') -> d' = d.
Proof.
  unfold note_split. intros H. apply ebind_inv in H as (x & d1 & H1 & H). apply item_inv in H1 as [-> _]. destruct (p_seg x) as [[g c]|]; [|congruence]. destruct (_ <? _); [|congruence].
  apply ebind_inv in H as (h & d1 & H1 & H). apply item_inv in H1 as [-> _]. apply ebind_inv in H as (h' & d1 & H1 & H). apply item_inv in H1 as [-> _]. destruct (_ =? _); [by apply eret_inv in H as [_ ->]|done].
Qed.
Lemma note_old k p ms1 d r d' : k = size (points (dec d)) -> note_split k p ms1 d = (Ok r, d') -> r = ms1.
Proof.
  unfold note_split. intros -> H. apply ebind_inv in H as (x & d1 & H1 & H). apply item_inv in H1 as [-> _]. destruct (p_seg x) as [[g c]|]; [|congruence]. rewrite Nat.ltb_irrefl in H. congruence.
Qed.
Lemma note_loose k p ms1 d r d' : loose (dec d) p -> note_split k p ms1 d = (Ok r, d') -> r = ms1.
Proof.
  unfold note_split. intros (x & X & L) H. apply ebind_inv in H as (x' & d1 & H1 & H). apply item_inv in H1 as [-> X']. assert (x' = x) as -> by congruence. rewrite L in H. congruence.
Qed.
Lemma note_divided d d' e m n w ms1 r d2 : divided d d' e m n w -> note_split (size (points (dec d))) m ms1 d' = (Ok r, d2) -> r = dput n (origin ms1 e) (dset e e ms1).
Proof.
  unfold note_split. intros DV H. apply ebind_inv in H as (x & d1 & H1 & H). apply item_inv in H1 as [-> X]. destruct (dv_seg _ _ _ _ _ _ DV) as (x' & X' & PS). assert (x' = x) as -> by congruence. rewrite PS in H.
  assert (S : size (points (dec d')) = S (size (points (dec d)))). { rewrite <- !size_xy, (dv_xy _ _ _ _ _ _ DV), map_size_insert_None; [done|]. by rewrite lookup_fmap, (dv_new _ _ _ _ _ _ DV). }
  rewrite S in H. replace (_ <? _) with true in H by (symmetry; apply Nat.ltb_lt; lia).
  apply ebind_inv in H as (h & d1 & H1 & H). apply item_inv in H1 as [-> NF]. rewrite (dv_nxt _ _ _ _ _ _ DV) in NF. injection NF as <-. cbn [fst] in H.
  apply ebind_inv in H as (h & d1 & H1 & H). apply item_inv in H1 as [-> NF]. rewrite (dv_nxt' _ _ _ _ _ _ DV) in NF. injection NF as <-. cbn [fst] in H. rewrite Nat.eqb_refl in H. apply eret_inv in H as [-> _]. by rewrite origin_dset.
Qed.
(** A part of an original segment is recorded. *)
Lemma recorded_divided d d' e m n w ms1 ms2 mo1 : recorded s0 d ms1 ms2 mo1 -> divided d d' e m n w -> on (dec d) e w -> is_Some (vec s0 !! origin ms1 e) -> recorded s0 d' (dput n (origin ms1 e) (dset e e ms1)) ms2 mo1.
Proof.
  intros [KP N KE U1 U2 UM PO OT] DV O L0. assert (LV := dv_live _ _ _ _ _ _ DV).
  assert (OO : forall k, origin (dput n (origin ms1 e) (dset e e ms1)) k = (<[n := origin ms1 e]> (origin ms1) : nat -> nat) k).
  { intros k. rewrite origin_dput. destruct (decide (k = n)) as [-> | D]; [by rewrite !fn_lookup_insert|]. rewrite !fn_lookup_insert_ne by done. apply origin_dset. }
  constructor.
  - eapply keeps_ext; [|done|eapply keeps_divide; [exact KP|exact DV|exact O]]. intros g _. apply OO.
  - intros g L. rewrite OO. destruct (decide (g = n)) as [-> | D]; [rewrite fn_lookup_insert; by left|]. rewrite fn_lookup_insert_ne by done. apply LV in L as [?|L]; [done|]. by apply N.
  - intros g v. rewrite dget_dput, dget_dset. destruct (Nat.eqb_spec n g) as [-> | D].
    + intros [= <-]. split; [apply LV; by left|done].
    + destruct (dget g ms1) as [u|] eqn:E.
      * intros [= <-]. destruct (KE _ _ E) as [A B]. split; [apply LV; by right|done].
      * destruct (Nat.eqb_spec e g) as [-> | D']; [|done]. intros [= <-]. unfold origin in L0. rewrite E in L0. split; [apply LV; right; by apply (dv_le _ _ _ _ _ _ DV)|done].
  - apply uniq_dput, uniq_dset, U1.
  - done.
  - done.
  - rewrite (dv_outer _ _ _ _ _ _ DV). done.
  - intros g v E. apply LV. right. by eapply OT.
Qed.
Lemma points_run other pts : forall ms1 mo0 pm d r d', fine d -> put_points K inside root other pts ms1 mo0 pm d = (Ok r, d') -> grows d d' /\
  (recorded s0 d ms1 [] [] -> recorded s0 d' (fst (fst r)) [] []) /\
  ((uniq mo0 /\ forall p q, dget p mo0 = Some q -> (exists v, is_at (dec d) p v)) -> (uniq (snd (fst r)) /\ forall p q, dget p (snd (fst r)) = Some q -> (exists v, is_at (dec d') p v) /\ (dget p mo0 = Some q \/ In q pts))).
Proof.
  induction pts as [|q pts IH]; intros ms1 mo0 pm d r d' F H; cbn [put_points] in H.
  { apply eret_inv in H as [-> ->]. split; [by apply grows_refl|]. split; [done|]. intros [U A]. split; [done|]. intros p q E. split; [by eapply A|by left]. }
  apply ebind_inv in H as (z & d1 & H1 & H). assert (d1 = d) as -> by (unfold of_other in H1; destruct (xy <$> _); [by apply eret_inv in H1 as [_ ->]|done]).
  apply ebind_inv in H as (p & d1 & H2 & H). apply ebind_inv in H as (ms1' & d2 & H3 & H). assert (d2 = d1) as -> by (by eapply note_split_state).
  assert (GR := impl_grows _ _ _ _ _ _ _ F H2). destruct (IH _ _ _ _ _ _ (proj1 GR) H) as (GR' & RR & MM). split; [by eapply grows_trans|]. split.
  - intros R. apply RR. destruct (impl_eff _ _ _ _ _ _ _ F H2) as [[-> _]|[[v P]|(e & n & w & DV & O)]].
    + apply note_old in H3 as ->; done.
    + apply note_loose in H3 as ->; [by eapply recorded_pointed|apply P].
    + rewrite (note_divided _ _ _ _ _ _ _ _ _ DV H3). eapply recorded_divided; try done.
      destruct (r_known _ _ _ _ _ R e) as [L|[_ [? L]]]; [|done|done]. apply DV.
  - intros [U A]. assert (PP : exists v, is_at (dec d1) p v).
    { destruct (impl_eff _ _ _ _ _ _ _ F H2) as [[-> P]|[[v P]|(e & n & w & DV & O)]]; [done| |].
      - exists v. unfold is_at. change (xy_of (dec d1) !! p = Some v). rewrite (pt_xy _ _ _ _ P). apply lookup_insert.
      - exists w. unfold is_at. change (xy_of (dec d1) !! p = Some w). rewrite (dv_xy _ _ _ _ _ _ DV). apply lookup_insert. }
    destruct MM as [U' A'].
    { split; [by apply uniq_dput|]. intros p' q'. rewrite dget_dput. destruct (Nat.eqb_spec p p') as [-> | D]; [done|]. intros E. destruct (A _ _ E) as [v B]. exists v. by apply GR. }
    split; [done|]. intros p' q' E. destruct (A' _ _ E) as [B C]. split; [done|]. destruct C as [C|C]; [|by right; right]. rewrite dget_dput in C. destruct (Nat.eqb_spec p p') as [-> | D]; [injection C as ->; right; by left|by left].
Qed.
End Points.
