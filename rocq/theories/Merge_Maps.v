(** The map of polygons of the other decomposition. *)
From stdpp Require Import gmap list relations functions.
From Coq Require Import Lia QArith Lqa.
From Verif Require Import Decomp_Model Decomp_Spec Decomp_Surgery Decomp_Eff Decomp_Inv Decomp_Tree Decomp_Nest Decomp_Good Decomp_Hist Decomp_Told Editor_Model Editor_Spec Editor_Proofs Editor_Undo.
From Verif Require Import Aabb_Model Aabb_Spec Editor_Box Geom_Model Snap_Model Snap_Spec Snap_Proofs Snap_Cand Snap_Add Snap_Main Line_Model Line_Spec Line_Geo Line_Cut Line_Run Line_Main Merge_Model Merge_Spec Merge_Sides Merge_Keep Merge_Dict Merge_Run Merge_Cuts Merge_Lines Merge_Fill.
Local Open Scope nat_scope.

(** Keys are polygons, values are as [P] says. *)
Definition drawn_map (P : nat -> Prop) (s : st) (m : dict (option nat)) : Prop := uniq m /\ forall p x, dget p m = Some x -> is_Some (outer_of s !! p) /\ forall v, x = Some v -> P v.
Lemma drawn_put (P : nat -> Prop) s m p x : drawn_map P s m -> is_Some (outer_of s !! p) -> (forall v, x = Some v -> P v) -> drawn_map P s (dput p x m).
Proof.
  intros [U A] L V. split; [by apply uniq_dput|]. intros q y. rewrite dget_dput. destruct (Nat.eqb_spec p q) as [<- |D]; [intros E; by injection E as <-|by apply A].
Qed.
Lemma drawn_more (P : nat -> Prop) s s' m : (forall z, is_Some (outer_of s !! z) -> is_Some (outer_of s' !! z)) -> drawn_map P s m -> drawn_map P s' m.
Proof. intros L [U A]. split; [done|]. intros p x E. destruct (A p x E) as [B C]. split; [by apply L|done]. Qed.
Section Maps.
Context (K : geometry) (can : ed -> nat -> vect -> bool) (SK : steady K) (NC : forall d p v, can d p v = false) (P : nat -> Prop).
Lemma linked_polys d d' g a b z : linked_up d d' g a b -> is_Some (outer_of (dec d) !! z) -> is_Some (outer_of (dec d') !! z).
Proof. intros LK L. destruct (lk_polys _ _ _ _ _ LK) as [(_ & OU & _)|(q & n & _ & _ & _ & OU & _)]; apply OU; auto. Qed.
Lemma segment_map d d' g a b start r l ms2 mo2 n d2 : linked_up d d' g a b -> note_segment g start r l ms2 mo2 d' = (Ok n, d2) -> P r -> P l -> drawn_map P (dec d) mo2 -> drawn_map P (dec d') (snd n).
Proof.
  intros LK H Pr Pl DM. assert (DM' : drawn_map P (dec d') mo2) by (eapply drawn_more; [|exact DM]; intros z; by apply (linked_polys _ _ _ _ _ _ LK)).
  unfold note_segment, end_at in H. apply ebind_inv in H as (v & d1 & H1 & H). apply item_inv in H1 as [-> _].
  assert (SI : forall h z, poly_beside (dec d') h = Some z -> is_Some (outer_of (dec d') !! z)).
  { intros h z E. change (poly_at (dec d') h = Some z) in E. apply poly_at_iff in E as (w & W & L). destruct (good_side _ _ _ (lk_good _ _ _ _ _ LK) W) as (z' & o & A & B & _). assert (z' = z) as -> by congruence. eauto. }
  assert (SD : forall m, drawn_map P (dec d') m -> forall n, (let forth := v =? start in match poly_beside (dec d') (g, negb forth), poly_beside (dec d') (g, forth) with Some gr, Some gl => Some (dput gl (Some l) (dput gr (Some r) m)) | _, _ => None end) = Some n -> drawn_map P (dec d') n).
  { intros m M n'. cbv zeta. destruct (poly_beside (dec d') (g, negb (v =? start))) as [gr|] eqn:E1; [|done]. destruct (poly_beside (dec d') (g, v =? start)) as [gl|] eqn:E2; [|done]. intros E. injection E as <-.
    apply drawn_put; [apply drawn_put; [done|by eapply SI|]|by eapply SI|]; intros u E; by injection E as <-. }
  assert (CA : forall q z, last_change (dec d') = CAdd q z \/ last_change (dec d') = CSplit q z -> drawn_map P (dec d') (dput z (mjoin (dget q mo2)) mo2)).
  { intros q z C. apply drawn_put; [done| |].
    - destruct (lk_polys _ _ _ _ _ LK) as [(C' & OU & _)|(q' & n' & C' & _ & _ & OU & _)]; [destruct C as [C|C], C' as [[? C']|C']; congruence|]. apply OU. left. destruct C as [C|C], C' as [C'|C']; congruence.
    - intros u E. destruct (dget q mo2) as [x|] eqn:Q; [|done]. cbn in E. subst x. destruct DM' as [_ A]. by destruct (A _ _ Q) as [_ B]; apply B. }
  cbv beta zeta in *.
  destruct (last_change (dec d')) eqn:LC; try done.
  all: destruct (poly_beside (dec d') (g, negb (v =? start))) as [gr|] eqn:E1; [|done]; destruct (poly_beside (dec d') (g, v =? start)) as [gl|] eqn:E2; [|done]; injection H as <- <-; cbn [snd].
  all: eapply SD; [|reflexivity]; first [exact DM'|apply CA; eauto].
Qed.
Lemma line_map e r l b div : P r -> P l -> forall start ms2 mo1 mo2 d n d', fine d -> put_line K can e r l start b div ms2 mo1 mo2 d = (Ok n, d') -> drawn_map P (dec d) mo2 -> drawn_map P (dec d') (snd n).
Proof.
  intros Pr Pl. induction div as [|[t m] div IH]; intros start ms2 mo1 mo2 d n d' F H; cbn [put_line] in H.
  - destruct (start =? b); [by apply eret_inv in H as [-> ->]|].
    apply ebind_inv in H as (g & d1 & H1 & H). apply ebind_inv in H as (m & d2 & H2 & H). apply eret_inv in H as [-> ->]. destruct F as (G & V & T). assert (LK := segment_eff _ _ _ _ _ _ G V SK H1). cbn [snd]. intros DM.
    assert (H3 := H2). apply note_segment_inv in H3 as [-> _]. by eapply segment_map.
  - destruct (start =? m); [by eapply IH|]. unfold xy_at in H. apply ebind_inv in H as (x & d1 & H1 & H). apply item_inv in H1 as [-> _]. apply ebind_inv in H as (y & d1 & H1 & H). apply item_inv in H1 as [-> _].
    destruct (below _ _).
    + apply ebind_inv in H as (p & d1 & H1 & H). assert (d1 = d) as ->.
      { unfold merge_points in H1. destruct (if m <? start then _ else _) as [x' y']. unfold xy_at in H1. apply ebind_inv in H1 as (vx & d2 & H2 & H1). apply item_inv in H2 as [-> _]. apply ebind_inv in H1 as (vy & d2 & H2 & H1). apply item_inv in H2 as [-> _]. rewrite NC in H1. by injection H1. }
      by eapply IH.
    + apply ebind_inv in H as (g & d1 & H1 & H). apply ebind_inv in H as (q & d2 & H2 & H). assert (F' := F). destruct F as (G & V & T). assert (LK := segment_eff _ _ _ _ _ _ G V SK H1).
      assert (H3 := H2). apply note_segment_inv in H3 as [-> _]. intros DM. eapply IH; [|exact H|by eapply segment_map]. apply (linked_grows _ _ _ _ _ F' LK).
Qed.
Lemma cuts_outer xa xb l : forall div d div' d', fine d -> cuts xa xb l div d = (Ok div', d') -> outer_of (dec d') = outer_of (dec d).
Proof.
  induction l as [|g l IH]; intros div d div' d' F H; cbn [cuts] in H; [by apply eret_inv in H as [_ ->]|].
  apply ebind_inv in H as (c & d2 & H1 & H). apply crossing_inv in H1 as (-> & _); [|done]. destruct c as [[t0 t1]|]; [|by eapply IH].
  apply ebind_inv in H as ([m n] & d2 & H1 & H). destruct (there_eff _ _ _ _ _ _ F H1) as (x & y & E & [(-> & _)|(w & DV & _)]); [by eapply IH|].
  rewrite (IH _ _ _ _ (proj1 (divided_grows _ _ _ _ _ _ F DV)) H). apply DV.
Qed.
Lemma segments_map other pm segs : (forall e c z, In e segs -> poly_at other (e, c) = Some z -> P z) -> forall ms1 ms2 mo1 mo2 d r d', fine d -> put_segments K can other pm segs ms1 ms2 mo1 mo2 d = (Ok r, d') ->
  drawn_map P (dec d) mo2 -> drawn_map P (dec d') (snd r).
Proof.
  induction segs as [|e segs IH]; intros PP ms1 ms2 mo1 mo2 d r d' F H; cbn [put_segments] in H.
  { by apply eret_inv in H as [-> ->]. }
  assert (PP' : forall e c z, In e segs -> poly_at other (e, c) = Some z -> P z) by (intros e' c z I; apply PP; by right).
  apply ebind_inv in H as (a & d1 & H1 & H). apply of_other_inv in H1 as [-> _]. apply ebind_inv in H as (b & d1 & H1 & H). apply of_other_inv in H1 as [-> _].
  apply ebind_inv in H as (pa & d1 & H1 & H). apply item_inv in H1 as [-> _]. apply ebind_inv in H as (pb & d1 & H1 & H). apply item_inv in H1 as [-> _].
  destruct (a =? b); [by eapply IH|].
  apply ebind_inv in H as (x & d1 & H1 & H). apply of_other_inv in H1 as [-> Px]. apply ebind_inv in H as (l & d1 & H1 & H). apply of_other_inv in H1 as [-> Pl].
  apply ebind_inv in H as (div & d1 & H1 & H). apply ebind_inv in H as (ms1' & d2 & H2 & H). apply of_other_inv in H2 as [-> HN].
  apply ebind_inv in H as (n & d2 & H2 & H). intros DM.
  unfold line_cuts, xy_at in H1. apply ebind_inv in H1 as (xa & d3 & H0 & H1). apply item_inv in H0 as [-> _]. apply ebind_inv in H1 as (xb & d3 & H0 & H1). apply item_inv in H0 as [-> _]. apply ebind_inv in H1 as (cs & d3 & H0 & H1). apply around_inv in H0 as (-> & _).
  assert (F1 := proj1 (cuts_grow _ _ _ _ _ _ _ F H1)). assert (F2 := proj1 (proj1 (put_line_run K can SK NC (dec d) _ _ _ _ _ _ ms1' _ _ _ _ _ _ F1 H2))).
  eapply (IH PP'); [exact F2|exact H|]. eapply line_map; [| |exact F1|exact H2|].
  - eapply PP; [by left|exact Px].
  - eapply PP; [by left|exact Pl].
  - eapply drawn_more; [|exact DM]. intros z. by rewrite (cuts_outer _ _ _ _ _ _ _ F H1).
Qed.
End Maps.
Lemma single_polys K can inside root k tol other pts segs d ms mo d' : steady K -> (forall d p v, can d p v = false) -> good (dec d) -> vec_ok (dec d) -> (0 < tol)%Q -> intersect_single K can inside root k tol other pts segs d = (Ok (ms, mo), d') ->
  good (dec d') /\ vec_ok (dec d') /\ exists m, fill k (dec d') m = Ok (m_polys mo) /\ drawn_map (fun z => exists e c, In e segs /\ poly_at other (e, c) = Some z) (dec d') m.
Proof.
  intros SK NC G V P H. unfold intersect_single in H.
  destruct ((x <% put_points K inside root other pts [] [] []; _) (set_tol tol d)) as [[m| |] d1] eqn:E; [|done|done]. injection H as -> <-.
  apply ebind_inv in E as ([[ms1 mo0] pm] & d2 & H1 & E). apply ebind_inv in E as ([[[ms1' ms2] mo1] mo2] & d3 & H2 & E).
  destruct (fill k (dec d3) mo2) as [mo2'| |] eqn:FI; [|done|done]. injection E as <- <- <-. cbn [m_segs m_polys m_points].
  assert (F : fine (set_tol tol d)) by done. destruct (points_run _ _ _ (dec d) _ _ _ _ _ _ _ _ F H1) as (G1 & R1 & M1).
  destruct (segments_run K can SK NC (dec d) _ _ _ _ _ _ _ _ _ _ (proj1 G1) H2) as (G2 & _). split; [apply G2|]. split; [apply G2|]. exists mo2. split; [done|].
  refine (segments_map K can SK NC _ other pm segs _ _ _ _ _ _ _ _ (proj1 G1) H2 _); [intros e c z I E; eauto|]. split; [apply NoDup_nil_2|done].
Qed.
