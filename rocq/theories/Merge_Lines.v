(** The new segments, and the whole of intersect_single. *)
From stdpp Require Import gmap list relations functions.
From Coq Require Import Lia QArith Lqa.
From Verif Require Import Decomp_Model Decomp_Spec Decomp_Surgery Decomp_Eff Decomp_Inv Decomp_Good Decomp_Hist Decomp_Told Editor_Model Editor_Spec Editor_Proofs Editor_Undo.
From Verif Require Import Aabb_Model Aabb_Spec Editor_Box Geom_Model Snap_Model Snap_Spec Snap_Proofs Snap_Cand Snap_Add Snap_Main Line_Model Line_Spec Line_Geo Line_Cut Line_Run Line_Main Merge_Model Merge_Spec Merge_Sides Merge_Keep Merge_Dict Merge_Run Merge_Cuts.
Local Open Scope nat_scope.

Lemma of_other_inv {A} (x : option A) d r d' : of_other x d = (Ok r, d') -> d' = d /\ x = Some r.
Proof. destruct x; cbn; intros H; [|done]. by injection H as -> ->. Qed.
Lemma note_segment_inv g start r l ms2 mo2 d n d' : note_segment g start r l ms2 mo2 d = (Ok n, d') -> d' = d /\
  match last_change (dec d) with CAdd q z | CSplit q z => fst n = dput z (origin ms2 q) ms2 | CShape _ | CNone => fst n = ms2 | _ => False end.
Proof.
  unfold note_segment, end_at. intros H. apply ebind_inv in H as (v & d1 & H1 & H). apply item_inv in H1 as [-> _].
  destruct (last_change (dec d)); try done; repeat case_match; try done; injection H as <- <-; done.
Qed.
Section Lines.
Context (K : geometry) (can : ed -> nat -> vect -> bool) (SK : steady K) (NC : forall d p v, can d p v = false) (s0 : st).
Lemma recorded_linked d d' g a b ms1 ms2 ms2' mo1 e : recorded s0 d ms1 ms2 mo1 -> linked_up d d' g a b ->
  match last_change (dec d') with CAdd q z | CSplit q z => ms2' = dput z (origin ms2 q) ms2 | CShape _ | CNone => ms2' = ms2 | _ => False end -> recorded s0 d' ms1 ms2' (dput g e mo1).
Proof.
  intros [KP N KE U1 U2 UM PO OT] LK HC. assert (LV := lk_live _ _ _ _ _ LK).
  assert (OG : vec (dec d) !! g = None -> origin ms1 g = g).
  { intros E. unfold origin. destruct (dget g ms1) eqn:D; [|done]. apply KE in D as [[? D] _]. congruence. }
  assert (EO : forall z, told_polys (dec d') (origin ms2) z = origin ms2' z).
  { intros z. unfold told_polys. destruct (last_change (dec d')); subst; try done; rewrite origin_dput; done. }
  constructor.
  - eapply keeps_ext; [| |eapply keeps_segment; [exact KP|exact LK|exact OG]]; [done|intros z; symmetry; apply EO].
  - intros h L. apply LV in L. rewrite dget_dput. destruct (decide (is_Some (vec (dec d) !! h))) as [L'|L'].
    + destruct (N h L') as [A|[A B]]; [by left|]. right. split; [done|]. destruct (Nat.eqb_spec g h); [by eexists|done].
    + destruct L as [-> |L]; [|done]. right. split; [apply OG; by apply eq_None_not_Some|]. rewrite Nat.eqb_refl. by eexists.
  - intros h v E. destruct (KE _ _ E) as [A B]. split; [|done]. apply LV. by right.
  - done.
  - destruct (last_change (dec d')); subst; try done; by apply uniq_dput.
  - by apply uniq_dput.
  - destruct (lk_polys _ _ _ _ _ LK) as [(C & OU & PA)|(q & n & C & Fn & Lq & OU & PA)].
    + assert (ms2' = ms2) as -> by (destruct C as [[q C]|C]; rewrite C in HC; done). intros z v E. rewrite OU. by apply PO.
    + assert (ms2' = dput n (origin ms2 q) ms2) as -> by (destruct C as [C|C]; rewrite C in HC; done). intros z v. rewrite dget_dput. destruct (Nat.eqb_spec n z) as [<- | D].
      * intros E. injection E as <-. split; [apply OU; by left|]. split; [|by apply (k_polys _ _ _ _ KP)]. destruct (outer_of s0 !! n) eqn:E; [|done]. destruct (k_poly _ _ _ _ KP n) as [[? X] _]; [eauto|congruence].
      * intros E. destruct (PO _ _ E) as (A & B). split; [apply OU; by right|done].
  - intros h v. rewrite dget_dput. destruct (Nat.eqb_spec g h) as [<- | D]; [intros _; apply LV; by left|]. intros E. apply LV. right. by eapply OT.
Qed.
Lemma put_line_run e r l b div : forall start ms1 ms2 mo1 mo2 d n d', fine d -> put_line K can e r l start b div ms2 mo1 mo2 d = (Ok n, d') -> grows d d' /\
  (recorded s0 d ms1 ms2 mo1 -> recorded s0 d' ms1 (fst (fst n)) (snd (fst n))) /\ forall g v, dget g (snd (fst n)) = Some v -> dget g mo1 = Some v \/ v = e.
Proof.
  assert (ST : forall a b' d g d' start r l ms2 mo2 n d2, fine d -> add_segment K a b' d = (Ok g, d') -> note_segment g start r l ms2 mo2 d' = (Ok n, d2) -> d2 = d' /\ grows d d' /\
    forall ms1 mo1, recorded s0 d ms1 ms2 mo1 -> recorded s0 d' ms1 (fst n) (dput g e mo1)).
  { intros a b' d g d' st r' l' ms2 mo2 n d2 F H1 H2. destruct F as (G & V & T). assert (LK := segment_eff _ _ _ _ _ _ G V SK H1). apply note_segment_inv in H2 as [-> HC]. split; [done|]. split; [by eapply linked_grows|].
    intros ms1 mo1 R. by eapply recorded_linked. }
  induction div as [|[t m] div IH]; intros start ms1 ms2 mo1 mo2 d n d' F H; cbn [put_line] in H.
  - destruct (start =? b); [apply eret_inv in H as [-> ->]; split; [by apply grows_refl|]; split; [done|]; intros g v E; by left|].
    apply ebind_inv in H as (g & d1 & H1 & H). apply ebind_inv in H as (m & d2 & H2 & H). apply eret_inv in H as [-> ->]. destruct (ST _ _ _ _ _ _ _ _ _ _ _ _ F H1 H2) as (-> & GR & RR). split; [done|]. split; [apply RR|].
    cbn. intros h v. rewrite dget_dput. destruct (g =? h); [intros E; injection E as <-; by right|by left].
  - destruct (start =? m); [by eapply IH|]. unfold xy_at in H. apply ebind_inv in H as (x & d1 & H1 & H). apply item_inv in H1 as [-> _]. apply ebind_inv in H as (y & d1 & H1 & H). apply item_inv in H1 as [-> _].
    destruct (below _ _).
    + apply ebind_inv in H as (p & d1 & H1 & H). assert (d1 = d) as ->.
      { unfold merge_points in H1. destruct (if m <? start then _ else _) as [x' y']. unfold xy_at in H1. apply ebind_inv in H1 as (vx & d2 & H2 & H1). apply item_inv in H2 as [-> _]. apply ebind_inv in H1 as (vy & d2 & H2 & H1). apply item_inv in H2 as [-> _]. rewrite NC in H1. by injection H1. }
      by eapply IH.
    + apply ebind_inv in H as (g & d1 & H1 & H). apply ebind_inv in H as (q & d2 & H2 & H). destruct (ST _ _ _ _ _ _ _ _ _ _ _ _ F H1 H2) as (-> & GR & RR).
      destruct (IH _ ms1 _ _ _ _ _ _ (proj1 GR) H) as (GR' & RR' & MM). split; [by eapply grows_trans|]. split; [auto|].
      intros h v E. destruct (MM _ _ E) as [A|A]; [|by right]. revert A. rewrite dget_dput. destruct (g =? h); [intros E'; injection E' as <-; by right|by left].
Qed.
Lemma segments_run other pm segs : forall ms1 ms2 mo1 mo2 d r d', fine d -> put_segments K can other pm segs ms1 ms2 mo1 mo2 d = (Ok r, d') -> grows d d' /\
  (spread (dec d') (tolerance d) -> recorded s0 d ms1 ms2 mo1 -> recorded s0 d' (fst (fst (fst r))) (snd (fst (fst r))) (snd (fst r))) /\
  forall g v, dget g (snd (fst r)) = Some v -> dget g mo1 = Some v \/ In v segs.
Proof.
  induction segs as [|e segs IH]; intros ms1 ms2 mo1 mo2 d r d' F H; cbn [put_segments] in H.
  { apply eret_inv in H as [-> ->]. split; [by apply grows_refl|]. split; [done|]. by left. }
  apply ebind_inv in H as (a & d1 & H1 & H). apply of_other_inv in H1 as [-> _]. apply ebind_inv in H as (b & d1 & H1 & H). apply of_other_inv in H1 as [-> _].
  apply ebind_inv in H as (pa & d1 & H1 & H). apply item_inv in H1 as [-> _]. apply ebind_inv in H as (pb & d1 & H1 & H). apply item_inv in H1 as [-> _].
  destruct (a =? b).
  { destruct (IH _ _ _ _ _ _ _ F H) as (A & B & C). split; [done|]. split; [done|]. intros g v E. destruct (C _ _ E); [by left|right; by right]. }
  apply ebind_inv in H as (x & d1 & H1 & H). apply of_other_inv in H1 as [-> _]. apply ebind_inv in H as (l & d1 & H1 & H). apply of_other_inv in H1 as [-> _].
  apply ebind_inv in H as (div & d1 & H1 & H). apply ebind_inv in H as (ms1' & d2 & H2 & H). apply of_other_inv in H2 as [-> HN].
  apply ebind_inv in H as (n & d2 & H2 & H).
  unfold line_cuts, xy_at in H1. apply ebind_inv in H1 as (xa & d3 & H0 & H1). apply item_inv in H0 as [-> _]. apply ebind_inv in H1 as (xb & d3 & H0 & H1). apply item_inv in H0 as [-> _]. apply ebind_inv in H1 as (cs & d3 & H0 & H1). apply around_inv in H0 as (-> & _).
  assert (G1 := cuts_grow _ _ _ _ _ _ _ F H1). destruct (put_line_run _ _ _ _ _ _ ms1' _ _ _ _ _ _ (proj1 G1) H2) as (G2 & R2 & M2).
  destruct (IH _ _ _ _ _ _ _ (proj1 G2) H) as (G3 & R3 & M3). assert (G23 := grows_trans _ _ _ G2 G3). split; [by eapply grows_trans|]. split.
  - intros SP R. assert (T1 : tolerance d2 = tolerance d) by (destruct G1 as (_ & T1 & _), G2 as (_ & T2 & _); congruence). apply R3; [by rewrite T1|]. apply R2.
    destruct (cuts_run s0 d ms1 ms2 xa xb F cs [] d div d1 (origin ms1)) as [o C]; [by eapply cutting_start|by eapply grows_spread|done|].
    by eapply cuts_recorded.
  - intros g v E. destruct (M3 _ _ E) as [A|A]; [|right; by right]. destruct (M2 _ _ A) as [B| ->]; [by left|right; by left].
Qed.
End Lines.
Lemma fine_tol t d : (0 < t)%Q -> fine d -> fine (set_tol t d).
Proof. intros P (G & V & _). done. Qed.
(** All of intersect_single. *)
Lemma single_run K can inside root k tol other pts segs d ms mo d' : steady K -> (forall d p v, can d p v = false) -> good (dec d) -> vec_ok (dec d) -> (0 < tol)%Q -> intersect_single K can inside root k tol other pts segs d = (Ok (ms, mo), d') ->
  good (dec d') /\ tolerance d' = tolerance d /\ m_points ms = [] /\ (forall p v, is_at (dec d) p v -> is_at (dec d') p v) /\ (spread (dec d') tol -> recorded (dec d) d' (m_segs ms) (m_polys ms) (m_segs mo)) /\
  (forall p q, dget p (m_points mo) = Some q -> (exists v, is_at (dec d') p v) /\ In q pts) /\ uniq (m_points mo) /\ (forall g v, dget g (m_segs mo) = Some v -> In v segs) /\ exists mo2, fill k (dec d') mo2 = Ok (m_polys mo).
Proof.
  intros SK NC G V P H. unfold intersect_single in H.
  destruct ((x <% put_points K inside root other pts [] [] []; _) (set_tol tol d)) as [[m| |] d1] eqn:E; [|done|done]. injection H as -> <-.
  apply ebind_inv in E as ([[ms1 mo0] pm] & d2 & H1 & E). apply ebind_inv in E as ([[[ms1' ms2] mo1] mo2] & d3 & H2 & E).
  destruct (fill k (dec d3) mo2) as [mo2'| |] eqn:FI; [|done|done]. injection E as <- <- <-. cbn [m_segs m_polys m_points].
  assert (F : fine (set_tol tol d)) by done. destruct (points_run _ _ _ (dec d) _ _ _ _ _ _ _ _ F H1) as (G1 & R1 & M1).
  destruct (segments_run K can SK NC (dec d) _ _ _ _ _ _ _ _ _ _ (proj1 G1) H2) as (G2 & R2 & S2). assert (GR := grows_trans _ _ _ G1 G2).
  split; [apply GR|]. split; [done|]. split; [done|]. split; [apply GR|]. split; [|split; [|split; [|split]]].
  - intros SP. assert (T : tolerance d2 = tol) by (destruct G1 as (_ & T & _); exact T). rewrite T in R2. specialize (R2 SP (R1 (recorded_start _ F))). cbn in R2. destruct R2 as [A B C D E' F' I J]. constructor; done.
  - destruct M1 as [U M]; [split; [apply NoDup_nil_2|done]|]. cbn in M. intros p q E. destruct (M _ _ E) as [[v A] [B|B]]; [done|]. split; [|done]. exists v. by apply G2.
  - destruct M1 as [U M]; [split; [apply NoDup_nil_2|done]|]. done.
  - cbn in S2. intros g v E. destruct (S2 _ _ E) as [A|A]; done.
  - by exists mo2.
Qed.
