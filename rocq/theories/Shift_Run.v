(** The test before points are moved ends and answers for all segments around. *)
From stdpp Require Import gmap list relations.
From Coq Require Import QArith Lqa Lia.
From Verif Require Import Decomp_Model Decomp_Spec Decomp_Perm Decomp_Surgery Decomp_Eff Decomp_Tree Decomp_Inv Decomp_Nest Decomp_Good Decomp_Hist Decomp_Walk Decomp_Props
  Geom_Model Geom_Spec Build_Model Build_Wire Build_Poly Snap_Spec Line_Spec Line_Geo Shift_Model Shift_Spec.
Local Open Scope nat_scope.

Lemma collect_gen {A B} (f : A -> M B) (R : A -> B -> Prop) s l : (forall x, x ∈ l -> exists y, f x s = (Ok y, s) /\ R x y) -> exists ys, collect f l s = (Ok ys, s) /\ Forall2 R l ys.
Proof.
  induction l as [|x l IH]; intros H; [exists []; by split|]. destruct (H x) as (y & E & P); [left|]. destruct IH as (ys & E' & P'); [intros z Z; apply H; by right|]. exists (y :: ys). split; [|by constructor].
  cbn [collect]. rewrite (bind_ok _ _ s y s E). by rewrite (bind_ok _ _ s ys s E').
Qed.
Lemma any_ok {A} (f : A -> M bool) (P : A -> Prop) s l : (forall x, x ∈ l -> exists b, f x s = (Ok b, s) /\ (b = true <-> P x)) -> exists b, any f l s = (Ok b, s) /\ (b = true <-> exists x, x ∈ l /\ P x).
Proof.
  induction l as [|x l IH]; intros H.
  - exists false. split; [done|]. split; [done|]. by intros (x & ?%elem_of_nil & _).
  - destruct (H x) as (b & E & B); [left|]. cbn [any]. rewrite (bind_ok _ _ s b s E). destruct b.
    + exists true. split; [done|]. split; [|done]. intros _. exists x. split; [left|]. by apply B.
    + destruct IH as (b & E' & B'); [intros z Z; apply H; by right|]. exists b. split; [done|]. rewrite B'. split.
      * intros (z & Z & Y). exists z. split; [by right|done].
      * intros (z & [-> | Z]%elem_of_cons & Y); [by apply B in Y|eauto].
Qed.
Lemma in_concat_2 {A B} (R : A -> list B -> Prop) l ys z : Forall2 R l ys -> z ∈ concat ys <-> exists x y, x ∈ l /\ R x y /\ z ∈ y /\ (x, y) ∈ zip l ys.
Proof.
  induction 1 as [|x y l ys P _ IH]; cbn.
  - split; [by intros ?%elem_of_nil|]. by intros (x & y & ?%elem_of_nil & _).
  - rewrite elem_of_app, IH. split.
    + intros [Z|(x' & y' & X & Y & Z & I)]; [exists x, y; split; [left|]; split; [done|]; split; [done|left]|]. exists x', y'. split; [by right|]. split; [done|]. split; [done|by right].
    + intros (x' & y' & X & Y & Z & I). apply elem_of_cons in I as [[= -> ->]|I]; [by left|]. right. exists x', y'. split; [by apply elem_of_zip_l in I|done].
Qed.
Lemma zip_has {A B} (R : A -> B -> Prop) l ys x : Forall2 R l ys -> x ∈ l -> exists y, (x, y) ∈ zip l ys /\ R x y.
Proof.
  induction 1 as [|a y l ys P _ IH]; intros X; [by apply elem_of_nil in X|]. apply elem_of_cons in X as [-> | X]; [exists y; split; [left|done]|]. destruct (IH X) as (z & Z & Y). exists z. split; [by right|done].
Qed.

Lemma nsteps_0_inv {A} (R : relation A) x y : nsteps R 0 x y -> x = y.
Proof. by inversion 1. Qed.
Lemma nsteps_inv_l {A} (R : relation A) n x y : nsteps R (S n) x y -> exists z, R x z /\ nsteps R n z y.
Proof. inversion 1; subst. eauto. Qed.

Section Run.
Context (s : st) (H : history s).
Let G := history_good s H.
Lemma side_poly e c b p : vtx s !! (e, b) = Some p -> exists w g, wir s !! (e, c) = Some w /\ wires s !! w ≫= w_poly = Some g /\ poly_at s (e, c) = Some g.
Proof.
  intros V. destruct (C17_half_edges s H) as (H1 & H2 & _). assert (N : is_Some (nxt s !! (e, c))). { apply H1, (H1 e b). apply (proj1 (H2 (e, b))). eauto. } apply (proj2 (H2 (e, c))) in N as [w W].
  destruct (i_live _ (g_inv _ G) _ _ W) as [q Q]. destruct (n_wire _ _ _ (g_nest _ G) w) as (g & o & L & _); [eauto|]. rewrite lookup_fmap in L. destruct (wires s !! w) as [x|] eqn:X; [|done]. cbn in L. injection L as L.
  exists w, g. split; [done|]. rewrite X. cbn. split; [done|]. unfold poly_at. rewrite W. cbn. by rewrite X.
Qed.
Lemma gather_ok ps : (forall p, p ∈ ps -> is_Some (points s !! p)) -> exists T G', gather ps s = (Ok (T, G'), s) /\ (forall h, h ∈ T <-> moves_end s ps h) /\ (forall g, g ∈ G' <-> changed s ps g).
Proof.
  induction ps as [|p ps IH]; intros L.
  - exists ∅, ∅. split; [done|]. split.
    + intros h. split; [by intros ?%elem_of_empty|]. by intros (p & ?%elem_of_nil & _).
    + intros g. split; [by intros ?%elem_of_empty|]. by intros (e & b & c & (p & ?%elem_of_nil & _) & _).
  - destruct (L p) as [x X]; [left|]. destruct (C18_segments s p x H X) as (l & E & [_ M] & _).
    destruct (collect_gen beside_both (fun h y => exists a b, y = [a; b] /\ poly_at s (fst h, false) = Some a /\ poly_at s (fst h, true) = Some b) s l) as (t & E2 & T).
    { intros [e c] I. apply M in I. destruct (side_poly e false c p I) as (w & a & W & P & A). destruct (side_poly e true c p I) as (w' & b & W' & P' & B). exists [a; b]. split; [|eauto].
      unfold beside_both. cbn [fst]. rewrite (bind_ok _ _ s w s) by (by apply need_ok). rewrite (bind_ok _ _ s a s) by (by apply need_ok). rewrite (bind_ok _ _ s w' s) by (by apply need_ok). by rewrite (bind_ok _ _ s b s) by (by apply need_ok). }
    destruct IH as (S & G' & E3 & S3 & G3); [intros q Q; apply L; by right|]. eexists _, _. split.
    { cbn [gather]. rewrite (bind_ok _ _ s l s E). rewrite (bind_ok _ _ s t s E2). rewrite (bind_ok _ _ s (S, G') s E3). cbn [fst snd]. done. }
    split.
    + intros h. rewrite elem_of_union, elem_of_list_to_set, M, S3. split.
      * intros [V|(q & Q & V)]; [exists p; split; [left|done]|]. exists q. split; [by right|done].
      * intros (q & [-> | Q]%elem_of_cons & V); [by left|]. right. by exists q.
    + intros g. rewrite elem_of_union, elem_of_list_to_set, (in_concat_2 _ _ _ g T), G3. split.
      * intros [(h & y & I & (a & b & -> & A & B) & Z & _)|(e & b & c & (q & Q & V) & P)].
        -- apply M in I. destruct h as [e c]. cbn [fst] in *. apply elem_of_cons in Z as [-> | Z%elem_of_list_singleton].
           ++ exists e, c, false. split; [|done]. exists p. split; [left|done].
           ++ subst g. exists e, c, true. split; [|done]. exists p. split; [left|done].
        -- exists e, b, c. split; [|done]. exists q. split; [by right|done].
      * intros (e & b & c & (q & [-> | Q]%elem_of_cons & V) & P).
        -- left. apply M in V as I. destruct (zip_has _ _ _ _ T I) as (y & Z & Y). exists (e, b), y. split; [done|]. split; [done|]. split; [|done]. destruct Y as (a & b' & -> & A & B). cbn [fst] in *. destruct c; [assert (b' = g) as -> by congruence; right; left|assert (a = g) as -> by congruence; left].
        -- right. exists e, b, c. split; [|done]. by exists q.
Qed.

(** * Wires below *)
Notation above := (fun x q => par_of s !! x = Some (Some q)).
Definition kid (w : nat) : list nat := match wires s !! w with Some x => elements (childs x) | None => [] end.
Lemma par_ne w : par_of s !! w <> Some (Some w).
Proof. intros E. assert (U := n_up _ _ _ (g_nest _ G) w ltac:(eauto)). unfold up in U. apply rtc_nsteps in U as (n & U). induction n as [|n IH]; [apply nsteps_0_inv in U|]; [|].
  - subst. assert (R := n_root _ _ _ (g_nest _ G)). congruence.
  - apply nsteps_inv_l in U as (z & Z & U). cbv beta in Z. assert (z = w) as -> by congruence. by apply IH.
Qed.
Lemma kid_ok w c : is_Some (wires s !! w) -> c ∈ kid w <-> par_of s !! c = Some (Some w).
Proof.
  intros [x X]. unfold kid. rewrite X, elem_of_elements. destruct (g_tl _ G) as [T1 T2]. split.
  - intros I. apply T1. by exists x.
  - intros E. destruct (T2 w c) as (y & Y & Z); [done|eauto|intros ->; by apply (par_ne w)|by apply not_elem_of_empty|]. congruence.
Qed.
Lemma below_step k l : forall m, (forall w, w ∈ l -> is_Some (wires s !! w)) -> below (length l + k) (l ++ m) s = match below k (m ++ List.flat_map kid l) s with (Ok r, s') => (Ok (l ++ r), s') | (Raise, s') => (Raise, s') | (Loop, s') => (Loop, s') end.
Proof.
  induction l as [|w l IH]; intros m L.
  - cbn. rewrite app_nil_r. by destruct (below k m s) as [[]].
  - destruct (L w) as [x X]; [left|]. cbn [length plus app below List.flat_map]. rewrite (bind_ok _ _ s x s) by (by apply need_ok). rewrite <- app_assoc. unfold bind.
    rewrite (IH (m ++ elements (childs x))) by (intros z Z; apply L; by right). rewrite <- app_assoc. assert (EK : kid w = elements (childs x)) by (unfold kid; by rewrite X). rewrite EK. by destruct (below k _ s) as [[]].
Qed.
Lemma depth_unique w n n' : nsteps above n w 0 -> nsteps above n' w 0 -> n = n'.
Proof.
  assert (R := n_root _ _ _ (g_nest _ G)). revert w n'. induction n as [|n IH]; intros w n' A B.
  - apply nsteps_0_inv in A as ->. destruct n' as [|n']; [done|]. apply nsteps_inv_l in B as (z & Z & _). congruence.
  - apply nsteps_inv_l in A as (z & Z & A). destruct n' as [|n']; [apply nsteps_0_inv in B as ->; congruence|]. apply nsteps_inv_l in B as (y & Y & B). assert (y = z) as -> by congruence. f_equal. by apply (IH z).
Qed.
Lemma depth_bound : exists N, forall w n, is_Some (wires s !! w) -> nsteps above n w 0 -> n <= N.
Proof.
  assert (K : forall l : list nat, (forall w, w ∈ l -> is_Some (wires s !! w)) -> exists N, forall w n, w ∈ l -> nsteps above n w 0 -> n <= N).
  { induction l as [|w l IH]; intros L; [exists 0; by intros w n ?%elem_of_nil|]. destruct IH as [N IH]; [intros z Z; apply L; by right|].
    assert (U : up (par_of s) w) by (apply (n_up _ _ _ (g_nest _ G)); apply fmap_live, L; left). apply rtc_nsteps in U as (m & U). exists (N + m). intros z n [-> | Z]%elem_of_cons D.
    - rewrite (depth_unique w n m D U). lia.
    - assert (n <= N) by (by apply (IH z)). lia. }
  destruct (K (elements (dom (wires s)))) as [N D]; [intros w W; by apply elem_of_elements, elem_of_dom in W|]. exists N. intros w n W. apply D. by apply elem_of_elements, elem_of_dom.
Qed.
Lemma kids_live l w : w ∈ List.flat_map kid l -> (forall x, x ∈ l -> is_Some (wires s !! x)) -> exists x, x ∈ l /\ par_of s !! w = Some (Some x).
Proof. intros I L. apply elem_of_list_In, in_flat_map in I as (x & X & W). apply elem_of_list_In in X. apply elem_of_list_In in W. exists x. split; [done|]. by apply kid_ok; [apply L|]. Qed.
Lemma below_ok l : (forall w, w ∈ l -> is_Some (wires s !! w)) -> exists k0, forall k, k0 <= k -> exists r, below k l s = (Ok r, s) /\ forall w, w ∈ r <-> exists o, o ∈ l /\ rtc above w o.
Proof.
  destruct depth_bound as [N D].
  assert (K : forall m l, (forall w, w ∈ l -> is_Some (wires s !! w) /\ exists n, nsteps above n w 0 /\ S N <= n + m) -> exists k0, forall k, k0 <= k -> exists r, below k l s = (Ok r, s) /\ forall w, w ∈ r <-> exists o, o ∈ l /\ rtc above w o).
  { induction m as [|m IH]; intros l0 L.
    - destruct l0 as [|w l0]; [|exfalso; destruct (L w) as (W & n & A & B); [left|]; assert (n <= N) by (by apply (D w)); lia]. exists 1. intros [|k] LE; [lia|]. exists []. split; [done|]. intros w. split; [by intros ?%elem_of_nil|]. by intros (o & ?%elem_of_nil & _).
    - assert (LL : forall w, w ∈ l0 -> is_Some (wires s !! w)) by (intros w W; by apply L).
      destruct (IH (List.flat_map kid l0)) as [k0 IK].
      { intros w W. destruct (kids_live l0 w W LL) as (x & X & E). split; [apply (fmap_live parent); eauto|]. destruct (L x X) as (_ & n & A & B). exists (S n). split; [by apply (nsteps_l _ _ _ x)|lia]. }
      exists (length l0 + k0). intros k LE. destruct (IK (k - length l0)) as (r & E & R); [lia|]. exists (l0 ++ r). assert (BS := below_step (k - length l0) l0 [] LL). rewrite app_nil_r in BS. cbn [app] in BS. rewrite E in BS. replace (length l0 + (k - length l0)) with k in BS by lia. split; [done|].
      intros w. rewrite elem_of_app, R. split.
      + intros [W|(o' & O & U)]; [exists w; split; [done|apply rtc_refl]|]. destruct (kids_live l0 o' O LL) as (o & O' & P). exists o. split; [done|]. eapply rtc_r; [exact U|exact P].
      + intros (o & O & U). apply rtc_inv_r in U as [-> | (o' & U & P)]; [by left|]. right. exists o'. split; [|done]. apply elem_of_list_In, in_flat_map. exists o. split; apply elem_of_list_In; [done|]. apply kid_ok; [by apply LL|done]. }
  intros L. apply (K (S N)). intros w W. split; [by apply L|]. assert (U : up (par_of s) w) by (apply (n_up _ _ _ (g_nest _ G)); by apply fmap_live, L). apply rtc_nsteps in U as (n & U). exists n. split; [done|lia].
Qed.
Lemma resting_ok S w : is_Some (wires s !! w) -> exists es, resting S w s = (Ok es, s) /\ forall e, e ∈ es <-> exists c, wir s !! (e, c) = Some w /\ forall b, (e, b) ∉ S.
Proof.
  intros [x X]. destruct (C17_wires s w x H X) as (l & E & _ & M). eexists. split; [unfold resting; by rewrite (bind_ok _ _ s l s E)|]. intros e. rewrite elem_of_list_fmap. split.
  - intros ([e' c] & -> & I). apply elem_of_list_filter in I as [[I1 I2] I]. exists c. cbn [fst]. split; [by apply M|]. change (flip (e', c)) with (e', negb c) in I2. intros b. destruct (decide (b = c)) as [-> | Db]; [done|]. by replace b with (negb c) by (by destruct b, c).
  - intros (c & W & N). exists (e, c). split; [done|]. apply elem_of_list_filter. split; [|by apply M]. split; [apply N|]. change (flip (e, c)) with (e, negb c). apply N.
Qed.
End Run.

(** * Crossing *)
Lemma isec_cross x y a b : (exists t, seg_intersection (vminus y x) x a b = Some t) <-> cross_inside x y a b.
Proof.
  split.
  - intros [[t0 t1] E]. destruct (isec_sound _ _ _ _ _ _ E) as (A & B & [C1 C2] & D). split; [exact D|]. exists t0, t1. split; [done|]. split; [done|]. split; [exact C1|exact C2].
  - intros (D & t & u & A & B & C1 & C2). destruct (seg_intersection (vminus y x) x a b) as [t'|] eqn:E; [eauto|]. exfalso.
    destruct (isec_none x y a b t u E D) as [X|X]; [split; [exact C1|exact C2]|by apply X|by apply X].
Qed.

Lemma cross_swap x y a b : cross_inside x y a b -> cross_inside x y b a.
Proof.
  intros (D & t & u & [A1 A2] & [B1 B2] & C1 & C2). split; [intros Z; apply D; lra|]. exists t, (1 - u)%Q. split; [by split|]. split; [split; lra|]. split; lra.
Qed.
Lemma at_xy s g x : points s !! g = Some x -> (xy <$> points s) !! g = Some (xy x).
Proof. intros E. by rewrite lookup_fmap, E. Qed.
Lemma ends_live s e c w : history s -> wir s !! (e, c) = Some w -> forall b, exists p x, vtx s !! (e, b) = Some p /\ points s !! p = Some x.
Proof.
  intros H W b. destruct (C17_half_edges s H) as (H1 & H2 & _). assert (N : is_Some (nxt s !! (e, b))). { apply H1, (H1 e c). apply (proj2 (H2 (e, c))). eauto. } apply (proj1 (H2 (e, b))) in N as [p P].
  exists p. destruct (proj2 (proj2 (i_pts _ (g_inv _ (history_good s H)))) _ _ P) as [z Z]. rewrite lookup_fmap in Z. destruct (points s !! p) as [x|]; [eauto|done].
Qed.
Lemma vtx_live s h p : history s -> vtx s !! h = Some p -> exists w, wir s !! h = Some w.
Proof. intros H V. destruct (C17_half_edges s H) as (H1 & H2 & _). apply (proj2 (H2 h)). apply (proj1 (H2 h)). eauto. Qed.
Lemma hit_ok s e o b x y u v : vec_ok s -> vtx s !! (e, false) = Some o -> vtx s !! (e, true) = Some b -> points s !! o = Some x -> points s !! b = Some y ->
  exists r, hit e u v s = (Ok r, s) /\ (r = true <-> cross_inside (xy x) (xy y) u v).
Proof.
  intros V A B X Y. assert (E := V e o b (xy x) (xy y) A B (at_xy _ _ _ X) (at_xy _ _ _ Y)). unfold hit. rewrite (bind_ok _ _ s _ s (need_ok _ _ _ E)). rewrite (bind_ok _ _ s o s) by (by apply need_ok). rewrite (bind_ok _ _ s x s) by (by apply need_ok).
  eexists. split; [done|]. rewrite <- isec_cross. destruct (seg_intersection _ _ _ _) as [t|]; [split; eauto|]. split; [done|by intros [? ?]].
Qed.
(** The test of one segment. *)
Definition bumps (s : st) (ps : list nat) (d : vect) (e : nat) : Prop := exists a b x y,
  vtx s !! (e, false) = Some a /\ vtx s !! (e, true) = Some b /\ points s !! a = Some x /\ points s !! b = Some y /\
  ((exists p z, p ∈ ps /\ points s !! p = Some z /\ cross_inside (xy x) (xy y) (xy z) (fst (xy z) + fst d, snd (xy z) + snd d)%Q) \/
   (exists h p q u v, moves_end s ps h /\ vtx s !! h = Some p /\ vtx s !! flip h = Some q /\ new_place s ps d p u /\ new_place s ps d q v /\ cross_inside (xy x) (xy y) u v)).
Lemma stops_ok s T ps d e c w : history s -> vec_ok s -> (forall p, p ∈ ps -> is_Some (points s !! p)) -> (forall h, h ∈ T <-> moves_end s ps h) -> wir s !! (e, c) = Some w ->
  exists r, stops T ps d e s = (Ok r, s) /\ (r = true <-> bumps s ps d e).
Proof.
  intros H V L TM W. destruct (ends_live s e c w H W false) as (a & x & A & X). destruct (ends_live s e c w H W true) as (b & y & B & Y).
  destruct (any_ok (path_hit e d) (fun p => exists z, points s !! p = Some z /\ cross_inside (xy x) (xy y) (xy z) (vplus (xy z) d)) s ps) as (r1 & E1 & R1).
  { intros p I. destruct (L p I) as [z Z]. destruct (hit_ok s e a b x y (xy z) (vplus (xy z) d) V A B X Y) as (r & E & R). exists r. split; [unfold path_hit; by rewrite (bind_ok _ _ s z s) by (by apply need_ok)|].
    rewrite R. split; [eauto|]. intros (z' & Z' & C). congruence. }
  unfold stops. rewrite (bind_ok _ _ s r1 s E1).
  assert (HP : forall q z, points s !! q = Some z -> forall h, vtx s !! h = Some q -> new_place s ps d q (if decide (h ∈ T) then vplus (xy z) d else xy z)).
  { intros q z Z h Q. exists z. split; [done|]. destruct (decide (h ∈ T)) as [I|I]; destruct (decide (q ∈ ps)) as [J|J]; try done.
    - exfalso. apply TM in I as (q' & I & Q'). apply J. congruence.
    - exfalso. apply I, TM. by exists q. }
  destruct (any_ok (place_hit T e d) (fun h => exists p q u v, vtx s !! h = Some p /\ vtx s !! flip h = Some q /\ new_place s ps d p u /\ new_place s ps d q v /\ cross_inside (xy x) (xy y) u v) s (elements T)) as (r2 & E2 & R2).
  { intros h I%elem_of_elements. assert (I' := I). apply TM in I' as (p & P & Q). destruct h as [f i]. destruct (vtx_live _ _ _ H Q) as [w' W']. destruct (ends_live s f i w' H W' i) as (p' & z & P' & Z). assert (p' = p) as -> by congruence. destruct (ends_live s f i w' H W' (negb i)) as (q & z' & Q' & Z').
    destruct (hit_ok s e a b x y (vplus (xy z) d) (if decide ((f, negb i) ∈ T) then vplus (xy z') d else xy z') V A B X Y) as (r & E & R). exists r. split.
    - unfold place_hit. rewrite (bind_ok _ _ s p s) by (by apply need_ok). rewrite (bind_ok _ _ s z s) by (by apply need_ok). rewrite (bind_ok _ _ s q s) by (by apply need_ok). by rewrite (bind_ok _ _ s z' s) by (by apply need_ok).
    - assert (N1 := HP p z Z (f, i) Q). rewrite decide_True in N1 by done. assert (N2 := HP q z' Z' (f, negb i) Q'). rewrite R. split.
      + intros C. exists p, q, (vplus (xy z) d), (if decide ((f, negb i) ∈ T) then vplus (xy z') d else xy z'). done.
      + intros (p1 & q1 & u & v & P1 & Q1 & U & V1 & C). change (flip (f, i)) with (f, negb i) in Q1. assert (p1 = p) as -> by congruence. assert (q1 = q) as -> by congruence.
        destruct U as (z1 & Z1 & U), N1 as (z2 & Z2 & N1), V1 as (z3 & Z3 & V1), N2 as (z4 & Z4 & N2). assert (z1 = z2) as -> by congruence. assert (z3 = z4) as -> by congruence. rewrite N1, N2. subst u v. done. }
  assert (K : bumps s ps d e <-> (exists p, p ∈ ps /\ exists z, points s !! p = Some z /\ cross_inside (xy x) (xy y) (xy z) (vplus (xy z) d)) \/ (exists h, h ∈ elements T /\ exists p q u v, vtx s !! h = Some p /\ vtx s !! flip h = Some q /\ new_place s ps d p u /\ new_place s ps d q v /\ cross_inside (xy x) (xy y) u v)).
  { split.
    - intros (a' & b' & x' & y' & A' & B' & X' & Y' & C). assert (a' = a) as -> by congruence. assert (b' = b) as -> by congruence. assert (x' = x) as -> by congruence. assert (y' = y) as -> by congruence. destruct C as [(p & z & P & Z & C)|(h & p & q & u & v & I & C)]; [left; exists p; split; [done|]; by exists z|].
      right. exists h. split; [by apply elem_of_elements, TM|]. by exists p, q, u, v.
    - intros C. exists a, b, x, y. split; [done|]. split; [done|]. split; [done|]. split; [done|]. destruct C as [(p & P & z & Z & C)|(h & I & p & q & u & v & C)]; [left; by exists p, z|]. right. exists h, p, q, u, v. split; [by apply TM, elem_of_elements|done]. }
  destruct r1.
  - exists true. split; [done|]. split; [|done]. intros _. apply K. left. by apply R1.
  - exists r2. split; [done|]. rewrite K, R2. split; [by right|]. intros [C|C]; [by apply R1 in C|done].
Qed.
Lemma outer_live s g p : history s -> polys s !! g = Some p -> is_Some (wires s !! outer p).
Proof. intros H E. assert (L := n_out _ _ _ (g_nest _ (history_good s H)) g (outer p)). rewrite lookup_fmap, E in L. apply (fmap_live w_poly). eexists. by apply L. Qed.
Lemma changed_live s ps g : history s -> changed s ps g -> exists p, polys s !! g = Some p.
Proof.
  intros H (e & b & c & (q & _ & V) & P). destruct (side_poly s H e c b q V) as (w & g' & W & Pw & P'). assert (g' = g) as -> by congruence. destruct (wires s !! w) as [x|] eqn:X; [|done]. cbn in Pw.
  destruct (n_wire _ _ _ (g_nest _ (history_good s H)) w) as (g' & o & L & O & _); [by rewrite lookup_fmap, X; eauto|]. rewrite lookup_fmap, X in L. cbn in L. assert (g' = g) as -> by congruence. rewrite lookup_fmap in O. destruct (polys s !! g) as [p|]; [eauto|done].
Qed.
Lemma check_ok s ps d : history s -> vec_ok s -> (forall p, p ∈ ps -> is_Some (points s !! p)) ->
  exists k0, forall k, k0 <= k -> exists r C, check_displacement k ps d s = (Ok (r, C), s) /\ (forall g, g ∈ C <-> changed s ps g) /\ (r = true <-> ~ collision s ps d).
Proof.
  intros H V L. destruct (gather_ok s H ps L) as (T & C & E & HT & HC).
  destruct (collect_gen (fun g => p <~ get_poly g ; ret (outer p)) (fun g o => exists p, polys s !! g = Some p /\ o = outer p) s (elements C)) as (os & E2 & F).
  { intros g I%elem_of_elements%HC. destruct (changed_live s ps g H I) as [p P]. exists (outer p). split; [by rewrite (bind_ok _ _ s p s) by (by apply need_ok)|eauto]. }
  assert (OS : forall o, o ∈ os <-> exists g p, changed s ps g /\ polys s !! g = Some p /\ o = outer p).
  { intros o. split.
    - intros I. apply elem_of_list_lookup in I as [i I]. destruct (Forall2_lookup_r _ _ _ _ _ F I) as (g & I' & p & P & ->). exists g, p. split; [|done]. apply HC, elem_of_elements, elem_of_list_lookup. eauto.
    - intros (g & p & I & P & ->). apply HC, elem_of_elements, elem_of_list_lookup in I as [i I]. destruct (Forall2_lookup_l _ _ _ _ _ F I) as (o & I' & p' & P' & ->). assert (p' = p) as -> by congruence. apply elem_of_list_lookup. eauto. }
  assert (OL : forall o, o ∈ os -> is_Some (wires s !! o)). { intros o (g & p & _ & P & ->)%OS. by apply (outer_live s g). }
  destruct (below_ok s H os OL) as [k0 K]. exists k0. intros k LE. destruct (K k LE) as (ws & E3 & WS).
  assert (WL : forall w, w ∈ ws -> is_Some (wires s !! w)).
  { intros w (o & O & U)%WS. apply rtc_inv in U as [-> | (z & Z & _)]; [by apply OL|]. apply (fmap_live parent). eauto. }
  destruct (collect_gen (resting T) (fun w es => forall e, e ∈ es <-> exists c, wir s !! (e, c) = Some w /\ forall b, (e, b) ∉ T) s ws) as (es & E4 & ES).
  { intros w W. by apply resting_ok, WL. }
  assert (EN : forall e, e ∈ concat es <-> envelope s ps e).
  { intros e. rewrite (in_concat_2 _ _ _ e ES). split.
    - intros (w & y & W & Y & Z & _). apply Y in Z as (c & Z & N). split; [intros b B; by apply (N b), HT|]. apply WS in W as (o & (g & p & I & P & ->)%OS & U). exists c, w, g, p. done.
    - intros (N & c & w & g & p & W & I & P & U). assert (IW : w ∈ ws). { apply WS. exists (outer p). split; [apply OS; eauto|done]. }
      destruct (zip_has _ _ _ _ ES IW) as (y & Z & Y). exists w, y. split; [done|]. split; [done|]. split; [|done]. apply Y. exists c. split; [done|]. intros b B. by apply (N b), HT. }
  destruct (any_ok (stops T ps d) (bumps s ps d) s (concat es)) as (r & E5 & R).
  { intros e (_ & c & w & _ & _ & W & _)%EN. by apply (stops_ok s T ps d e c w). }
  exists (negb r), C. split.
  { unfold check_displacement. rewrite (bind_ok _ _ s (T, C) s E). cbn [fst snd]. rewrite (bind_ok _ _ s os s E2). rewrite (bind_ok _ _ s ws s E3). rewrite (bind_ok _ _ s es s E4). by rewrite (bind_ok _ _ s r s E5). }
  split; [done|]. assert (CB : collision s ps d <-> exists e, e ∈ concat es /\ bumps s ps d e).
  { split.
    - intros (e & a & b & x & y & N & A). exists e. split; [by apply EN|]. by exists a, b, x, y.
    - intros (e & N%EN & a & b & x & y & A). by exists e, a, b, x, y. }
  rewrite CB, <- R. by destruct r.
Qed.

(** * Moving *)
Lemma each_upd s l : (forall h : he, h ∈ l -> forall b, exists p x, vtx s !! (fst h, b) = Some p /\ points s !! p = Some x) ->
  exists s', each (fun h : he => a <~ get_vtx (fst h, false) ; b <~ get_vtx (fst h, true) ; x <~ get_pt a ; y <~ get_pt b ;
                  upd (fun s => set_vec (<[fst h := vminus (xy y) (xy x)]> (vec s)) s)) l s = (Ok tt, s').
Proof.
  revert s. induction l as [|h l IH]; intros s L; [eexists; done|]. destruct (L h ltac:(left) false) as (a & x & A & X). destruct (L h ltac:(left) true) as (b & y & B & Y).
  destruct (IH (set_vec (<[fst h := vminus (xy y) (xy x)]> (vec s)) s)) as [s' E]; [intros k I; apply L; by right|]. exists s'. cbn [each]. unfold bind at 1.
  rewrite (bind_ok _ _ s a s) by (by apply need_ok). rewrite (bind_ok _ _ s b s) by (by apply need_ok). rewrite (bind_ok _ _ s x s) by (by apply need_ok). rewrite (bind_ok _ _ s y s) by (by apply need_ok). exact E.
Qed.
Lemma move_ok s p v x : history s -> points s !! p = Some x -> exists s', move p v s = (Ok tt, s').
Proof.
  intros H X. destruct (C18_segments s p x H X) as (l & E & [_ M] & _). set (P := <[p := Pt (vplus (xy x) v) (p_poly x) (p_seg x)]> (points s)).
  assert (E1 : point_segments p (set_points P s) = (Ok l, set_points P s)).
  { unfold point_segments in *. rewrite (bind_ok _ _ s x s) in E by (by apply need_ok). rewrite (bind_ok _ _ (set_points P s) (Pt (vplus (xy x) v) (p_poly x) (p_seg x)) (set_points P s)) by (apply need_ok; cbn; apply lookup_insert). cbn [p_seg].
    destruct (p_seg x) as [h0|]; [|by injection E as <-]. unfold segments_from in *. cbn [set_points nxt vtx vec]. apply pair_equal_spec in E as [E _]. by rewrite <- E. }
  destruct (each_upd (set_points P s) l) as [s' E2].
  { intros [e c] I b. apply M in I. destruct (vtx_live _ _ _ H I) as [w W]. destruct (ends_live s e c w H W b) as (q & z & Q & Z). cbn [fst set_points vtx points]. exists q. unfold P. destruct (decide (q = p)) as [-> | D]; [rewrite lookup_insert; eauto|]. rewrite lookup_insert_ne by done. eauto. }
  exists s'. unfold move. rewrite (bind_ok _ _ s x s) by (by apply need_ok). rewrite (bind_ok _ _ s tt (set_points P s)) by done. rewrite (bind_ok _ _ _ l _ E1). exact E2.
Qed.
Lemma move_plain s p v x : plain s -> points s !! p = Some x -> exists s', move p v s = (Ok tt, s') /\ plain s' /\ same_links s s' /\ points s' = <[p := Pt (vplus (xy x) v) (p_poly x) (p_seg x)]> (points s).
Proof.
  intros PL X. assert (H := plain_history s PL). destruct (move_ok s p v x H X) as [s' E]. exists s'. split; [done|]. destruct (move_eff p v s tt s' (g_inv _ (history_good s H)) E) as (_ & x' & V & X' & ES & _). assert (x' = x) as -> by congruence. split; [|split].
  - eapply (plain_next (Geometry (fun _ _ _ => 0%Q) (fun _ _ _ => false) (fun _ _ _ => false)) (MovePoint p v) s 0 s'); [done| |done|done]. cbn [run]. by rewrite (bind_ok _ _ s tt s' E).
  - subst s'. repeat (split; [done|]). cbn [points set_vec set_points]. split.
    + apply map_eq. intros q. rewrite !lookup_fmap. destruct (decide (q = p)) as [-> | D]; [by rewrite lookup_insert, X|by rewrite lookup_insert_ne].
    + apply map_eq. intros q. rewrite !lookup_fmap. destruct (decide (q = p)) as [-> | D]; [by rewrite lookup_insert, X|by rewrite lookup_insert_ne].
  - by subst s'.
Qed.
Lemma same_trans s s1 s2 : same_links s s1 -> same_links s1 s2 -> same_links s s2.
Proof. intros (A1 & A2 & A3 & A4 & A5 & A6 & A7 & A8) (B1 & B2 & B3 & B4 & B5 & B6 & B7 & B8). unfold same_links. by rewrite B1, B2, B3, B4, B5, B6, B7, B8. Qed.
Lemma move_all_ok ps d : forall s, plain s -> NoDup ps -> (forall p, p ∈ ps -> is_Some (points s !! p)) ->
  exists s', move_all ps d s = (Ok tt, s') /\ plain s' /\ same_links s s' /\ forall p v, (exists x, points s' !! p = Some x /\ xy x = v) <-> new_place s ps d p v.
Proof.
  induction ps as [|p ps IH]; intros s PL ND L.
  - exists s. split; [done|]. split; [done|]. split; [done|]. intros p v. split; intros (x & X & E); exists x; (split; [done|]); rewrite decide_False in * by (apply not_elem_of_nil); done.
  - apply list.NoDup_cons in ND as [NI ND]. destruct (L p) as [x X]; [left|]. destruct (move_plain s p d x PL X) as (s1 & E & PL1 & SL & PS).
    destruct (IH s1 PL1 ND) as (s' & E' & PL' & SL' & NP). { intros q Q. rewrite PS. destruct (decide (q = p)) as [-> | D]; [rewrite lookup_insert; eauto|]. rewrite lookup_insert_ne by done. apply L. by right. }
    exists s'. split; [unfold move_all; cbn [each]; by rewrite (bind_ok _ _ s tt s1 E)|]. split; [done|]. split; [by eapply same_trans|]. intros q v. rewrite NP. unfold new_place. rewrite PS. destruct (decide (q = p)) as [-> | D].
    + rewrite lookup_insert. destruct (decide (p ∈ ps)) as [J|_]; [done|]. destruct (decide (p ∈ p :: ps)) as [_|J]; [|exfalso; apply J; left]. split.
      * intros (y & [= <-] & ->). by exists x.
      * intros (y & Y & ->). assert (y = x) as -> by congruence. eexists. split; [done|]. done.
    + rewrite lookup_insert_ne by done. assert (DE : q ∈ ps <-> q ∈ p :: ps). { rewrite elem_of_cons. split; [by right|]. by intros [?|?]. }
      destruct (decide (q ∈ ps)) as [J|J]; destruct (decide (q ∈ p :: ps)) as [J'|J']; try (exfalso; tauto); done.
Qed.
Lemma clear_after s ps d s' : history s -> same_links s s' -> (forall p v, (exists x, points s' !! p = Some x /\ xy x = v) <-> new_place s ps d p v) -> ~ collision s ps d ->
  forall e f c, envelope s ps e -> moves_end s ps (f, c) -> ~ crossing s' e f.
Proof.
  intros H SL NP NC e f c EN ME (a & b & p & q & x & y & u & v & A & B & P & Q & X & Y & U & W & C). destruct SL as (EV & _). rewrite EV in A, B, P, Q. apply NC.
  assert (ST : forall c a x, vtx s !! (e, c) = Some a -> points s' !! a = Some x -> exists x0, points s !! a = Some x0 /\ xy x0 = xy x).
  { intros c' a' x' A' X'. destruct (proj1 (NP a' (xy x'))) as (x0 & X0 & E0); [eauto|]. exists x0. split; [done|]. rewrite decide_False in E0; [done|]. intros I. apply (proj1 EN c'). by exists a'. }
  destruct (ST _ _ _ A X) as (x0 & X0 & E0). destruct (ST _ _ _ B Y) as (y0 & Y0 & E1). exists e, a, b, x0, y0. split; [done|]. split; [done|]. split; [done|]. split; [done|]. split; [done|]. right. rewrite E0, E1.
  destruct c.
  - exists (f, true), q, p, (xy v), (xy u). split; [done|]. split; [done|]. split; [done|]. split; [apply NP; eauto|]. split; [apply NP; eauto|]. by apply cross_swap.
  - exists (f, false), p, q, (xy u), (xy v). split; [done|]. split; [done|]. split; [done|]. split; [apply NP; eauto|]. split; [apply NP; eauto|]. done.
Qed.
(** * More turns *)
Lemma below_more k : forall l s r s' k', below k l s = (Ok r, s') -> k <= k' -> below k' l s = (Ok r, s').
Proof.
  induction k as [|k IH]; intros l s r s' k' E LE; [done|]. destruct k' as [|k']; [lia|]. destruct l as [|w l]; [done|]. cbn [below] in *. unfold bind in *. destruct (get_wire w s) as [[x| |] s1]; try done.
  destruct (below k (l ++ elements (childs x)) s1) as [[r'| |] s2] eqn:B; try done. by rewrite (IH _ _ _ _ k' B) by lia.
Qed.
Lemma check_more k k' ps d s r s' : check_displacement k ps d s = (Ok r, s') -> k <= k' -> check_displacement k' ps d s = (Ok r, s').
Proof.
  intros E LE. unfold check_displacement in *. unfold bind in *. destruct (gather ps s) as [[g| |] s1]; try done. destruct (collect _ (elements g.2) s1) as [[o| |] s2]; try done.
  destruct (below k o s2) as [[ws| |] s3] eqn:B; try done. by rewrite (below_more _ _ _ _ _ k' B LE).
Qed.
