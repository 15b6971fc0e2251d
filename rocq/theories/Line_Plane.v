(** The drawing after a line was added. *)
From stdpp Require Import gmap list.
From Coq Require Import Lia QArith Lqa Qminmax.
From Verif Require Import Decomp_Model Decomp_Spec Decomp_Surgery Decomp_Eff Decomp_Inv Decomp_Good Decomp_Mid Decomp_Hist Editor_Model Editor_Spec Editor_Proofs Editor_Undo.
From Verif Require Import Aabb_Model Aabb_Spec Aabb_Proofs Editor_Box Geom_Model Snap_Model Snap_Spec Snap_Proofs Snap_Cand Line_Model Line_Spec Line_Geo Line_Cut Line_Run Line_Segs Line_Main.
Local Open Scope nat_scope.

(** * Divisions *)
Lemma walk_piece s h : forall k l, walk s k l -> h ∈ l -> exists pre t p u r post, k = pre ++ (t, p) :: (u, r) :: post /\ joins s h p r.
Proof.
  induction k as [|[t p] [|[u r] k] IH]; intros l W H; [cbn in W; subst; by apply elem_of_nil in H|cbn in W; subst; by apply elem_of_nil in H|].
  apply walk_two in W as (g & l' & -> & J & W). apply elem_of_cons in H as [-> | H]; [exists [], t, p, u, r, k; done|].
  destruct (IH l' W H) as (pre & t' & p' & u' & r' & post & E & J'). exists ((t, p) :: pre), t', p', u', r', post. rewrite E. done.
Qed.
Lemma ordered_piece pre : forall t p u r post, ordered (pre ++ (t, p) :: (u, r) :: post) -> (t < u)%Q /\ forall e q, In (e, q) (pre ++ (t, p) :: (u, r) :: post) -> (e <= t)%Q \/ (u <= e)%Q.
Proof.
  induction pre as [|x pre IH]; intros t p u r post O; cbn [app ordered] in O.
  - destruct O as [O1 [O2 _]]. assert (TU := O1 _ (or_introl eq_refl)). cbn in TU. split; [done|]. intros e q [E|[E|E]]; [injection E as <- <-; left; lra|injection E as <- <-; right; lra|right]. specialize (O2 _ E). cbn in O2. lra.
  - destruct O as [O1 O2]. destruct (IH _ _ _ _ _ O2) as [TU H]. split; [done|]. intros e q [->|E]; [left|by eapply H]. assert (Z : In (t, p) (pre ++ (t, p) :: (u, r) :: post)) by (apply in_or_app; right; by left). specialize (O1 _ Z). cbn in O1. lra.
Qed.
Lemma ordered_same k : ordered k -> forall x y, In x k -> In y k -> (fst x == fst y)%Q -> x = y.
Proof.
  induction k as [|z k IH]; [done|]. intros [O1 O2] x y [->|X] [->|Y] E; [done| | |by apply IH].
  - specialize (O1 _ Y). lra.
  - specialize (O1 _ X). lra.
Qed.
Lemma walk_cover s q : forall k l t p, walk s ((t, p) :: k) l -> (t <= q)%Q -> (exists e r, In (e, r) k /\ (q <= e)%Q) -> ordered ((t, p) :: k) ->
  exists h t' p' u r, h ∈ l /\ joins s h p' r /\ (t' <= q <= u)%Q /\ (t' < u)%Q /\ In (t', p') ((t, p) :: k) /\ In (u, r) ((t, p) :: k).
Proof.
  induction k as [|[u r] k IH]; intros l t p W TQ (e & x & IE & QE) O; [done|]. apply walk_two in W as (g & l' & -> & J & W). destruct O as [O1 O2]. destruct (Qlt_le_dec u q) as [UQ|UQ].
  - destruct IE as [E|IE]; [injection E as <- <-; lra|].
    destruct (IH l' u r W ltac:(lra) (ex_intro _ e (ex_intro _ x (conj IE QE))) O2) as (h & t' & p' & u' & r' & H & J' & Q' & T' & I1 & I2).
    exists h, t', p', u', r'. split; [apply elem_of_cons; by right|]. split; [done|]. split; [done|]. split; [done|]. split; by right.
  - exists g, t, p, u, r. split; [apply elem_of_cons; by left|]. split; [done|]. split; [done|]. split; [exact (O1 _ (or_introl eq_refl))|]. split; [by left|right; by left].
Qed.
Lemma ordered_app l x : ordered l -> (forall y, In y l -> (fst y < fst x)%Q) -> ordered (l ++ [x]).
Proof.
  induction l as [|z l IH]; intros O H; cbn; [done|]. destruct O as [O1 O2]. split; [|apply IH; [done|intros y Y; apply H; by right]].
  intros y Y. apply in_app_or in Y as [Y|[<- | []]]; [by apply O1|apply H; by left].
Qed.
Lemma along_inj x y s t : ~ same x y -> same (along x y s) (along x y t) -> (s == t)%Q.
Proof.
  unfold same, along. cbn. intros N [E1 E2]. destruct (Qeq_dec s t) as [?|D]; [done|]. exfalso. apply N.
  assert (F1 : ((s - t) * (fst y - fst x) == 0)%Q) by lra. assert (F2 : ((s - t) * (snd y - snd x) == 0)%Q) by lra.
  apply Qmult_integral in F1 as [F1|F1]; [exfalso; apply D; lra|]. apply Qmult_integral in F2 as [F2|F2]; [exfalso; apply D; lra|]. split; lra.
Qed.
Lemma joins_eq s g h p q : inv s -> joins s g p q -> joins s h p q -> g = h.
Proof.
  intros I J1 J2. destruct (i_pair _ I) as [F U]. destruct J1 as [J1|J1]; apply F in J1; destruct J2 as [J2|J2]; apply F in J2; [congruence| | |congruence].
  - apply U in J1. congruence.
  - apply U in J1. congruence.
Qed.

Section Plane.
Context (d d1 d' : ed) (a b : nat) (xa xb : vect) (cs : list cut) (div : list (Q * nat)) (l : list nat).
Context (ED : edits d) (P : (0 < tolerance d)%Q) (Z : no_zero (dec d)) (A : is_at (dec d) a xa) (B : is_at (dec d) b xb) (C : clean d a b xa xb).
Context (AC : after_cuts d d1 cs) (CH : cuts_here d xa xb cs) (LD : listed div cs).
Context (NO : forall g x y z, g ∉ c_g <$> cs -> ends (dec d) g x y -> between x y z -> between xa xb z -> seg_intersection (vminus y x) x xa xb = None).
Context (I' : inv (dec d')) (X' : extends (dec d1) (dec d')) (W : walk (dec d') (brk a b div) l) (L : forall g, is_Some (vec (dec d') !! g) -> is_Some (vec (dec d1) !! g) \/ g ∈ l).

Lemma cut_facts c : In c cs -> exists x y t0, ends (dec d) (c_g c) x y /\ (0 < t0 < 1)%Q /\ (0 < c_p c < 1)%Q /\ same (c_w c) (along x y t0) /\ same (c_w c) (along xa xb (c_p c)) /\ ~ (det x y xa xb == 0)%Q /\ crosses (dec d) (c_g c) xa xb (c_w c).
Proof.
  intros IC. destruct (CH c IC) as (x & y & t0 & E & S & S2). destruct (isec_crosses d a b xa xb P A B C _ _ _ _ _ _ E S S2) as (CR & _ & _ & _ & _ & T0 & T1 & WL & DT). exists x, y, t0. done.
Qed.
Lemma at_after p v : is_at (dec d') p v <-> is_at (dec d) p v \/ exists c, In c cs /\ p = c_m c /\ v = c_w c.
Proof. destruct X' as (X1 & _). rewrite X1. apply (ac_pts _ _ _ AC). Qed.
Lemma brk_in t p : In (t, p) (brk a b div) <-> (t, p) = (0%Q, a) \/ (t, p) = (1%Q, b) \/ exists c, In c cs /\ t = c_p c /\ p = c_m c.
Proof.
  unfold brk. cbn. rewrite in_app_iff. cbn. destruct LD as [_ LI]. rewrite LI. split.
  - intros [E|[E|[E|[]]]]; [left; by symmetry|right; by right|right; left; by symmetry].
  - intros [E|[E|E]]; [left; by symmetry|right; right; left; by symmetry|right; by left].
Qed.
Lemma brk_place t p : In (t, p) (brk a b div) -> (0 <= t <= 1)%Q /\ exists v, is_at (dec d') p v /\ same v (along xa xb t).
Proof.
  rewrite brk_in. intros [E|[E|(c & IC & -> & ->)]].
  - injection E as -> ->. split; [lra|]. exists xa. split; [apply at_after; by left|]. apply same_sym, along_zero. reflexivity.
  - injection E as -> ->. split; [lra|]. exists xb. split; [apply at_after; by left|]. apply same_sym, along_one. reflexivity.
  - destruct (cut_facts c IC) as (x & y & t0 & _ & _ & T & _ & S & _). split; [lra|]. exists (c_w c). split; [apply at_after; right; eauto|done].
Qed.
Lemma brk_ordered : ordered (brk a b div).
Proof.
  destruct LD as [O LI]. assert (F : forall t m, In (t, m) div -> (0 < t < 1)%Q). { intros t m I. apply LI in I as (c & IC & -> & _). by destruct (cut_facts c IC) as (x & y & t0 & _ & _ & T & _). }
  split; [|apply ordered_app; [done|]]; intros [t m] I; cbn.
  - apply in_app_or in I as [I|[E|[]]]; [by apply (F t m)|injection E as <- <-; lra].
  - by apply (F t m).
Qed.
(** A segment afterwards. *)
Definition part (h : nat) (x y : vect) (g : nat) (x0 y0 : vect) (lo hi : Q) : Prop := ends (dec d) g x0 y0 /\ same x (along x0 y0 lo) /\ same y (along x0 y0 hi) /\ (0 <= lo)%Q /\ (lo < hi)%Q /\ (hi <= 1)%Q /\
  (h = g /\ g ∉ c_g <$> cs /\ (lo == 0)%Q /\ (hi == 1)%Q \/
   exists c, In c cs /\ g = c_g c /\ (h = c_g c /\ (lo == 0)%Q /\ same (c_w c) (along x0 y0 hi) \/ h = c_n c /\ (hi == 1)%Q /\ same (c_w c) (along x0 y0 lo))).
Definition piece (h : nat) (x y : vect) : Prop := exists pre t p u r post, brk a b div = pre ++ (t, p) :: (u, r) :: post /\ joins (dec d') h p r /\
  (same x (along xa xb t) /\ same y (along xa xb u) \/ same x (along xa xb u) /\ same y (along xa xb t)).
Lemma piece_of h x y : h ∈ l -> ends (dec d') h x y -> piece h x y.
Proof.
  intros H (p' & r' & E1 & E2 & E3 & E4). destruct (walk_piece _ _ _ _ W H) as (pre & t & p & u & r & post & E & J). exists pre, t, p, u, r, post. split; [done|]. split; [done|].
  assert (I1 : In (t, p) (brk a b div)) by (rewrite E; apply in_or_app; right; by left). assert (I2 : In (u, r) (brk a b div)) by (rewrite E; apply in_or_app; right; right; by left).
  destruct (brk_place _ _ I1) as (_ & v & V1 & V2). destruct (brk_place _ _ I2) as (_ & w & W1 & W2). destruct J as [[J1 J2]|[J1 J2]].
  - assert (p' = p) as -> by congruence. assert (r' = r) as -> by congruence. left. rewrite (at_fun _ _ _ _ E3 V1), (at_fun _ _ _ _ E4 W1). done.
  - assert (p' = r) as -> by congruence. assert (r' = p) as -> by congruence. right. rewrite (at_fun _ _ _ _ E3 W1), (at_fun _ _ _ _ E4 V1). done.
Qed.
Lemma part_first c x0 y0 t0 : In c cs -> ends (dec d) (c_g c) x0 y0 -> same (c_w c) (along x0 y0 t0) -> (0 < t0 < 1)%Q ->
  ends (dec d') (c_g c) x0 (c_w c) /\ ends (dec d') (c_n c) (c_w c) y0.
Proof.
  intros IC (p & q & E1 & E2 & E3 & E4) S T. destruct (ac_cut _ _ _ AC c IC) as (Lg & p' & q' & A1 & A2 & A3 & A4 & A5 & A6). assert (p' = p) as -> by congruence. assert (q' = q) as -> by congruence.
  assert (L1 : is_Some (vec (dec d1) !! c_g c)) by (apply (ac_live _ _ _ AC); by left). assert (L2 : is_Some (vec (dec d1) !! c_n c)) by (apply (ac_live _ _ _ AC); right; by apply in_fmap).
  destruct X' as (_ & X2 & _). assert (MW : is_at (dec d') (c_m c) (c_w c)) by (apply at_after; right; eauto). split.
  - exists p, (c_m c). rewrite !X2 by done. split; [done|]. split; [done|]. split; [|exact MW]. apply at_after. by left.
  - exists (c_m c), q. rewrite !X2 by done. split; [done|]. split; [done|]. split; [exact MW|]. apply at_after. by left.
Qed.
Lemma uncut_ends g x y : g ∉ c_g <$> cs -> ends (dec d) g x y -> ends (dec d') g x y.
Proof.
  intros N E. assert (Lg := seg_live _ _ _ _ (g_inv _ (e_good _ (edits_einv _ ED))) E). destruct E as (p & q & E1 & E2 & E3 & E4). destruct (ac_old _ _ _ AC g Lg N) as [_ OT]. destruct X' as (_ & X2 & _).
  exists p, q. rewrite !X2, !OT by (apply (ac_live _ _ _ AC); by left). split; [done|]. split; [done|]. split; apply at_after; by left.
Qed.
Lemma kinds h x y : ends (dec d') h x y -> (exists g x0 y0 lo hi, part h x y g x0 y0 lo hi) \/ piece h x y.
Proof.
  intros E. assert (I0 := g_inv _ (e_good _ (edits_einv _ ED))). destruct (L h (seg_live _ _ _ _ I' E)) as [Lh|Lh]; [left|right; by apply piece_of]. apply (ac_live _ _ _ AC) in Lh as [Lh|Lh].
  - destruct (decide (h ∈ c_g <$> cs)) as [D|D].
    + apply elem_of_list_fmap in D as (c & -> & IC). apply elem_of_list_In in IC. destruct (cut_facts c IC) as (x0 & y0 & t0 & E0 & T0 & _ & S0 & _). destruct (part_first c x0 y0 t0 IC E0 S0 T0) as [F1 _].
      destruct (ends_fun _ _ _ _ _ _ F1 E) as [-> ->]. exists (c_g c), x0, y0, 0%Q, t0. split; [done|]. split; [apply same_sym, along_zero; reflexivity|]. split; [done|]. split; [lra|]. split; [lra|]. split; [lra|]. right. exists c. split; [done|]. split; [done|]. left. split; [done|]. split; [reflexivity|done].
    + destruct (live_ends _ _ I0 Lh) as (x0 & y0 & E0). destruct (ends_fun _ _ _ _ _ _ (uncut_ends _ _ _ D E0) E) as [-> ->]. exists h, x0, y0, 0%Q, 1%Q. split; [done|]. split; [apply same_sym, along_zero; reflexivity|]. split; [apply same_sym, along_one; reflexivity|].
      split; [lra|]. split; [lra|]. split; [lra|]. left. split; [done|]. split; [done|]. split; reflexivity.
  - apply elem_of_list_fmap in Lh as (c & -> & IC). apply elem_of_list_In in IC. destruct (cut_facts c IC) as (x0 & y0 & t0 & E0 & T0 & _ & S0 & _). destruct (part_first c x0 y0 t0 IC E0 S0 T0) as [_ F1].
    destruct (ends_fun _ _ _ _ _ _ F1 E) as [-> ->]. exists (c_g c), x0, y0, t0, 1%Q. split; [done|]. split; [done|]. split; [apply same_sym, along_one; reflexivity|]. split; [lra|]. split; [lra|]. split; [lra|]. right. exists c. split; [done|]. split; [done|]. right. split; [done|]. split; [reflexivity|done].
Qed.

(** * What is drawn *)
Lemma drawn_after w : drawn (dec d') w <-> drawn (dec d) w \/ between xa xb w.
Proof.
  split.
  - intros (h & x & y & E & BT). destruct (kinds h x y E) as [(g & x0 & y0 & lo & hi & E0 & S1 & S2 & L1 & L2 & L3 & _)|(pre & t & p & u & r & post & EB & J & S)].
    + left. exists g, x0, y0. split; [done|]. destruct (part_in x0 y0 lo hi w x y ltac:(lra) S1 S2 BT) as (s & SS & SW). apply between_along. exists s. split; [lra|done].
    + right. assert (OB := brk_ordered). rewrite EB in OB. destruct (ordered_piece _ _ _ _ _ _ OB) as [TU _].
      assert (I1 : In (t, p) (brk a b div)) by (rewrite EB; apply in_or_app; right; by left). assert (I2 : In (u, r) (brk a b div)) by (rewrite EB; apply in_or_app; right; right; by left).
      destruct (brk_place _ _ I1) as [T1 _]. destruct (brk_place _ _ I2) as [U1 _].
      destruct S as [[S1 S2]|[S1 S2]]; [destruct (part_in xa xb t u w x y ltac:(lra) S1 S2 BT) as (s & SS & SW)|destruct (part_in xa xb t u w y x ltac:(lra) S2 S1 (between_rev _ _ _ BT)) as (s & SS & SW)]; apply between_along; exists s; (split; [lra|done]).
  - intros [(g & x & y & E & BT)|BT].
    + destruct (decide (g ∈ c_g <$> cs)) as [D|D].
      * apply elem_of_list_fmap in D as (c & -> & IC). apply elem_of_list_In in IC. destruct (cut_facts c IC) as (x0 & y0 & t0 & E0 & T0 & _ & S0 & _). destruct (part_first c x0 y0 t0 IC E0 S0 T0) as [F1 F2]. destruct (ends_fun _ _ _ _ _ _ E0 E) as [-> ->].
        apply between_along in BT as (s & SS & SW). destruct (Qlt_le_dec t0 s) as [LT|LE].
        -- exists (c_n c), (c_w c), y0. split; [done|]. apply (in_part x0 y0 t0 1%Q s); [lra|done|apply same_sym, along_one; reflexivity|lra|done].
        -- exists (c_g c), x0, (c_w c). split; [done|]. apply (in_part x0 y0 0%Q t0 s); [lra|apply same_sym, along_zero; reflexivity|done|lra|done].
      * exists g, x, y. split; [by apply uncut_ends|done].
    + apply between_along in BT as (s & SS & SW). assert (OB := brk_ordered). unfold brk in OB, W.
      destruct (walk_cover (dec d') s _ _ _ _ W ltac:(lra)) as (h & t & p & u & r & H & J & Q & TU & I1 & I2); [exists 1%Q, b; split; [apply in_or_app; right; by left|lra]|exact OB|].
      destruct (brk_place _ _ I1) as (_ & v & V1 & V2). destruct (brk_place _ _ I2) as (_ & v' & W1 & W2).
      assert (BV : between v v' w) by exact (in_part xa xb t u s w v v' TU V2 W2 Q SW). destruct J as [[J1 J2]|[J1 J2]].
      * exists h, v, v'. split; [exists p, r; done|done].
      * exists h, v', v. split; [exists r, p; done|by apply between_rev].
Qed.

(** * Nothing crosses *)
Lemma zero_ends g x y : ends (dec d) g x y -> ~ same x y.
Proof. intros E [S1 S2]. exact (Z g x y E (conj S1 S2)). Qed.
(** Where a segment that is not crossed meets the line, both end. *)
Lemma touch g x y s q : g ∉ c_g <$> cs -> ends (dec d) g x y -> (0 <= s <= 1)%Q -> (0 <= q <= 1)%Q -> same (along x y s) (along xa xb q) -> ~ (det x y xa xb == 0)%Q -> (s == 0 \/ s == 1)%Q /\ (q == 0 \/ q == 1)%Q.
Proof.
  intros N E SS QQ M D. set (w := along x y s) in *. assert (BX : between x y w) by (apply between_along; exists s; split; [done|apply same_refl]). assert (BA : between xa xb w) by (apply between_along; exists q; done).
  assert (SI := NO g x y w N E BX BA). assert (EE := E). destruct EE as (p & r & E1 & E2 & E3 & E4).
  assert (Fx : forall u, (u == 0 \/ u == 1)%Q -> same x (along xa xb u) -> (s == 0 \/ s == 1)%Q /\ (q == 0 \/ q == 1)%Q).
  { intros u U S. destruct (one_meet x y xa xb s q 0 u D M) as [M1 M2]; [eapply same_trans; [apply along_zero; reflexivity|exact S]|]. split; [by left|]. destruct U as [U|U]; [left|right]; lra. }
  assert (Fy : forall u, (u == 0 \/ u == 1)%Q -> same y (along xa xb u) -> (s == 0 \/ s == 1)%Q /\ (q == 0 \/ q == 1)%Q).
  { intros u U S. destruct (one_meet x y xa xb s q 1 u D M) as [M1 M2]; [eapply same_trans; [apply along_one; reflexivity|exact S]|]. split; [by right|]. destruct U as [U|U]; [left|right]; lra. }
  assert (SA : same xa (along xa xb 0)) by (apply same_sym, along_zero; reflexivity). assert (SB : same xb (along xa xb 1)) by (apply same_sym, along_one; reflexivity).
  assert (Vx : near x w (tolerance d) -> (s == 0 \/ s == 1)%Q /\ (q == 0 \/ q == 1)%Q).
  { intros NX. destruct (decide (p = a)) as [->|Da]; [apply (Fx 0%Q); [left; reflexivity|by rewrite (at_fun _ _ _ _ E3 A)]|]. destruct (decide (p = b)) as [->|Db]; [apply (Fx 1%Q); [right; reflexivity|by rewrite (at_fun _ _ _ _ E3 B)]|].
    exfalso. exact (l_vertex _ _ _ _ _ C g false p x w E1 Da Db E3 BA NX). }
  assert (Vy : near y w (tolerance d) -> (s == 0 \/ s == 1)%Q /\ (q == 0 \/ q == 1)%Q).
  { intros NX. destruct (decide (r = a)) as [->|Da]; [apply (Fy 0%Q); [left; reflexivity|by rewrite (at_fun _ _ _ _ E4 A)]|]. destruct (decide (r = b)) as [->|Db]; [apply (Fy 1%Q); [right; reflexivity|by rewrite (at_fun _ _ _ _ E4 B)]|].
    exfalso. exact (l_vertex _ _ _ _ _ C g true r y w E2 Da Db E4 BA NX). }
  assert (Va : near xa w (tolerance d) -> (s == 0 \/ s == 1)%Q /\ (q == 0 \/ q == 1)%Q).
  { intros NX. destruct (l_from _ _ _ _ _ C g) as ([|] & G); [exists x, y, w; done| |].
    - assert (r = a) as -> by congruence. apply (Fy 0%Q); [left; reflexivity|by rewrite (at_fun _ _ _ _ E4 A)].
    - assert (p = a) as -> by congruence. apply (Fx 0%Q); [left; reflexivity|by rewrite (at_fun _ _ _ _ E3 A)]. }
  assert (Vb : near xb w (tolerance d) -> (s == 0 \/ s == 1)%Q /\ (q == 0 \/ q == 1)%Q).
  { intros NX. destruct (l_to _ _ _ _ _ C g) as ([|] & G); [exists x, y, w; done| |].
    - assert (r = b) as -> by congruence. apply (Fy 1%Q); [right; reflexivity|by rewrite (at_fun _ _ _ _ E4 B)].
    - assert (p = b) as -> by congruence. apply (Fx 1%Q); [right; reflexivity|by rewrite (at_fun _ _ _ _ E3 B)]. }
  assert (SG := l_short _ _ _ _ _ C g x y E). assert (SL := l_line _ _ _ _ _ C). assert (D2 : forall x y : vect, (0 <= dist2 x y)%Q). { intros v v'. unfold dist2. assert (Q1 := sqr_nonneg (fst v - fst v')). assert (Q2 := sqr_nonneg (snd v - snd v')). lra. }
  assert (SQ : forall t D e, (0 <= t)%Q -> (t <= e)%Q -> (0 <= D)%Q -> (t * t * D <= e * e * D)%Q). { intros t D0 e T1 T2 D3. apply Qmult_le_compat_r; [|done]. assert (Q1 := Qmult_le_compat_r t e t T2 T1). assert (Q2 := Qmult_le_compat_r t e e T2 ltac:(lra)). lra. }
  assert (DX : (dist2 x w == s * s * dist2 x y)%Q) by (unfold w, dist2, along; cbn; ring).
  assert (DY : (dist2 y w == (1 - s) * (1 - s) * dist2 x y)%Q) by (unfold w, dist2, along; cbn; ring).
  assert (DA : (dist2 xa w == q * q * dist2 xa xb)%Q). { rewrite (dist2_same xa xa w _ (same_refl _) M). unfold dist2, along; cbn; ring. }
  assert (DB : (dist2 xb w == (1 - q) * (1 - q) * dist2 xa xb)%Q). { rewrite (dist2_same xb xb w _ (same_refl _) M). unfold dist2, along; cbn; ring. }
  destruct (isec_none x y xa xb s q SI D M) as [F|F].
  - destruct (Qlt_le_dec (1 # 10000000000) s) as [S1|S1].
    + apply Vy. unfold near. rewrite DY. eapply Qle_lt_trans; [|exact SG]. apply SQ; [lra| |apply D2]. destruct (Qlt_le_dec s (1 - (1 # 10000000000))) as [S2|S2]; [exfalso; apply F; done|lra].
    + apply Vx. unfold near. rewrite DX. eapply Qle_lt_trans; [|exact SG]. apply SQ; [lra|lra|apply D2].
  - destruct (Qlt_le_dec (1 # 10000000000) q) as [S1|S1].
    + apply Vb. unfold near. rewrite DB. eapply Qle_lt_trans; [|exact SL]. apply SQ; [lra| |apply D2]. destruct (Qlt_le_dec q (1 - (1 # 10000000000))) as [S2|S2]; [exfalso; apply F; done|lra].
    + apply Va. unfold near. rewrite DA. eapply Qle_lt_trans; [|exact SL]. apply SQ; [lra|lra|apply D2].
Qed.
(** A segment on the line of the new one, that it meets. *)
Lemma collinear g x y s q : ends (dec d) g x y -> (0 <= s <= 1)%Q -> (0 <= q <= 1)%Q -> same (along x y s) (along xa xb q) -> (det x y xa xb == 0)%Q ->
  ((s == 0 \/ s == 1)%Q /\ (q == 0 \/ q == 1)%Q) \/ joins (dec d) g a b.
Proof.
  intros E SS QQ M D. assert (NZ := zero_ends g x y E). assert (NL := l_len _ _ _ _ _ C). destruct (one_line x y xa xb s q D NL M) as (e & f & X & Y & U). assert (EE := E). destruct EE as (p & r & E1 & E2 & E3 & E4).
  assert (SA : same xa (along xa xb 0)) by (apply same_sym, along_zero; reflexivity). assert (SB : same xb (along xa xb 1)) by (apply same_sym, along_one; reflexivity).
  assert (EF : ~ (e == f)%Q). { intros EF. apply NZ. eapply same_trans; [exact X|]. eapply same_trans; [exact (along_eq xa xb e f EF)|]. by apply same_sym. }
  assert (Xa : p = a -> (e == 0)%Q). { intros ->. apply (along_inj xa xb); [done|]. eapply same_trans; [apply same_sym, X|]. by rewrite (at_fun _ _ _ _ E3 A). }
  assert (Xb : p = b -> (e == 1)%Q). { intros ->. apply (along_inj xa xb); [done|]. eapply same_trans; [apply same_sym, X|]. by rewrite (at_fun _ _ _ _ E3 B). }
  assert (Ya : r = a -> (f == 0)%Q). { intros ->. apply (along_inj xa xb); [done|]. eapply same_trans; [apply same_sym, Y|]. by rewrite (at_fun _ _ _ _ E4 A). }
  assert (Yb : r = b -> (f == 1)%Q). { intros ->. apply (along_inj xa xb); [done|]. eapply same_trans; [apply same_sym, Y|]. by rewrite (at_fun _ _ _ _ E4 B). }
  assert (Hp : (0 <= e <= 1)%Q -> p = a \/ p = b).
  { intros T. destruct (decide (p = a)); [by left|]. destruct (decide (p = b)); [by right|]. exfalso. apply (l_vertex _ _ _ _ _ C g false p x x E1); [done|done|done|apply between_along; exists e; done|by apply near_refl]. }
  assert (Hr : (0 <= f <= 1)%Q -> r = a \/ r = b).
  { intros T. destruct (decide (r = a)); [by left|]. destruct (decide (r = b)); [by right|]. exfalso. apply (l_vertex _ _ _ _ _ C g true r y y E2); [done|done|done|apply between_along; exists f; done|by apply near_refl]. }
  assert (ON : forall v k, same v (along xa xb k) -> (e <= k <= f \/ f <= k <= e)%Q -> between x y v).
  { intros v k SV [T|T]; [|apply between_rev].
    - destruct (Qlt_le_dec e f) as [LT|LE]; [|exfalso; apply EF; lra]. exact (in_part xa xb e f k v x y LT X Y T SV).
    - destruct (Qlt_le_dec f e) as [LT|LE]; [|exfalso; apply EF; lra]. exact (in_part xa xb f e k v y x LT Y X T SV). }
  assert (Ha : (e <= 0 <= f \/ f <= 0 <= e)%Q -> (e == 0 \/ f == 0)%Q).
  { intros T. destruct (l_from _ _ _ _ _ C g) as ([|] & G); [exists x, y, xa; split; [done|]; split; [by eapply ON|by apply near_refl]| |]; [right; apply Ya|left; apply Xa]; congruence. }
  assert (Hb : (e <= 1 <= f \/ f <= 1 <= e)%Q -> (e == 1 \/ f == 1)%Q).
  { intros T. destruct (l_to _ _ _ _ _ C g) as ([|] & G); [exists x, y, xb; split; [done|]; split; [by eapply ON|by apply near_refl]| |]; [right; apply Yb|left; apply Xb]; congruence. }
  destruct (line_cases e f s q SS QQ U EF) as [(Q1 & Q2)|[[T1 T2]|[T1 T2]]]; [| |exact Ha|exact Hb| | |].
  - intros T. destruct (Hp T); [left; auto|right; auto].
  - intros T. destruct (Hr T); [left; auto|right; auto].
  - left. split; [|done]. destruct Q2 as [Q2|Q2]; [left|right].
    + assert (F : (s * (f - e) == 0)%Q) by lra. apply Qmult_integral in F as [F|F]; [done|exfalso; apply EF; lra].
    + assert (F : ((1 - s) * (f - e) == 0)%Q) by lra. apply Qmult_integral in F as [F|F]; [lra|exfalso; apply EF; lra].
  - right. left. destruct (Hp ltac:(lra)) as [-> | ->]; [|specialize (Xb eq_refl); lra]. destruct (Hr ltac:(lra)) as [-> | ->]; [specialize (Ya eq_refl); lra|]. done.
  - right. right. destruct (Hp ltac:(lra)) as [-> | ->]; [specialize (Xa eq_refl); lra|]. destruct (Hr ltac:(lra)) as [-> | ->]; [|specialize (Yb eq_refl); lra]. done.
Qed.

(** * Points *)
Lemma crossed_cut g w : crosses (dec d) g xa xb w -> exists c, In c cs /\ c_g c = g /\ same (c_w c) w.
Proof.
  intros (x & y & E & (B1 & N1 & N2) & (B2 & _) & D). apply between_along in B1 as (s & SS & SW). apply between_along in B2 as (q & QQ & QW). change (same w (along x y s)) in SW. change (same w (along xa xb q)) in QW. assert (DT : ~ (det x y xa xb == 0)%Q) by (unfold det; intros DD; apply D; lra).
  assert (M : same (along x y s) (along xa xb q)) by (eapply same_trans; [apply same_sym, SW|exact QW]). destruct (decide (g ∈ c_g <$> cs)) as [IN|IN].
  - apply elem_of_list_fmap in IN as (c & -> & IC). apply elem_of_list_In in IC. exists c. split; [done|]. split; [done|]. destruct (cut_facts c IC) as (x1 & y1 & t0 & E1 & T1 & T2 & W1 & W2 & _). destruct (ends_fun _ _ _ _ _ _ E E1) as [-> ->].
    destruct (one_meet _ _ xa xb s q t0 (c_p c) DT M) as [M1 M2]; [eapply same_trans; [apply same_sym, W1|exact W2]|]. eapply same_trans; [exact W1|]. eapply same_trans; [apply (along_eq _ _ t0 s); by symmetry|by apply same_sym].
  - exfalso. destruct (touch g x y s q IN E SS QQ M DT) as [[Q|Q] _].
    + apply N1. eapply same_trans; [exact SW|]. by apply along_zero.
    + apply N2. eapply same_trans; [exact SW|]. by apply along_one.
Qed.
Lemma points_after : (forall p v, is_at (dec d) p v -> is_at (dec d') p v) /\ (forall p v, is_at (dec d') p v -> is_at (dec d) p v \/ exists g, crosses (dec d) g xa xb v) /\
  (forall g w, crosses (dec d) g xa xb w -> exists p q m n v, vtx (dec d) !! (g, false) = Some p /\ vtx (dec d) !! (g, true) = Some q /\ points (dec d) !! m = None /\ vec (dec d) !! n = None /\
    is_at (dec d') m v /\ same v w /\ vtx (dec d') !! (g, false) = Some p /\ vtx (dec d') !! (g, true) = Some m /\ vtx (dec d') !! (n, false) = Some m /\ vtx (dec d') !! (n, true) = Some q) /\
  (forall g c, is_Some (vec (dec d) !! g) -> (forall w, ~ crosses (dec d) g xa xb w) -> vtx (dec d') !! (g, c) = vtx (dec d) !! (g, c)).
Proof.
  destruct X' as (_ & X2 & _). split; [intros p v H; apply at_after; by left|]. split; [|split].
  - intros p v H. apply at_after in H as [H|(c & IC & -> & ->)]; [by left|right]. exists (c_g c). by destruct (cut_facts c IC) as (x & y & t0 & _ & _ & _ & _ & _ & _ & CR).
  - intros g w CR. destruct (crossed_cut g w CR) as (c & IC & <- & S). destruct (ac_cut _ _ _ AC c IC) as (Lg & p & q & A1 & A2 & A3 & A4 & A5 & A6). exists p, q, (c_m c), (c_n c), (c_w c).
    split; [done|]. split; [done|]. split. { assert (H := ac_newp _ _ _ AC c IC). rewrite lookup_fmap in H. by destruct (points (dec d) !! c_m c). } split; [exact (ac_news _ _ _ AC c IC)|]. split; [apply at_after; right; eauto|]. split; [done|].
    rewrite !X2; [done| | | |]; apply (ac_live _ _ _ AC); (try by left); right; by apply in_fmap.
  - intros g c Lg N. destruct (decide (g ∈ c_g <$> cs)) as [IN|IN].
    + exfalso. apply elem_of_list_fmap in IN as (k & -> & IC). apply elem_of_list_In in IC. destruct (cut_facts k IC) as (x & y & t0 & _ & _ & _ & _ & _ & _ & CR). exact (N _ CR).
    + rewrite X2 by (apply (ac_live _ _ _ AC); by left). apply (ac_old _ _ _ AC g Lg IN).
Qed.
Lemma goes_of : forall k t p l0, walk (dec d') ((t, p) :: k) l0 -> ordered ((t, p) :: k) -> (forall e, In e k -> In e (brk a b div)) -> List.last ((t, p) :: k) (0%Q, a) = (1%Q, b) -> goes_along (dec d') xa xb p t l0 b.
Proof.
  induction k as [|[u r] k IH]; intros t p l0 WK O IN LA.
  - cbn in WK. subst l0. cbn in LA. injection LA as -> ->. cbn. split; [done|reflexivity].
  - apply walk_two in WK as (g & l' & -> & J & WK). destruct (brk_place u r) as (_ & v & V1 & V2); [apply IN; by left|]. exists r, u, v. split; [done|]. split; [done|]. split; [done|]. destruct O as [O1 O2]. split; [exact (O1 (u, r) (or_introl eq_refl))|].
    apply IH; [done|done| |].
    + intros e H. apply IN. by right.
    + exact LA.
Qed.
Lemma goes_after : goes_along (dec d') xa xb a 0%Q l b.
Proof.
  apply (goes_of (div ++ [(1%Q, b)])); [exact W|exact brk_ordered|intros e H; by right|]. rewrite app_comm_cons. apply last_last.
Qed.
(** The pieces are the new segments. *)
Lemma new_after g : is_Some (vec (dec d') !! g) -> is_Some (vec (dec d) !! g) \/ g ∈ l \/ exists h p w, crosses (dec d) h xa xb w /\ vtx (dec d') !! (h, true) = Some p /\ vtx (dec d') !! (g, false) = Some p /\ vtx (dec d') !! (g, true) = vtx (dec d) !! (h, true).
Proof.
  intros H. destruct (L g H) as [H1|H1]; [|by right; left]. apply (ac_live _ _ _ AC) in H1 as [H1|H1]; [by left|]. right. right. apply elem_of_list_fmap in H1 as (c & -> & IC). apply elem_of_list_In in IC.
  destruct (ac_cut _ _ _ AC c IC) as (Lg & p & q & A1 & A2 & A3 & A4 & A5 & A6). destruct (cut_facts c IC) as (x & y & t0 & _ & _ & _ & _ & _ & _ & CR). destruct X' as (_ & X2 & _). exists (c_g c), (c_m c), (c_w c). split; [done|]. rewrite A2.
  rewrite !X2; [done| | |]; apply (ac_live _ _ _ AC); (try by left); right; by apply in_fmap.
Qed.
Context (PL : planar (dec d)).
(** If the line is there already, it is not cut. *)
Lemma no_cuts g : joins (dec d) g a b -> cs = [].
Proof.
  intros J. destruct cs as [|c r] eqn:ECS; [done|]. exfalso. assert (IC : In c cs) by (rewrite ECS; by left). rewrite <- ECS in *.
  destruct (cut_facts c IC) as (x & y & t0 & E & T0 & T1 & S0 & S1 & D & CR). assert (BT : between x y (c_w c)) by (apply between_along; exists t0; split; [lra|done]). assert (BA : between xa xb (c_w c)) by (apply between_along; exists (c_p c); split; [lra|done]).
  assert (NL := l_len _ _ _ _ _ C).
  assert (END : forall u, (u == 0 \/ u == 1)%Q -> ~ same (c_w c) (along xa xb u)). { intros u U SU. assert (EQ : (c_p c == u)%Q); [|destruct U; lra]. apply (along_inj xa xb); [done|]. eapply same_trans; [apply same_sym, S1|done]. }
  assert (NAX : ~ same (c_w c) xa). { intros SU. apply (END 0%Q); [left; reflexivity|]. eapply same_trans; [exact SU|]. apply same_sym, along_zero. reflexivity. }
  assert (NBX : ~ same (c_w c) xb). { intros SU. apply (END 1%Q); [right; reflexivity|]. eapply same_trans; [exact SU|]. apply same_sym, along_one. reflexivity. }
  assert (NG : g <> c_g c). { intros ->. destruct E as (p & q & E1 & E2 & E3 & E4). destruct J as [[J1 J2]|[J1 J2]].
    - assert (p = a) as -> by congruence. assert (q = b) as -> by congruence. apply D. rewrite (at_fun _ _ _ _ E3 A), (at_fun _ _ _ _ E4 B). unfold det. ring.
    - assert (p = b) as -> by congruence. assert (q = a) as -> by congruence. apply D. rewrite (at_fun _ _ _ _ E3 B), (at_fun _ _ _ _ E4 A). unfold det. ring. }
  destruct J as [[J1 J2]|[J1 J2]].
  - destruct (PL g (c_g c) xa xb x y (c_w c) NG) as [[H|H] _]; [exists a, b; done|done|done|done|done|done].
  - destruct (PL g (c_g c) xb xa x y (c_w c) NG) as [[H|H] _]; [exists b, a; done|done|by apply between_rev|done|done|done].
Qed.
(** A key of the division is an end of a piece that contains it. *)
Lemma key_end pre t p u r post q e k : brk a b div = pre ++ (t, p) :: (u, r) :: post -> In (e, k) (brk a b div) -> (e == q)%Q -> (t <= q <= u)%Q -> (q == t \/ q == u)%Q.
Proof.
  intros EB IE EQ T. assert (OB := brk_ordered). rewrite EB in OB, IE. destruct (ordered_piece _ _ _ _ _ _ OB) as [_ H]. destruct (H e k IE); [left|right]; lra.
Qed.
Lemma end_keys : In (0%Q, a) (brk a b div) /\ In (1%Q, b) (brk a b div).
Proof. split; apply brk_in; [by left|right; by left]. Qed.
Lemma old_old h k x y x' y' g x0 y0 lo hi g' x0' y0' lo' hi' w : h <> k -> part h x y g x0 y0 lo hi -> part k x' y' g' x0' y0' lo' hi' -> between x y w -> between x' y' w ->
  (same w x \/ same w y) /\ (same w x' \/ same w y').
Proof.
  intros NE (E & S1 & S2 & L1 & L2 & L3 & H) (E' & S1' & S2' & L1' & L2' & L3' & H') BT BT'.
  destruct (part_in x0 y0 lo hi w x y ltac:(lra) S1 S2 BT) as (s & SS & SW). destruct (part_in x0' y0' lo' hi' w x' y' ltac:(lra) S1' S2' BT') as (s' & SS' & SW').
  assert (NZ := zero_ends _ _ _ E). assert (NZ' := zero_ends _ _ _ E').
  assert (FIN : forall x y x0 y0 lo hi s, same x (along x0 y0 lo) -> same y (along x0 y0 hi) -> (lo <= s <= hi)%Q -> same w (along x0 y0 s) -> (s == lo \/ s == hi)%Q -> same w x \/ same w y).
  { intros x1 y1 x2 y2 lo1 hi1 s1 A1 A2 _ A3 [A4|A4]; [left|right]; (eapply same_trans; [exact A3|]; eapply same_trans; [exact (along_eq _ _ _ _ A4)|]; by apply same_sym). }
  destruct (decide (g = g')) as [-> | D].
  - destruct (ends_fun _ _ _ _ _ _ E E') as [-> ->]. assert (EQ : (s == s')%Q) by (apply (along_inj x0 y0); [done|]; eapply same_trans; [apply same_sym, SW|exact SW']).
    assert (KEY : (hi == lo' \/ hi' == lo)%Q).
    { destruct H as [(-> & N & _)|(c & IC & Eg & H)]; destruct H' as [(-> & N' & _)|(c' & IC' & Eg' & H')].
      - done.
      - exfalso. apply N. rewrite Eg'. by apply in_fmap.
      - exfalso. apply N'. rewrite Eg. by apply in_fmap.
      - assert (c' = c) as -> by (eapply (cut_eq d d1 cs); [exact AC|done|done|congruence]). destruct H as [(-> & _ & W1)|(-> & _ & W1)]; destruct H' as [(-> & _ & W2)|(-> & _ & W2)]; [done| | |done].
        + left. apply (along_inj x0 y0); [done|]. eapply same_trans; [apply same_sym, W1|exact W2].
        + right. apply (along_inj x0 y0); [done|]. eapply same_trans; [apply same_sym, W2|exact W1]. }
    split; [apply (FIN x y x0 y0 lo hi s S1 S2 SS SW)|apply (FIN x' y' x0 y0 lo' hi' s' S1' S2' SS' SW')]; destruct KEY as [KK|KK]; [right; lra|left; lra|left; lra|right; lra].
  - assert (BX : between x0 y0 w) by (apply between_along; exists s; split; [lra|done]). assert (BX' : between x0' y0' w) by (apply between_along; exists s'; split; [lra|done]).
    destruct (PL g g' _ _ _ _ w D E E' BX BX') as [PA PB].
    assert (ENDS : forall x0 y0 s, ~ same x0 y0 -> same w (along x0 y0 s) -> same w x0 \/ same w y0 -> (s == 0 \/ s == 1)%Q).
    { intros x1 y1 s1 N1 W1 [Q|Q]; [left|right]; (apply (along_inj x1 y1); [done|]; eapply same_trans; [apply same_sym, W1|]; eapply same_trans; [exact Q|]; apply same_sym); [apply along_zero; reflexivity|apply along_one; reflexivity]. }
    split; [apply (FIN x y x0 y0 lo hi s S1 S2 SS SW)|apply (FIN x' y' x0' y0' lo' hi' s' S1' S2' SS' SW')].
    + destruct (ENDS x0 y0 s NZ SW PA); [left|right]; lra.
    + destruct (ENDS x0' y0' s' NZ' SW' PB); [left|right]; lra.
Qed.
Lemma piece_place h x y w : piece h x y -> between x y w -> exists pre t p u r post q, brk a b div = pre ++ (t, p) :: (u, r) :: post /\ joins (dec d') h p r /\ (t <= q <= u)%Q /\ same w (along xa xb q) /\ (0 <= t)%Q /\ (t < u)%Q /\ (u <= 1)%Q /\
  ((q == t \/ q == u)%Q -> same w x \/ same w y).
Proof.
  intros (pre & t & p & u & r & post & EB & J & S) BT. assert (OB := brk_ordered). rewrite EB in OB. destruct (ordered_piece _ _ _ _ _ _ OB) as [TU _].
  assert (I1 : In (t, p) (brk a b div)) by (rewrite EB; apply in_or_app; right; by left). assert (I2 : In (u, r) (brk a b div)) by (rewrite EB; apply in_or_app; right; right; by left).
  destruct (brk_place _ _ I1) as [T1 _]. destruct (brk_place _ _ I2) as [U1 _]. exists pre, t, p, u, r, post.
  assert (Q : exists q, (t <= q <= u)%Q /\ same w (along xa xb q)).
  { destruct S as [[S1 S2]|[S1 S2]]; [exact (part_in xa xb t u w x y ltac:(lra) S1 S2 BT)|exact (part_in xa xb t u w y x ltac:(lra) S2 S1 (between_rev _ _ _ BT))]. }
  destruct Q as (q & Q1 & Q2). exists q. split; [done|]. split; [done|]. split; [done|]. split; [done|]. split; [lra|]. split; [done|]. split; [lra|].
  intros [K|K]; destruct S as [[S1 S2]|[S1 S2]]; [left|right|right|left]; (eapply same_trans; [exact Q2|]; eapply same_trans; [exact (along_eq xa xb _ _ K)|]; by apply same_sym).
Qed.
Lemma old_new h k x y x' y' g x0 y0 lo hi w : h <> k -> ends (dec d') h x y -> part h x y g x0 y0 lo hi -> piece k x' y' -> between x y w -> between x' y' w ->
  (same w x \/ same w y) /\ (same w x' \/ same w y').
Proof.
  intros NE EH (E & S1 & S2 & L1 & L2 & L3 & H) PC BT BT'. destruct (part_in x0 y0 lo hi w x y ltac:(lra) S1 S2 BT) as (s & SS & SW). destruct (piece_place _ _ _ _ PC BT') as (pre & t & p & u & r & post & q & EB & J & QQ & QW & T0 & TU & U1 & FIN).
  assert (FO : (s == lo \/ s == hi)%Q -> same w x \/ same w y). { intros [A4|A4]; [left|right]; (eapply same_trans; [exact SW|]; eapply same_trans; [exact (along_eq _ _ _ _ A4)|]; by apply same_sym). }
  assert (M : same (along x0 y0 s) (along xa xb q)) by (eapply same_trans; [apply same_sym, SW|exact QW]). destruct end_keys as [K0 K1].
  assert (BOTH : g ∉ c_g <$> cs -> (lo == 0)%Q -> (hi == 1)%Q -> (s == 0 \/ s == 1)%Q /\ (q == 0 \/ q == 1)%Q -> (same w x \/ same w y) /\ (same w x' \/ same w y')).
  { intros _ Lo Hi [Q1 Q2]. split; [apply FO; destruct Q1; [left|right]; lra|]. apply FIN. destruct Q2 as [Q2|Q2]; [eapply (key_end _ _ _ _ _ _ q 0%Q a); [exact EB|exact K0|by symmetry|done]|eapply (key_end _ _ _ _ _ _ q 1%Q b); [exact EB|exact K1|by symmetry|done]]. }
  destruct H as [(-> & N & Lo & Hi)|(c & IC & Eg & H)].
  - destruct (Qeq_dec (det x0 y0 xa xb) 0) as [D|D].
    + destruct (collinear g x0 y0 s q E ltac:(lra) ltac:(lra) M D) as [Q|JG]; [by apply BOTH|]. exfalso. assert (CN := no_cuts g JG). apply NE.
      assert (DN : div = []). { destruct div as [|[t1 m1] dv] eqn:ED0; [done|]. exfalso. destruct LD as [_ LI]. destruct (proj1 (LI t1 m1) (or_introl eq_refl)) as (c & IC & _). rewrite CN in IC. done. }
      rewrite DN in EB. unfold brk in EB. cbn in EB. destruct pre as [|z1 [|z2 pre]]; [|discriminate EB|destruct pre; discriminate EB]. injection EB as <- <- <- <- _.
      apply (joins_eq (dec d') g k a b I'); [|exact J]. assert (Lg := seg_live _ _ _ _ (g_inv _ (e_good _ (edits_einv _ ED))) E). destruct (ac_old _ _ _ AC g Lg N) as [_ OT]. destruct X' as (_ & X2 & _).
      unfold joins. rewrite !X2, !OT by (apply (ac_live _ _ _ AC); by left). exact JG.
    + apply BOTH; [done|done|done|]. exact (touch g x0 y0 s q N E ltac:(lra) ltac:(lra) M D).
  - destruct (cut_facts c IC) as (x1 & y1 & t0 & E1 & T1 & T2 & W1 & W2 & D & _). rewrite Eg in E. destruct (ends_fun _ _ _ _ _ _ E E1) as [-> ->].
    destruct (one_meet x0 y0 xa xb s q t0 (c_p c) D M) as [M1 M2]; [eapply same_trans; [apply same_sym, W1|exact W2]|]. assert (NZ := zero_ends _ _ _ E). split.
    + apply FO. destruct H as [(_ & _ & W3)|(_ & _ & W3)]; [right|left]; rewrite M1; apply (along_inj x0 y0); try done; (eapply same_trans; [apply same_sym, W1|exact W3]).
    + apply FIN. eapply (key_end _ _ _ _ _ _ q (c_p c) (c_m c)); [exact EB| |by symmetry|done]. apply brk_in. right. right. exists c. done.
Qed.
Lemma new_new h k x y x' y' w : h <> k -> piece h x y -> piece k x' y' -> between x y w -> between x' y' w -> (same w x \/ same w y) /\ (same w x' \/ same w y').
Proof.
  intros NE PC PC' BT BT'. destruct (piece_place _ _ _ _ PC BT) as (pre & t & p & u & r & post & q & EB & J & QQ & QW & T0 & TU & U1 & FIN). destruct (piece_place _ _ _ _ PC' BT') as (pre' & t' & p' & u' & r' & post' & q' & EB' & J' & QQ' & QW' & T0' & TU' & U1' & FIN').
  assert (EQ : (q == q')%Q). { apply (along_inj xa xb); [apply (l_len _ _ _ _ _ C)|]. eapply same_trans; [apply same_sym, QW|exact QW']. }
  assert (OB := brk_ordered). assert (I1 : In (t, p) (brk a b div)) by (rewrite EB; apply in_or_app; right; by left). assert (I2 : In (u, r) (brk a b div)) by (rewrite EB; apply in_or_app; right; right; by left).
  assert (I1' : In (t', p') (brk a b div)) by (rewrite EB'; apply in_or_app; right; by left). assert (I2' : In (u', r') (brk a b div)) by (rewrite EB'; apply in_or_app; right; right; by left).
  destruct (Qeq_dec t t') as [ET|ET]; [destruct (Qeq_dec u u') as [EU|EU]|].
  - exfalso. apply NE. assert (Q1 := ordered_same _ OB _ _ I1 I1' ET). assert (Q2 := ordered_same _ OB _ _ I2 I2' EU). injection Q1 as <- <-. injection Q2 as <- <-. exact (joins_eq _ _ _ _ _ I' J J').
  - exfalso. assert (OB1 := OB). rewrite EB in OB1. destruct (ordered_piece _ _ _ _ _ _ OB1) as [_ H1]. rewrite <- EB in H1. assert (OB2 := OB). rewrite EB' in OB2. destruct (ordered_piece _ _ _ _ _ _ OB2) as [_ H2]. rewrite <- EB' in H2.
    destruct (H1 _ _ I2') as [?|?]; [lra|]. destruct (H2 _ _ I2) as [?|?]; [lra|]. apply EU. lra.
  - assert (OB1 := OB). rewrite EB in OB1. destruct (ordered_piece _ _ _ _ _ _ OB1) as [_ H1]. rewrite <- EB in H1. assert (OB2 := OB). rewrite EB' in OB2. destruct (ordered_piece _ _ _ _ _ _ OB2) as [_ H2]. rewrite <- EB' in H2.
    destruct (H1 _ _ I1') as [L1|L1]; destruct (H2 _ _ I1) as [L2|L2]; [exfalso; apply ET; lra| | |exfalso; lra].
    + split; [apply FIN; left; lra|apply FIN'; right; lra].
    + split; [apply FIN; right; lra|apply FIN'; left; lra].
Qed.
Lemma planar_after : planar (dec d').
Proof.
  intros h k x y x' y' w NE E E' BT BT'. destruct (kinds h x y E) as [(g & x0 & y0 & lo & hi & H)|H]; destruct (kinds k x' y' E') as [(g' & x0' & y0' & lo' & hi' & H')|H'].
  - eapply old_old; [exact NE|exact H|exact H'|done|done].
  - eapply old_new; [exact NE|exact E|exact H|exact H'|done|done].
  - destruct (old_new k h x' y' x y g' x0' y0' lo' hi' w) as [Q1 Q2]; [congruence|done|done|done|done|done|]. done.
  - eapply new_new; [exact NE|exact H|exact H'|done|done].
Qed.
End Plane.
