(** The rectangle of min_bounding_rect around a convex hull is the smallest of all rectangles. *)
From Coq Require Import List Reals Lra Psatz.
From Verif Require Import Rect_Model Rect_Spec Rect_Proofs Rect_Props.
Import ListNotations.
Local Open Scope R_scope.

Lemma first_event {A} (al be : A -> R) (K : list A) : (forall k, In k K -> 0 <= al k) -> (forall k, In k K -> 0 <= be k) \/
  exists T k, 0 <= T /\ In k K /\ be k < 0 /\ al k + T * be k = 0 /\ forall k', In k' K -> 0 <= al k' + T * be k'.
Proof.
  induction K as [|c K IH]; intros H; [left; intros ? []|]. assert (H0 := H c (or_introl eq_refl)). destruct IH as [P|(T & k & T0 & Ik & Bk & Ek & Ak)]; [intros; apply H; now right| |].
  - destruct (Rlt_dec (be c) 0) as [L|L]; [right|left; intros k [<- |I]; [lra|auto]].
    assert (D : 0 <= al c / - be c). { apply Rmult_le_pos; [lra|]. left. apply Rinv_0_lt_compat. lra. }
    exists (al c / - be c), c. split; [exact D|]. split; [now left|]. split; [exact L|]. split; [field; lra|].
    intros k' [<- |I]; [right; field; lra|]. specialize (P k' I). specialize (H k' (or_intror I)). nra.
  - destruct (Rlt_dec (al c + T * be c) 0) as [L|L]; right.
    + assert (B : be c < 0) by nra. assert (D : 0 <= al c / - be c). { apply Rmult_le_pos; [lra|]. left. apply Rinv_0_lt_compat. lra. }
      assert (E : al c / - be c * - be c = al c) by (field; lra). assert (DT : al c / - be c < T) by nra.
      exists (al c / - be c), c. split; [exact D|]. split; [now left|]. split; [exact B|]. split; [lra|].
      intros k' [<- |I]; [lra|]. specialize (Ak k' I). specialize (H k' (or_intror I)). set (S := al c / - be c) in *. destruct (Rle_dec 0 (be k')); nra.
    + exists T, k. split; [exact T0|]. split; [now right|]. split; [exact Bk|]. split; [exact Ek|]. intros k' [<- |I]; [lra|auto].
Qed.
(** A maximum over points of a list. *)
Lemma extreme (x : rpt) l : l <> [] -> exists q, In q l /\ forall z, In z l -> dotr x z <= dotr x q.
Proof.
  induction l as [|p l IH]; [contradiction|]. intros _. destruct l as [|p' l']; [exists p; split; [now left|intros z [<- |[]]; lra]|].
  destruct IH as (q & Q & M); [discriminate|]. destruct (Rle_dec (dotr x p) (dotr x q)).
  - exists q. split; [now right|]. intros z [<- |Z]; [assumption|auto].
  - exists p. split; [now left|]. intros z [<- |Z]; [lra|]. specialize (M z Z). lra.
Qed.
(** Unit vectors across each other. *)
Definition frame (u v : rpt) : Prop := dotr u u = 1 /\ dotr v v = 1 /\ dotr u v = 0.
Lemma frame_cross u v : frame u v -> crossr u v = 1 \/ crossr u v = -1.
Proof.
  intros (A & B & C). assert (X : crossr u v * crossr u v = 1). { unfold dotr, crossr in *. transitivity ((fst u * fst u + snd u * snd u) * (fst v * fst v + snd v * snd v) - (fst u * fst v + snd u * snd v) * (fst u * fst v + snd u * snd v)); [ring|]. rewrite A, B, C. ring. }
  assert ((crossr u v - 1) * (crossr u v + 1) = 0) as Y by lra. apply Rmult_integral in Y as [Y|Y]; [left|right]; lra.
Qed.
Lemma frame_point u v p : frame u v -> fst p = dotr u p * fst u + dotr v p * fst v /\ snd p = dotr u p * snd u + dotr v p * snd v.
Proof.
  intros F. assert (X := frame_cross u v F). destruct F as (A & B & C).
  unfold dotr, crossr in *. destruct u as [u1 u2], v as [v1 v2], p as [p1 p2]. cbn in *.
  assert (V1 : v1 = - (u1 * v2 - u2 * v1) * u2). { transitivity (v1 * (u1 * u1 + u2 * u2) - u1 * (u1 * v1 + u2 * v2)); [rewrite A, C; ring|ring]. }
  assert (V2 : v2 = (u1 * v2 - u2 * v1) * u1). { transitivity (v2 * (u1 * u1 + u2 * u2) - u2 * (u1 * v1 + u2 * v2)); [rewrite A, C; ring|ring]. }
  assert (Y1 : v1 * v1 = u2 * u2 /\ v1 * v2 = - (u1 * u2) /\ v2 * v2 = u1 * u1) by (destruct X as [X|X]; rewrite X in V1, V2; rewrite V1, V2; repeat split; ring). destruct Y1 as (Y1 & Y2 & Y3).
  split.
  - transitivity (p1 * (u1 * u1 + v1 * v1) + p2 * (u1 * u2 + v1 * v2)); [rewrite Y1, Y2, A; ring|ring].
  - transitivity (p1 * (u1 * u2 + v1 * v2) + p2 * (u2 * u2 + v2 * v2)); [rewrite Y2, Y3, Rplus_comm; replace (u2 * u2 + u1 * u1) with 1 by lra; ring|ring].
Qed.
Lemma between z0 z1 z : z0 <= z <= z1 -> exists s, 0 <= s <= 1 /\ z = z0 + s * (z1 - z0).
Proof.
  intros Z. destruct (Req_dec z0 z1) as [-> |D]; [exists 0; lra|]. exists ((z - z0) / (z1 - z0)). split; [|field; lra]. split; [apply Rmult_le_pos; [lra|left; apply Rinv_0_lt_compat; lra]|].
  apply Rmult_le_reg_r with (z1 - z0); [lra|]. unfold Rdiv. rewrite Rmult_assoc, Rinv_l; lra.
Qed.
(** Extents along a frame with an edge across one of its vectors. *)
Lemma frame_area hull c0 c1 c2 c3 x y e mx Mx my My : (2 <= length hull)%nat -> min_bounding_rect hull = Some (c0, c1, c2, c3) -> frame x y -> edge_dir hull e ->
  dotr x e = 0 \/ dotr y e = 0 -> (forall z, In z hull -> mx <= dotr x z <= Mx /\ my <= dotr y z <= My) -> area c0 c1 c2 <= (Mx - mx) * (My - my).
Proof.
  intros L E. revert x y mx Mx my My.
  assert (POS : forall x y mx Mx my My, frame x y -> crossr x y = 1 -> edge_dir hull e -> dotr x e = 0 \/ dotr y e = 0 -> (forall z, In z hull -> mx <= dotr x z <= Mx /\ my <= dotr y z <= My) -> area c0 c1 c2 <= (Mx - mx) * (My - my)).
  { intros x y mx Mx my My F CR ED OR B.
    set (d1 := (mx * fst x + my * fst y, mx * snd x + my * snd y)). set (d2 := (Mx * fst x + my * fst y, Mx * snd x + my * snd y)).
    set (d0 := (mx * fst x + My * fst y, mx * snd x + My * snd y)). set (d3 := (Mx * fst x + My * fst y, Mx * snd x + My * snd y)).
    assert (AR : area d0 d1 d2 = (Mx - mx) * (My - my)). { unfold area, crossr, subr, d0, d1, d2. cbn. transitivity ((Mx - mx) * (My - my) * crossr x y); [unfold crossr; ring|rewrite CR; ring]. }
    rewrite <- AR. assert (F' := F). destruct F' as (UX & UY & XY).
    destruct ED as (l1 & a & b & l2 & EL & EE & EN). assert (Ia : In a hull) by (rewrite EL; apply in_or_app; right; now left). assert (Ib : In b hull) by (rewrite EL; apply in_or_app; right; right; now left).
    assert (BA := B a Ia). assert (BB := B b Ib). assert (PE := frame_point x y e F).
    assert (DE : forall w, dotr w e = dotr w b - dotr w a) by (intros w; rewrite EE; unfold dotr, subr; cbn; ring).
    apply (C86_smallest hull c0 c1 c2 c3 d0 d1 d2 d3 e L E).
    - split; [|split].
      + unfold dotr, subr, d0, d1, d2. cbn. transitivity ((Mx - mx) * (My - my) * dotr x y); [unfold dotr; ring|rewrite XY; ring].
      + change (0 <= area d0 d1 d2). rewrite AR. apply Rmult_le_pos; lra.
      + unfold subr, d0, d1, d2, d3. cbn. f_equal; ring.
    - intros p P. destruct (B p P) as [B1 B2]. destruct (between _ _ _ B1) as (s & S1 & S2). destruct (between _ _ _ B2) as (t & T1 & T2). exists s, t. split; [exact S1|]. split; [exact T1|].
      destruct (frame_point x y p F) as [P1 P2]. unfold d0, d1, d2. cbn. rewrite P1, P2, S2, T2. split; ring.
    - exists l1, a, b, l2. auto.
    - destruct OR as [O|O]; [right|left]; rewrite O in PE; destruct PE as [P1 P2].
      + assert (YE : dotr y e <> 0). { intros Z. apply EN. rewrite Z in P1, P2. destruct e as [e1 e2]. cbn in *. f_equal; lra. }
        assert (YY : My <> my). { rewrite (DE y) in YE. intros ->. apply YE. lra. }
        split.
        * intros Z. unfold subr, d0, d1 in Z. cbn in Z. injection Z as Z1 Z2. apply YY. assert ((My - my) * dotr y y = 0) as W. { unfold dotr. replace ((My - my) * (fst y * fst y + snd y * snd y)) with (((My - my) * fst y) * fst y + ((My - my) * snd y) * snd y) by ring. replace ((My - my) * fst y) with 0 by lra. replace ((My - my) * snd y) with 0 by lra. ring. } rewrite UY in W. lra.
        * unfold crossr, subr, d0, d1. cbn. rewrite P1, P2. ring.
      + assert (XE : dotr x e <> 0). { intros Z. apply EN. rewrite Z in P1, P2. destruct e as [e1 e2]. cbn in *. f_equal; lra. }
        assert (XX : Mx <> mx). { rewrite (DE x) in XE. intros ->. apply XE. lra. }
        split.
        * intros Z. unfold subr, d2, d1 in Z. cbn in Z. injection Z as Z1 Z2. apply XX. assert ((Mx - mx) * dotr x x = 0) as W. { unfold dotr. replace ((Mx - mx) * (fst x * fst x + snd x * snd x)) with (((Mx - mx) * fst x) * fst x + ((Mx - mx) * snd x) * snd x) by ring. replace ((Mx - mx) * fst x) with 0 by lra. replace ((Mx - mx) * snd x) with 0 by lra. ring. } rewrite UX in W. lra.
        * unfold crossr, subr, d2, d1. cbn. rewrite P1, P2. ring. }
  intros x y mx Mx my My F ED OR B. destruct (frame_cross x y F) as [C|C]; [eapply POS; eauto|].
  rewrite Rmult_comm. apply (POS y x my My mx Mx).
  - destruct F as (A1 & A2 & A3). split; [exact A2|]. split; [exact A1|]. unfold dotr in *. lra.
  - unfold crossr in *. lra.
  - exact ED.
  - tauto.
  - intros z Z. destruct (B z Z). auto.
Qed.
Section Hull.
Context (l : list rpt).
Hypothesis W : convex_walk l.
Lemma around q : In q l -> (exists l1 x l2, l = l1 ++ x :: q :: l2) /\ (exists l1 y l2, l = l1 ++ q :: y :: l2).
Proof.
  destruct W as [(a & m & E) D]. intros Q.
  assert (N : m <> []). { intros ->. destruct (D [] a a []) as [X _]; [exact E|]. now apply X. }
  assert (PRE : forall (k : list rpt) z k', exists l1 x, (z :: k) ++ k' = l1 ++ x :: k').
  { intros k z k'. destruct (exists_last (l := z :: k)) as (k1 & x & K); [discriminate|]. exists k1, x. rewrite K, <- app_assoc. reflexivity. }
  assert (A : q = a \/ In q m). { rewrite E in Q. destruct Q as [Q|Q]; [now left|]. apply in_app_or in Q as [Q|[Q|[]]]; [now right|now left]. }
  destruct A as [-> |A].
  - split.
    + destruct (PRE m a [a]) as (l1 & x & X). exists l1, x, []. rewrite E. exact X.
    + destruct m as [|y m]; [contradiction|]. exists [], y, (m ++ [a]). exact E.
  - apply in_split in A as (m1 & m2 & ->). rewrite <- app_assoc in E. split.
    + destruct (PRE m1 a ((q :: m2) ++ [a])) as (l1 & x & X). exists l1, x, (m2 ++ [a]). rewrite E. exact X.
    + destruct m2 as [|y m2]; [exists (a :: m1), a, []|exists (a :: m1), y, (m2 ++ [a])]; exact E.
Qed.
Lemma long : (2 <= length l)%nat.
Proof. destruct W as [(a & m & ->) _]. cbn. rewrite app_length. cbn. rewrite Nat.add_comm. apply le_n_S, le_n_S, Nat.le_0_l. Qed.
(** Two points farthest in a direction: an edge is across it. *)
Lemma two_extreme x p q : x <> (0, 0) -> In p l -> In q l -> p <> q -> (forall z, In z l -> dotr x z <= dotr x q) -> dotr x p = dotr x q -> exists e, edge_dir l e /\ dotr x e = 0.
Proof.
  intros X P Q PQ M E. destruct (around q Q) as [(l1 & m & l2 & E1) (k1 & n & k2 & E2)]. destruct W as [_ D].
  destruct (D _ _ _ _ E1) as [N1 S1]. destruct (D _ _ _ _ E2) as [N2 S2].
  assert (Im : In m l) by (rewrite E1; apply in_or_app; right; now left). assert (In' : In n l) by (rewrite E2; apply in_or_app; right; right; now left).
  assert (SUB : forall a b : rpt, a <> b -> subr a b <> (0, 0)). { intros [a1 a2] [b1 b2] A B. apply A. unfold subr in B. cbn in B. injection B as B1 B2. f_equal; lra. }
  assert (XX : 0 < dotr x x). { destruct x as [x1 x2]. unfold dotr. cbn. destruct (Req_dec x1 0) as [-> |]; [destruct (Req_dec x2 0) as [-> |]; [contradiction|nra]|nra]. }
  set (c := crossr x (subr p q)). assert (XB : dotr x (subr p q) = 0) by (unfold dotr, subr in *; cbn; lra).
  assert (C : c <> 0). { intros Z. apply (SUB p q PQ). unfold c in Z. unfold dotr, crossr in *. destruct (subr p q) as [b1 b2], x as [x1 x2]. cbn in *.
    assert ((x1 * x1 + x2 * x2) * b1 = 0) as B1 by (transitivity (x1 * (x1 * b1 + x2 * b2) - x2 * (x1 * b2 - x2 * b1)); [ring|rewrite XB, Z; ring]).
    assert ((x1 * x1 + x2 * x2) * b2 = 0) as B2 by (transitivity (x2 * (x1 * b1 + x2 * b2) + x1 * (x1 * b2 - x2 * b1)); [ring|rewrite XB, Z; ring]).
    apply Rmult_integral in B1 as [B1|B1]; [lra|]. apply Rmult_integral in B2 as [B2|B2]; [lra|]. now rewrite B1, B2. }
  assert (ID : forall A, dotr x x * crossr A (subr p q) = dotr x A * c). { intros A. transitivity (dotr x A * c - crossr x A * dotr x (subr p q)); [unfold c, dotr, crossr; ring|rewrite XB; ring]. }
  destruct (Rlt_dec 0 c) as [PC|PC].
  - exists (subr q m). split; [exists l1, m, q, l2; split; [exact E1|]; split; [reflexivity|]; apply SUB; congruence|].
    specialize (S1 p P). assert (S1' : crossr (subr q m) (subr p q) <= 0) by (unfold crossr, subr in *; cbn in *; lra). assert (I := ID (subr q m)).
    assert (0 <= dotr x (subr q m)) by (specialize (M m Im); unfold dotr, subr in *; cbn; lra). nra.
  - exists (subr n q). split; [exists k1, q, n, k2; split; [exact E2|]; split; [reflexivity|]; apply SUB; congruence|].
    specialize (S2 p P). assert (I := ID (subr n q)). assert (dotr x (subr n q) <= 0) by (specialize (M n In'); unfold dotr, subr in *; cbn; lra). assert (c < 0) by lra. nra.
Qed.
(** Turning a frame to an edge, in the direction in which the area does not grow. *)
Lemma turn c0 c1 c2 c3 u v r p t b : min_bounding_rect l = Some (c0, c1, c2, c3) -> frame u v -> In r l -> In p l -> In t l -> In b l ->
  (forall z, In z l -> dotr u p <= dotr u z <= dotr u r /\ dotr v b <= dotr v z <= dotr v t) ->
  dotr v (subr r p) * dotr v (subr t b) <= dotr u (subr r p) * dotr u (subr t b) ->
  area c0 c1 c2 <= (dotr u r - dotr u p) * (dotr v t - dotr v b).
Proof.
  intros E F Ir Ip It Ib B DER. assert (F' := F). destruct F' as (UU & VV & UV).
  assert (DS : forall x y z, dotr x (subr y z) = dotr x y - dotr x z) by (intros; unfold dotr, subr; cbn; ring).
  set (neg := fun w : rpt => (- fst w, - snd w)). assert (DN : forall x y, dotr (neg x) y = - dotr x y) by (intros; unfold dotr, neg; cbn; ring).
  assert (NN : forall w, dotr (neg w) (neg w) = dotr w w) by (intros; unfold dotr, neg; cbn; ring).
  set (cs := [((r, u), v); ((p, neg u), neg v); ((t, v), neg u); ((b, neg v), u)]).
  set (K := flat_map (fun c => map (fun z => (c, z)) l) cs).
  set (al := fun k : (rpt * rpt * rpt) * rpt => dotr (snd (fst (fst k))) (subr (fst (fst (fst k))) (snd k))).
  set (be := fun k : (rpt * rpt * rpt) * rpt => dotr (snd (fst k)) (subr (fst (fst (fst k))) (snd k))).
  assert (KI : forall c z, In (c, z) K <-> In c cs /\ In z l).
  { intros c z. unfold K. rewrite in_flat_map. split; [intros (c' & C & Z); apply in_map_iff in Z as (z' & Z & Iz); injection Z as <- <-; auto|intros [C Z]; exists c; split; [exact C|]; apply in_map_iff; eauto]. }
  assert (A0 : forall k, In k K -> 0 <= al k).
  { intros [c z] Ik. apply KI in Ik as [C Z]. destruct (B z Z) as [B1 B2]. unfold al. cbn [fst snd]. destruct C as [<- |[<- |[<- |[<- |[]]]]]; cbn [fst snd]; rewrite ?DN, DS; lra. }
  assert (NP : dotr u r - dotr u p = 0 -> dotr v t - dotr v b = 0 -> False).
  { intros Z2 Z1. destruct (around r Ir) as [(l1 & x & l2 & E1) _]. destruct W as [_ D]. destruct (D _ _ _ _ E1) as [NX _]. apply NX.
    assert (Ix : In x l) by (rewrite E1; apply in_or_app; right; now left). destruct (B x Ix) as [X1 X2]. destruct (B r Ir) as [X3 X4].
    destruct (frame_point u v x F) as [P1 P2]. destruct (frame_point u v r F) as [P3 P4]. clear - X1 X2 X3 X4 P1 P2 P3 P4 Z1 Z2. destruct x as [xx xy], r as [rx ry]. cbn [fst snd] in *.
    assert (dotr u (xx, xy) = dotr u (rx, ry)) as Q1 by lra. assert (dotr v (xx, xy) = dotr v (rx, ry)) as Q2 by lra. rewrite Q1, Q2 in *. congruence. }
  destruct (first_event al be K A0) as [NB|(T & k & T0 & Ik & Bk & Ek & Ak)].
  - (* all points are at one place *)
    assert (H : forall z, In z l -> 0 <= dotr v r - dotr v z /\ 0 <= dotr v z - dotr v p /\ 0 <= dotr u z - dotr u t /\ 0 <= dotr u b - dotr u z).
    { intros z Z. assert (G : forall c, In c cs -> 0 <= be (c, z)) by (intros c C; apply NB, KI; auto).
      assert (G1 := G (r, u, v) ltac:(now left)). assert (G2 := G (p, neg u, neg v) ltac:(right; now left)). assert (G3 := G (t, v, neg u) ltac:(right; right; now left)). assert (G4 := G (b, neg v, u) ltac:(right; right; right; now left)).
      unfold be in *. cbn [fst snd] in *. rewrite ?DN, ?DS in *. lra. }
    rewrite !DS in DER. assert (Hr := H r Ir). assert (Hp := H p Ip). assert (Ht := H t It). assert (Hb := H b Ib).
    assert (Br := B r Ir). assert (Bp := B p Ip). assert (Bt := B t It). assert (Bb := B b Ib).
    assert (V1 : dotr v r = dotr v t) by lra. assert (V2 : dotr v p = dotr v b) by lra. assert (U1 : dotr u t = dotr u p) by lra. assert (U2 : dotr u b = dotr u r) by lra.
    rewrite V1, V2, U1, U2 in DER. assert (dotr v t - dotr v b = 0) as Z1 by nra. assert (dotr u r - dotr u p = 0) as Z2 by nra.
    destruct (NP Z2 Z1).
  - set (N := 1 + T * T). assert (N0 : 0 < N) by (unfold N; nra). set (s := sqrt N). assert (s0 : 0 < s) by (apply sqrt_lt_R0, N0). assert (ss : s * s = N) by (apply sqrt_sqrt; lra).
    set (x0 := (fst u + T * fst v, snd u + T * snd v)). set (y0 := (fst v - T * fst u, snd v - T * snd u)).
    set (x := (/ s * fst x0, / s * snd x0)). set (y := (/ s * fst y0, / s * snd y0)).
    assert (DX : forall z, dotr x z = / s * (dotr u z + T * dotr v z)) by (intros; unfold x, x0, dotr; cbn; ring).
    assert (DY : forall z, dotr y z = / s * (dotr v z - T * dotr u z)) by (intros; unfold y, y0, dotr; cbn; ring).
    assert (SI : / s * / s * N = 1) by (rewrite <- ss; field; lra). assert (S0 : 0 < / s) by (apply Rinv_0_lt_compat, s0).
    assert (FR : frame x y).
    { split; [|split].
      - transitivity (/ s * / s * (dotr u u + 2 * T * dotr u v + T * T * dotr v v)); [unfold x, x0, dotr; cbn; ring|]. rewrite UU, VV, UV. transitivity (/ s * / s * N); [unfold N; ring|exact SI].
      - transitivity (/ s * / s * (dotr v v - 2 * T * dotr u v + T * T * dotr u u)); [unfold y, y0, dotr; cbn; ring|]. rewrite UU, VV, UV. transitivity (/ s * / s * N); [unfold N; ring|exact SI].
      - transitivity (/ s * / s * (dotr u v * (1 - T * T) + T * (dotr v v - dotr u u))); [unfold x, x0, y, y0, dotr; cbn; ring|]. rewrite UU, VV, UV. ring. }
    assert (BT : forall z, In z l -> dotr x p <= dotr x z <= dotr x r /\ dotr y b <= dotr y z <= dotr y t).
    { intros z Z. assert (G : forall c, In c cs -> 0 <= al (c, z) + T * be (c, z)) by (intros c C; apply Ak, KI; auto).
      assert (G1 := G (r, u, v) ltac:(now left)). assert (G2 := G (p, neg u, neg v) ltac:(right; now left)). assert (G3 := G (t, v, neg u) ltac:(right; right; now left)). assert (G4 := G (b, neg v, u) ltac:(right; right; right; now left)).
      unfold al, be in *. cbn [fst snd] in *. rewrite ?DN, ?DS in *. rewrite !DX, !DY. repeat split; apply Rmult_le_compat_l; lra. }
    assert (NZ : forall w, dotr w w = 1 -> w <> (0, 0)) by (intros w H ->; unfold dotr in H; cbn in H; lra).
    assert (FLUSH : exists e, edge_dir l e /\ (dotr x e = 0 \/ dotr y e = 0)).
    { destruct k as [c z]. apply KI in Ik as [C Z]. unfold al, be in Ek, Bk. cbn [fst snd] in Ek, Bk.
      destruct FR as (XX & YY & _). destruct (BT z Z) as [BX BY].
      assert (NE : forall q w, dotr w (subr q z) < 0 -> z <> q) by (intros q w H ->; rewrite DS in H; lra).
      destruct C as [<- |[<- |[<- |[<- |[]]]]]; cbn [fst snd] in Ek, Bk.
      - destruct (two_extreme x z r) as (e & Ee & D); [apply NZ, XX|exact Z|exact Ir|exact (NE _ _ Bk)|intros w Iw; apply BT, Iw|rewrite !DX; f_equal; rewrite !DS in Ek; lra|]. exists e. auto.
      - destruct (two_extreme (neg x) z p) as (e & Ee & D); [apply NZ; rewrite NN; exact XX|exact Z|exact Ip|exact (NE _ _ Bk)|intros w Iw; rewrite !DN; destruct (BT w Iw); lra|rewrite !DN, !DX; rewrite !DN, !DS in Ek; f_equal; f_equal; lra|]. exists e. split; [exact Ee|]. left. rewrite DN in D. lra.
      - destruct (two_extreme y z t) as (e & Ee & D); [apply NZ, YY|exact Z|exact It|exact (NE _ _ Bk)|intros w Iw; apply BT, Iw|rewrite !DY; f_equal; rewrite !DN, !DS in Ek; lra|]. exists e. auto.
      - destruct (two_extreme (neg y) z b) as (e & Ee & D); [apply NZ; rewrite NN; exact YY|exact Z|exact Ib|exact (NE _ _ Bk)|intros w Iw; rewrite !DN; destruct (BT w Iw); lra|rewrite !DN, !DY; rewrite !DN, !DS in Ek; f_equal; f_equal; lra|]. exists e. split; [exact Ee|]. right. rewrite DN in D. lra. }
    destruct FLUSH as (e & Ee & OR). eapply Rle_trans; [apply (frame_area l c0 c1 c2 c3 x y e (dotr x p) (dotr x r) (dotr y b) (dotr y t) long E FR Ee OR BT)|].
    rewrite !DX, !DY. rewrite !DS in DER. destruct (BT r Ir) as [[BX _] _]. destruct (BT t It) as [_ [BY _]]. rewrite !DX in BX. rewrite !DY in BY.
    apply Rmult_le_reg_l in BX; [|exact S0]. apply Rmult_le_reg_l in BY; [|exact S0]. assert (B0 := B r Ir). assert (B1 := B t It).
    set (w0 := dotr u r - dotr u p). set (w1 := dotr v r - dotr v p) in *. set (h0 := dotr v t - dotr v b) in *. set (h1 := dotr u t - dotr u b) in *.
    replace ((/ s * (dotr u r + T * dotr v r) - / s * (dotr u p + T * dotr v p)) * (/ s * (dotr v t - T * dotr u t) - / s * (dotr v b - T * dotr u b))) with (/ s * / s * ((w0 + T * w1) * (h0 - T * h1))) by (unfold w0, w1, h0, h1; ring).
    assert (w00 : 0 <= w0) by (unfold w0; lra). assert (h00 : 0 <= h0) by (unfold h0; lra). assert (wT : 0 <= w0 + T * w1) by (unfold w0, w1; lra). assert (hT : 0 <= h0 - T * h1) by (unfold h0, h1; lra).
    fold w0 in DER. assert (KEY : (w0 + T * w1) * (h0 - T * h1) <= N * (w0 * h0)).
    { unfold N. destruct (Rle_dec 0 (w1 * h1)) as [G|G].
      - assert (0 <= T * (w0 * h1 - w1 * h0)) by (apply Rmult_le_pos; lra). assert (0 <= T * T * (w1 * h1)) by (apply Rmult_le_pos; nra). assert (0 <= T * T * (w0 * h0)) by (apply Rmult_le_pos; nra). lra.
      - assert (P : 0 <= T * T * (w0 * h0)) by (apply Rmult_le_pos; nra). destruct (Rle_dec w1 0) as [G1|G1].
        + assert (G2 : 0 <= h1) by nra. assert ((w0 + T * w1) * (h0 - T * h1) <= w0 * h0); [|lra]. apply Rmult_le_compat; try lra; nra.
        + assert (G2 : h1 < 0) by nra. assert (0 <= w1 * h0) by (apply Rmult_le_pos; lra). assert (w0 * h1 <= 0) by nra.
          assert (w0 * h1 = 0) as Z1 by lra. assert (w1 * h0 = 0) as Z2 by lra. apply Rmult_integral in Z1 as [Z1|Z1]; [|lra]. apply Rmult_integral in Z2 as [Z2|Z2]; [lra|].
          destruct (NP Z1 Z2). }
    apply Rle_trans with (/ s * / s * (N * (w0 * h0))); [apply Rmult_le_compat_l; [nra|exact KEY]|]. right. rewrite <- Rmult_assoc, SI. ring.
Qed.
End Hull.
(** Sides of a rectangle as a frame. *)
Lemma rect_frame d0 d1 d2 d3 : rectangle d0 d1 d2 d3 -> exists u v w h, frame u v /\ 0 <= w /\ 0 <= h /\ subr d2 d1 = (w * fst u, w * snd u) /\ subr d0 d1 = (h * fst v, h * snd v) /\ area d0 d1 d2 = w * h.
Proof.
  intros (D & C & _). unfold area. set (a := subr d2 d1) in *. set (b := subr d0 d1) in *. clearbody a b. clear d0 d1 d2 d3.
  assert (UNIT : forall x : rpt, x <> (0, 0) -> exists n e, 0 < n /\ x = (n * fst e, n * snd e) /\ dotr e e = 1).
  { intros [x1 x2] X. assert (P : 0 < x1 * x1 + x2 * x2). { destruct (Req_dec x1 0) as [-> |]; [destruct (Req_dec x2 0) as [-> |]; [contradiction|nra]|nra]. }
    set (n := sqrt (x1 * x1 + x2 * x2)). assert (N : 0 < n) by (apply sqrt_lt_R0, P). assert (NN : n * n = x1 * x1 + x2 * x2) by (apply sqrt_sqrt; lra).
    exists n, (x1 / n, x2 / n). cbn. split; [exact N|]. split; [f_equal; field; lra|]. unfold dotr. cbn. transitivity ((x1 * x1 + x2 * x2) / (n * n)); [field; lra|]. rewrite <- NN. field. lra. }
  assert (DEC : forall x : rpt, {x = (0, 0)} + {x <> (0, 0)}). { intros [x1 x2]. destruct (Req_EM_T x1 0) as [-> |]; [destruct (Req_EM_T x2 0) as [-> |]; [now left|]|]; right; intros E; injection E; congruence. }
  destruct (DEC a) as [-> |A]; [destruct (DEC b) as [-> |B]|].
  - exists (1, 0), (0, 1), 0, 0. unfold frame, dotr, crossr. cbn. repeat split; try lra; f_equal; ring.
  - destruct (UNIT b B) as (n & e & N & -> & E). exists (snd e, - fst e), e, 0, n. unfold frame, dotr, crossr in *. cbn in *. repeat split; try lra; f_equal; ring.
  - destruct (UNIT a A) as (n & e & N & -> & E). exists e, (- snd e, fst e), n, (dotr (- snd e, fst e) b). unfold frame. unfold dotr, crossr in *. cbn in *.
    assert (Z : fst e * fst b + snd e * snd b = 0). { apply Rmult_eq_reg_l with n; [|lra]. rewrite Rmult_0_r. rewrite <- D. ring. }
    assert (0 <= - snd e * fst b + fst e * snd b). { apply Rmult_le_reg_l with n; [exact N|]. rewrite Rmult_0_r. eapply Rle_trans; [exact C|]. right. ring. }
    repeat split; try lra.
    destruct b as [b1 b2]. cbn in *. f_equal.
    + transitivity (b1 * (fst e * fst e + snd e * snd e) - fst e * (fst e * b1 + snd e * b2)); [rewrite E, Z; ring|ring].
    + transitivity (b2 * (fst e * fst e + snd e * snd e) - snd e * (fst e * b1 + snd e * b2)); [rewrite E, Z; ring|ring].
Qed.
(** Around a convex polygon no rectangle is smaller than the answer. *)
Lemma rect_least (hull : list rpt) c0 c1 c2 c3 d0 d1 d2 d3 : convex_walk hull -> min_bounding_rect hull = Some (c0, c1, c2, c3) ->
  rectangle d0 d1 d2 d3 -> (forall p, In p hull -> inside d0 d1 d2 d3 p) -> area c0 c1 c2 <= area d0 d1 d2.
Proof.
  intros W E RD IN. destruct (rect_frame _ _ _ _ RD) as (u & v & w & h & F & w0 & h0 & Ew & Eh & ->). assert (F' := F). destruct F' as (UU & VV & UV).
  assert (N : hull <> []) by (assert (L := long hull W); intros ->; inversion L).
  set (neg := fun w : rpt => (- fst w, - snd w)). assert (DN : forall x y, dotr (neg x) y = - dotr x y) by (intros; unfold dotr, neg; cbn; ring).
  destruct (extreme u hull N) as (r & Ir & Mr). destruct (extreme (neg u) hull N) as (p & Ip & Mp). destruct (extreme v hull N) as (t & It & Mt). destruct (extreme (neg v) hull N) as (b & Ib & Mb).
  assert (B : forall z, In z hull -> dotr u p <= dotr u z <= dotr u r /\ dotr v b <= dotr v z <= dotr v t).
  { intros z Z. specialize (Mr z Z). specialize (Mp z Z). specialize (Mt z Z). specialize (Mb z Z). rewrite !DN in *. lra. }
  assert (IU : forall z, In z hull -> dotr u d1 <= dotr u z <= dotr u d1 + w /\ dotr v d1 <= dotr v z <= dotr v d1 + h).
  { intros z Z. destruct (IN z Z) as (s & k & S1 & S2 & Z1 & Z2). unfold subr in Ew, Eh. injection Ew as A1 A2. injection Eh as A3 A4. rewrite A1, A3 in Z1. rewrite A2, A4 in Z2.
    assert (dotr u z = dotr u d1 + s * w) as ->. { transitivity (dotr u d1 + s * w * dotr u u + k * h * dotr u v); [unfold dotr; rewrite Z1, Z2; ring|rewrite UU, UV; ring]. }
    assert (dotr v z = dotr v d1 + k * h) as ->. { transitivity (dotr v d1 + s * w * dotr u v + k * h * dotr v v); [unfold dotr; rewrite Z1, Z2; ring|rewrite VV, UV; ring]. }
    nra. }
  apply Rle_trans with ((dotr u r - dotr u p) * (dotr v t - dotr v b)).
  - destruct (Rle_dec (dotr v (subr r p) * dotr v (subr t b)) (dotr u (subr r p) * dotr u (subr t b))) as [D|D]; [exact (turn hull W c0 c1 c2 c3 u v r p t b E F Ir Ip It Ib B D)|].
    assert (FN : frame u (neg v)). { split; [exact UU|]. split; [rewrite DN; transitivity (dotr v v); [unfold dotr, neg; cbn; ring|exact VV]|]. transitivity (- dotr u v); [unfold dotr, neg; cbn; ring|rewrite UV; ring]. }
    replace (dotr v t - dotr v b) with (dotr (neg v) b - dotr (neg v) t) by (rewrite !DN; ring).
    apply (turn hull W c0 c1 c2 c3 u (neg v) r p b t E FN Ir Ip Ib It).
    + intros z Z. rewrite !DN. destruct (B z Z). lra.
    + assert (SN : forall x y z, dotr x (subr y z) = - dotr x (subr z y)) by (intros; unfold dotr, subr; cbn; ring). rewrite (SN u b t), !DN, (SN v b t). lra.
  - assert (X1 := IU r Ir). assert (X2 := IU p Ip). assert (X3 := IU t It). assert (X4 := IU b Ib). assert (Y1 := B r Ir). assert (Y2 := B t It). apply Rmult_le_compat; lra.
Qed.
