(** Places on segments and on a line. *)
From stdpp Require Import gmap list.
From Coq Require Import Lia QArith Lqa.
From Verif Require Import Decomp_Model Decomp_Spec Aabb_Model Aabb_Spec Editor_Model Editor_Spec Geom_Model Geom_Spec Geom_Props Snap_Model Snap_Spec Line_Spec.
Local Open Scope Q_scope.

Lemma same_refl v : same v v.
Proof. split; reflexivity. Qed.
Lemma same_sym v w : same v w -> same w v.
Proof. intros [A B]. split; symmetry; done. Qed.
Lemma same_trans u v w : same u v -> same v w -> same u w.
Proof. intros [A B] [C D]. split; etransitivity; done. Qed.
Lemma between_along x y w : between x y w <-> exists t, (0 <= t <= 1) /\ same w (along x y t).
Proof. split; intros (t & A & B & C); exists t; (split; [exact A|]); (split; [exact B|exact C]). Qed.
Lemma along_zero x y t : t == 0 -> same (along x y t) x.
Proof. intros E. unfold same, along. cbn. rewrite E. split; ring. Qed.
Lemma along_one x y t : t == 1 -> same (along x y t) y.
Proof. intros E. unfold same, along. cbn. rewrite E. split; ring. Qed.
Lemma along_eq x y t u : t == u -> same (along x y t) (along x y u).
Proof. intros E. unfold same, along. cbn. rewrite E. split; ring. Qed.
Lemma along_same x y x' y' t : same x x' -> same y y' -> same (along x y t) (along x' y' t).
Proof. intros [A B] [C D]. unfold same, along. cbn. rewrite A, B, C, D. split; ring. Qed.
Lemma dist2_same x x' y y' : same x x' -> same y y' -> dist2 x y == dist2 x' y'.
Proof. intros [A B] [C D]. unfold dist2. rewrite A, B, C, D. reflexivity. Qed.
Lemma near_same x x' y y' r : same x x' -> same y y' -> near x y r -> near x' y' r.
Proof. intros A B N. unfold near in *. rewrite <- (dist2_same _ _ _ _ A B). done. Qed.
Lemma dist2_refl x : dist2 x x == 0.
Proof. unfold dist2. ring. Qed.
Lemma near_refl x r : 0 < r -> near x x r.
Proof. intros R. unfold near. rewrite dist2_refl. nra. Qed.
Lemma near_comm x y r : near x y r -> near y x r.
Proof. unfold near, dist2. lra. Qed.
Lemma between_same x y w w' : same w w' -> between x y w -> between x y w'.
Proof. rewrite !between_along. intros S (t & T & E). exists t. split; [done|]. eapply same_trans; [apply same_sym, S|exact E]. Qed.
Lemma between_ends x y x' y' w : same x x' -> same y y' -> between x y w -> between x' y' w.
Proof. rewrite !between_along. intros A B (t & T & E). exists t. split; [done|]. eapply same_trans; [exact E|]. by apply along_same. Qed.
Lemma between_start x y : between x y x.
Proof. apply between_along. exists 0. split; [lra|]. apply same_sym, along_zero. reflexivity. Qed.
Lemma between_end x y : between x y y.
Proof. apply between_along. exists 1. split; [lra|]. apply same_sym, along_one. reflexivity. Qed.
Lemma between_rev x y w : between x y w -> between y x w.
Proof. rewrite !between_along. intros (t & T & A & B). exists (1 - t). split; [lra|]. unfold same, along in *. cbn in *. rewrite A, B. split; ring. Qed.
(** Parts of a segment. *)
Lemma along_along x y t u s : same (along (along x y t) (along x y u) s) (along x y (t + s * (u - t))).
Proof. unfold same, along. cbn. split; ring. Qed.
Lemma part_in x y t u w v v' : t <= u -> same v (along x y t) -> same v' (along x y u) -> between v v' w -> exists s, t <= s <= u /\ same w (along x y s).
Proof.
  rewrite between_along. intros L A B (s & S & E). exists (t + s * (u - t)). split; [split; nra|]. eapply same_trans; [exact E|]. eapply same_trans; [exact (along_same _ _ _ _ s A B)|]. apply along_along.
Qed.
Lemma in_part x y t u s w v v' : t < u -> same v (along x y t) -> same v' (along x y u) -> t <= s <= u -> same w (along x y s) -> between v v' w.
Proof.
  intros L A B S E. apply between_along. assert (D : ~ u - t == 0) by lra. exists ((s - t) / (u - t)). split.
  - split; [apply Qle_shift_div_l; lra|apply Qle_shift_div_r; lra].
  - eapply same_trans; [exact E|]. apply same_sym. eapply same_trans; [exact (along_same _ _ _ _ _ A B)|]. eapply same_trans; [apply along_along|]. apply along_eq. field. done.
Qed.
(** The direction determinant of a segment and a line. *)
Definition det (x y xa xb : vect) : Q := (fst y - fst x) * (snd xb - snd xa) - (snd y - snd x) * (fst xb - fst xa).
Lemma one_meet x y xa xb t u t' u' : ~ det x y xa xb == 0 -> same (along x y t) (along xa xb u) -> same (along x y t') (along xa xb u') -> t == t' /\ u == u'.
Proof.
  unfold same, along, det. cbn. intros D [A B] [A' B'].
  assert (E1 : (t - t') * (fst y - fst x) == (u - u') * (fst xb - fst xa)) by lra.
  assert (E2 : (t - t') * (snd y - snd x) == (u - u') * (snd xb - snd xa)) by lra.
  set (p := fst y - fst x) in *. set (q := snd y - snd x) in *. set (r := fst xb - fst xa) in *. set (s := snd xb - snd xa) in *.
  assert (F1 : (t - t') * (p * s - q * r) == 0). { transitivity ((t - t') * p * s - (t - t') * q * r); [ring|]. rewrite E1, E2. ring. }
  assert (F2 : (u - u') * (p * s - q * r) == 0). { transitivity (p * ((u - u') * s) - q * ((u - u') * r)); [ring|]. rewrite <- E1, <- E2. ring. }
  apply Qmult_integral in F1 as [F1|F1]; [|by destruct D]. apply Qmult_integral in F2 as [F2|F2]; [|by destruct D]. split; lra.
Qed.
Lemma isec_sound x y xa xb t0 t1 : seg_intersection (vminus y x) x xa xb = Some (t0, t1) ->
  (1 # 10000000000) < t0 < 1 - (1 # 10000000000) /\ (1 # 10000000000) < t1 < 1 - (1 # 10000000000) /\ same (along x y t0) (along xa xb t1) /\ ~ det x y xa xb == 0.
Proof.
  intros H. assert (P : ~ det x y xa xb == 0).
  { intros D. assert (N : seg_intersection (vminus y x) x xa xb = None); [|by rewrite N in H]. apply C14_parallel_none. unfold parallel, vsub, vminus. cbn. unfold det in D. lra. }
  destruct (C14_intersection_sound _ _ _ _ _ _ H) as (A & B & C1 & C2). split; [exact A|]. split; [exact B|]. split; [|done].
  unfold point_at, vminus in C1, C2. cbn in C1, C2. unfold same, along. cbn. rewrite <- C1, <- C2. split; ring.
Qed.
Lemma isec_none x y xa xb t0 t1 : seg_intersection (vminus y x) x xa xb = None -> ~ det x y xa xb == 0 -> same (along x y t0) (along xa xb t1) ->
  ~ ((1 # 10000000000) < t0 < 1 - (1 # 10000000000)) \/ ~ ((1 # 10000000000) < t1 < 1 - (1 # 10000000000)).
Proof.
  intros H D [E1 E2]. destruct (Qlt_le_dec (1 # 10000000000) t0) as [A1|A1]; [|left; lra]. destruct (Qlt_le_dec t0 (1 - (1 # 10000000000))) as [A2|A2]; [|left; lra].
  destruct (Qlt_le_dec (1 # 10000000000) t1) as [B1|B1]; [|right; lra]. destruct (Qlt_le_dec t1 (1 - (1 # 10000000000))) as [B2|B2]; [|right; lra]. exfalso.
  destruct (C14_intersection_complete (vminus y x) x xa xb t0 t1) as (s0 & s1 & X & _); [|by split|by split| |by rewrite X in H].
  - unfold parallel, vsub, vminus. cbn. unfold det in D. lra.
  - unfold pt_eq, point_at, vminus. cbn. unfold along in E1, E2. cbn in E1, E2. rewrite <- E1, <- E2. split; ring.
Qed.
(** On one line. *)
Lemma one_line x y xa xb t u : det x y xa xb == 0 -> ~ same xa xb -> same (along x y t) (along xa xb u) ->
  exists p q, same x (along xa xb p) /\ same y (along xa xb q) /\ u == p + t * (q - p).
Proof.
  unfold det, same, along. cbn. intros D N [A B]. assert (K : exists k, fst y - fst x == k * (fst xb - fst xa) /\ snd y - snd x == k * (snd xb - snd xa)).
  { destruct (Qeq_dec (fst xb - fst xa) 0) as [Z|Z].
    - assert (Z2 : ~ snd xb - snd xa == 0) by (intros Z2; apply N; split; lra). exists ((snd y - snd x) / (snd xb - snd xa)). split; [|field; done].
      rewrite Z in D |- *. assert (X : (fst y - fst x) * (snd xb - snd xa) == 0) by (rewrite <- D; ring). apply Qmult_integral in X as [X|X]; [rewrite X; ring|done].
    - exists ((fst y - fst x) / (fst xb - fst xa)). split; [field; done|]. assert (X : (fst y - fst x) * (snd xb - snd xa) == (snd y - snd x) * (fst xb - fst xa)) by lra.
      apply (Qmult_inj_r _ _ (fst xb - fst xa) Z). rewrite <- X. field. done. }
  destruct K as (k & K1 & K2). exists (u - t * k), (u - t * k + k). split; [|split; [|ring]].
  - split.
    + assert (X : fst x == fst xa + u * (fst xb - fst xa) - t * (fst y - fst x)) by lra. rewrite X, K1. ring.
    + assert (X : snd x == snd xa + u * (snd xb - snd xa) - t * (snd y - snd x)) by lra. rewrite X, K2. ring.
  - split.
    + assert (X : fst y == fst xa + u * (fst xb - fst xa) - t * (fst y - fst x) + (fst y - fst x)) by lra. rewrite X, K1. ring.
    + assert (X : snd y == snd xa + u * (snd xb - snd xa) - t * (snd y - snd x) + (snd y - snd x)) by lra. rewrite X, K2. ring.
Qed.
Lemma line_cases p q t u : 0 <= t <= 1 -> 0 <= u <= 1 -> u == p + t * (q - p) -> ~ p == q ->
  (0 <= p <= 1 -> p == 0 \/ p == 1) -> (0 <= q <= 1 -> q == 0 \/ q == 1) -> (p <= 0 <= q \/ q <= 0 <= p -> p == 0 \/ q == 0) -> (p <= 1 <= q \/ q <= 1 <= p -> p == 1 \/ q == 1) ->
  ((u == 0 \/ u == 1) /\ (u == p \/ u == q)) \/ (p == 0 /\ q == 1) \/ (p == 1 /\ q == 0).
Proof.
  intros T U E N H1 H2 H3 H4. assert (BT : p <= u <= q \/ q <= u <= p). { destruct (Qlt_le_dec p q) as [L|L]; [left|right]; split; nra. }
  assert (Hp : p < 0 \/ p == 0 \/ p == 1 \/ 1 < p). { destruct (Qlt_le_dec p 0); [auto|]. destruct (Qlt_le_dec 1 p); [auto|]. destruct (H1 (conj q0 q1)); auto. }
  assert (Hq : q < 0 \/ q == 0 \/ q == 1 \/ 1 < q). { destruct (Qlt_le_dec q 0); [auto|]. destruct (Qlt_le_dec 1 q); [auto|]. destruct (H2 (conj q0 q1)); auto. }
  destruct Hp as [Hp|[Hp|[Hp|Hp]]]; destruct Hq as [Hq|[Hq|[Hq|Hq]]]; try (exfalso; lra); try (right; lra); try (left; lra).
  all: first [destruct H3; [lra|exfalso; lra|exfalso; lra]|destruct H4; [lra|exfalso; lra|exfalso; lra]|idtac].
Qed.
