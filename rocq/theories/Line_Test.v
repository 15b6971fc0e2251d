(** Tests of the hypotheses about adding a line, for examples. *)
From stdpp Require Import gmap list.
From Coq Require Import QArith Lqa Qminmax.
From Verif Require Import Decomp_Model Decomp_Spec Decomp_Inv Decomp_Good Decomp_Plane.
From Verif Require Import Aabb_Model Aabb_Spec Editor_Model Editor_Spec Editor_Proofs Editor_Plane Editor_Box Geom_Model Snap_Model Snap_Spec Snap_Proofs Snap_Cand Snap_Plane.
From Verif Require Import Line_Model Line_Spec Line_Geo.
Local Open Scope nat_scope.

(** Where the lines of two segments meet (polygons.py lines 722-753). *)
Definition meet (x y x' y' : vect) : option (Q * Q) := let D := det x y x' y' in
  if Qeq_bool D 0 then None
  else Some (((fst x' - fst x) * (snd y' - snd x') - (snd x' - snd x) * (fst y' - fst x')) / D, ((fst x' - fst x) * (snd y - snd x) - (snd x' - snd x) * (fst y - fst x)) / D)%Q.
Lemma meet_ok x y x' y' t u s q : meet x y x' y' = Some (t, u) -> same (along x y s) (along x' y' q) -> (s == t /\ q == u)%Q.
Proof.
  unfold meet. destruct (Qeq_bool _ 0) eqn:D; [done|]. apply Qeq_bool_neq in D. intros E. injection E as <- <-. unfold same, along, det in *. cbn. intros [E1 E2].
  set (dx := (fst y - fst x)%Q) in *. set (dy := (snd y - snd x)%Q) in *. set (ex := (fst y' - fst x')%Q) in *. set (ey := (snd y' - snd x')%Q) in *.
  assert (F1 : (fst x' - fst x == s * dx - q * ex)%Q) by lra. assert (F2 : (snd x' - snd x == s * dy - q * ey)%Q) by lra. rewrite F1, F2. split; field; done.
Qed.
Lemma meet_none x y x' y' : meet x y x' y' = None -> (det x y x' y' == 0)%Q.
Proof. unfold meet. destruct (Qeq_bool _ 0) eqn:D; [|done]. intros _. by apply Qeq_bool_iff. Qed.
(** A number outside of 0..1; one of its ends (polygons.py lines 749-753). *)
Definition out_b (t : Q) : bool := negb (Qle_bool 0 t && Qle_bool t 1).
Definition end_b (t : Q) : bool := Qeq_bool t 0 || Qeq_bool t 1. (* polygons.py lines 749-753 *)
Lemma out_ok t s : (s == t)%Q -> out_b t = true -> ~ (0 <= s <= 1)%Q.
Proof. unfold out_b. rewrite negb_true_iff, andb_false_iff. intros E [H|H] [S1 S2]; apply not_true_iff_false in H; apply H; apply Qle_bool_iff; lra. Qed.
Lemma end_ok x y t s w : (s == t)%Q -> end_b t = true -> same w (along x y s) -> same w x \/ same w y.
Proof.
  unfold end_b. rewrite orb_true_iff. intros E [H|H] S; apply Qeq_bool_iff in H; [left|right]; (eapply same_trans; [exact S|]); [apply along_zero|apply along_one]; lra.
Qed.
(** All of a, b is below all of a', b'. *)
Definition below_b (a b a' b' : Q) : bool := negb (Qle_bool a' a) && negb (Qle_bool b' a) && negb (Qle_bool a' b) && negb (Qle_bool b' b). (* aabb_lookup.py lines 100-105 *)
(** The boxes of two segments are apart (aabb_lookup.py lines 100-105). *)
Definition sep_b (x y x' y' : vect) : bool := below_b (fst x) (fst y) (fst x') (fst y') || below_b (fst x') (fst y') (fst x) (fst y) ||
  below_b (snd x) (snd y) (snd x') (snd y') || below_b (snd x') (snd y') (snd x) (snd y).
Lemma below_ok a b a' b' t u : below_b a b a' b' = true -> (0 <= t <= 1)%Q -> (0 <= u <= 1)%Q -> ~ (a + t * (b - a) == a' + u * (b' - a'))%Q.
Proof.
  unfold below_b. rewrite !andb_true_iff, !not_le. intros [[[H1 H2] H3] H4] T U E.
  assert (A : (a + t * (b - a) == (1 - t) * a + t * b)%Q) by ring. assert (B : (a' + u * (b' - a') == (1 - u) * a' + u * b')%Q) by ring. rewrite A, B in E. clear A B.
  set (m := Qmax a b). set (k := Qmin a' b'). assert (MK : (m < k)%Q). { unfold m, k. apply Q.max_case; [intros ? ? Q1; by rewrite Q1| |]; (apply Q.min_case; [intros ? ? Q1; by rewrite Q1|lra|lra]). }
  assert (A1 := Q.le_max_l a b). assert (A2 := Q.le_max_r a b). assert (B1 := Q.le_min_l a' b'). assert (B2 := Q.le_min_r a' b'). fold m in A1, A2. fold k in B1, B2.
  assert (P1 : (0 <= (1 - t) * (m - a))%Q) by (apply Qmult_le_0_compat; lra). assert (P2 : (0 <= t * (m - b))%Q) by (apply Qmult_le_0_compat; lra).
  assert (P3 : (0 <= (1 - u) * (a' - k))%Q) by (apply Qmult_le_0_compat; lra). assert (P4 : (0 <= u * (b' - k))%Q) by (apply Qmult_le_0_compat; lra). lra.
Qed.
Lemma sep_ok x y x' y' t u : sep_b x y x' y' = true -> (0 <= t <= 1)%Q -> (0 <= u <= 1)%Q -> ~ same (along x y t) (along x' y' u).
Proof.
  unfold sep_b, same, along. rewrite !orb_true_iff. cbn [fst snd]. intros [[[H|H]|H]|H] T U [E1 E2].
  - exact (below_ok _ _ _ _ t u H T U E1).
  - symmetry in E1. exact (below_ok _ _ _ _ u t H U T E1).
  - exact (below_ok _ _ _ _ t u H T U E2).
  - symmetry in E2. exact (below_ok _ _ _ _ u t H U T E2).
Qed.
(** Test of [planar] (polygons.py lines 722-753). *)
Definition planar_b (s : st) : bool := let l := map_to_list (vec s) in forallb (fun i => forallb (fun j => (fst i =? fst j) ||
  match ends_b s (fst i), ends_b s (fst j) with
  | Some (x, y), Some (x', y') => sep_b x y x' y' || match meet x y x' y' with Some (t, u) => out_b t || out_b u || (end_b t && end_b u) | None => false end
  | _, _ => false
  end) l) l.
Lemma planar_ok s : inv s -> planar_b s = true -> planar s.
Proof.
  intros I H g h x y x' y' w NE E E' B B'. unfold planar_b in H. rewrite forallb_forall in H. destruct (seg_live _ _ _ _ I E) as [v L]. specialize (H (g, v) (proj1 (elem_of_list_In _ _) (proj2 (elem_of_map_to_list _ _ _) L))).
  rewrite forallb_forall in H. destruct (seg_live _ _ _ _ I E') as [v' L']. specialize (H (h, v') (proj1 (elem_of_list_In _ _) (proj2 (elem_of_map_to_list _ _ _) L'))). cbn [fst snd] in H.
  apply orb_true_iff in H as [H|H]; [by apply Nat.eqb_eq in H|]. rewrite (ends_b_ok _ _ _ _ E), (ends_b_ok _ _ _ _ E') in H.
  apply between_along in B as (t & T & S). apply between_along in B' as (u & U & S'). assert (M : same (along x y t) (along x' y' u)) by (eapply same_trans; [apply same_sym, S|exact S']).
  apply orb_true_iff in H as [H|H]; [exfalso; exact (sep_ok _ _ _ _ t u H T U M)|]. destruct (meet x y x' y') as [[t0 u0]|] eqn:ME; [|done]. destruct (meet_ok _ _ _ _ _ _ _ _ ME M) as [Q1 Q2].
  apply orb_true_iff in H as [H|H]; [apply orb_true_iff in H as [H|H]; exfalso; [by eapply (out_ok t0 t)|by eapply (out_ok u0 u)]|]. apply andb_true_iff in H as [H1 H2]. split; [exact (end_ok _ _ _ _ _ Q1 H1 S)|exact (end_ok _ _ _ _ _ Q2 H2 S')].
Qed.
(** Test that vertices are the tolerance away from the line (polygons.py lines 485-490). *)
Definition vertices_b (d : ed) (a b : nat) (xa xb : vect) : bool :=
  forallb (fun i => match project (vminus xb xa) xa (snd i) with Some t => (fst i =? a) || (fst i =? b) || Qle_bool (tolerance d * tolerance d) (dist2 (snd i) (along xa xb t)) | None => false end) (map_to_list (xy <$> points (dec d))).
Lemma vertices_ok d a b xa xb : vertices_b d a b xa xb = true -> forall g c p w z, vtx (dec d) !! (g, c) = Some p -> p <> a -> p <> b -> is_at (dec d) p w -> between xa xb z -> ~ near w z (tolerance d).
Proof.
  intros H6 g c p w z G NA NB A BT N. unfold vertices_b in H6. rewrite forallb_forall in H6. specialize (H6 (p, w) (proj1 (elem_of_list_In _ _) (proj2 (elem_of_map_to_list _ _ _) A))). cbn [fst snd] in H6.
  destruct (project _ _ _) as [t|] eqn:PR; [|done]. rewrite !orb_true_iff, !Nat.eqb_eq in H6. destruct H6 as [[Q|Q]|Q]; [done|done|]. apply Qle_bool_iff in Q. destruct (project_nearest _ _ _ _ PR) as [_ NE]. specialize (NE z BT). unfold near in N. lra.
Qed.
(** Test that a place is not on a segment (polygons.py lines 697-720). *)
Definition blank_b (s : st) (w : vect) : bool := forallb (fun i => match ends_b s (fst (fst i)) with
  | Some (x, y) => sep_b x y w w || negb (Qeq_bool ((fst y - fst x) * (snd w - snd x)) ((snd y - snd x) * (fst w - fst x))) | None => false end) (map_to_list (vtx s)).
Lemma blank_ok s w : blank_b s w = true -> ~ drawn s w.
Proof.
  intros H (g & x & y & E & B). unfold blank_b in H. rewrite forallb_forall in H. assert (E0 := E). destruct E0 as (p & q & L & _). specialize (H ((g, false), p) (proj1 (elem_of_list_In _ _) (proj2 (elem_of_map_to_list _ _ _) L))). cbn [fst] in H.
  rewrite (ends_b_ok _ _ _ _ E) in H. apply between_along in B as (t & T & S). change (same w (along x y t)) in S. apply orb_true_iff in H as [H|H].
  - apply (sep_ok x y w w t 0 H T); [lra|]. apply same_sym. eapply same_trans; [apply along_zero; reflexivity|exact S].
  - apply negb_true_iff, Qeq_bool_neq in H. apply H. destruct S as [S1 S2]. unfold along in *. cbn in *. rewrite S1, S2. ring.
Qed.
(** Tests of the crossings and lengths (polygons.py lines 742-753). *)
Definition apart_line_b (d : ed) (xa xb : vect) : bool := let l := map_to_list (vec (dec d)) in
  forallb (fun i => forallb (fun j => (fst i =? fst j) || match ends_b (dec d) (fst i), ends_b (dec d) (fst j) with
    | Some (x, y), Some (x', y') => match meet x y xa xb, meet x' y' xa xb with
                                    | Some (t, u), Some (t', u') => out_b t || out_b t' || out_b u || out_b u' || Qle_bool (tolerance d * tolerance d) ((u - u') * (u - u') * dist2 xa xb)%Q
                                    | _, _ => true
                                    end
    | _, _ => false
    end) l) l.
Definition short_b (d : ed) : bool := (* polygons.py lines 742-753 *)
  forallb (fun i => match ends_b (dec d) (fst i) with Some (x, y) => negb (Qle_bool (tolerance d * tolerance d) ((1 # 10000000000) * (1 # 10000000000) * dist2 x y)%Q) | None => false end) (map_to_list (vec (dec d))).
Lemma apart_line_ok d xa xb : inv (dec d) -> apart_line_b d xa xb = true -> forall g h w z, crosses (dec d) g xa xb w -> crosses (dec d) h xa xb z -> near w z (tolerance d) -> g = h.
Proof.
  intros I H8 g h w z (x & y & E & (B1 & _) & (B2 & _) & D1) (x' & y' & E' & (B1' & _) & (B2' & _) & D1') N. unfold apart_line_b in H8. rewrite forallb_forall in H8. destruct (seg_live _ _ _ _ I E) as [v L]. specialize (H8 (g, v) (proj1 (elem_of_list_In _ _) (proj2 (elem_of_map_to_list _ _ _) L))).
  rewrite forallb_forall in H8. destruct (seg_live _ _ _ _ I E') as [v' L']. specialize (H8 (h, v') (proj1 (elem_of_list_In _ _) (proj2 (elem_of_map_to_list _ _ _) L'))). cbn [fst snd] in H8.
  apply orb_true_iff in H8 as [H|H]; [by apply Nat.eqb_eq in H|]. exfalso. rewrite (ends_b_ok _ _ _ _ E), (ends_b_ok _ _ _ _ E') in H.
  apply between_along in B1 as (t & T & S). apply between_along in B1' as (t' & T' & S'). apply between_along in B2 as (u & U & R). apply between_along in B2' as (u' & U' & R').
  destruct (meet x y xa xb) as [[t0 u0]|] eqn:ME; [|apply meet_none in ME; unfold det in ME; lra]. destruct (meet x' y' xa xb) as [[t1 u1]|] eqn:ME'; [|apply meet_none in ME'; unfold det in ME'; lra].
  destruct (meet_ok _ _ _ _ _ _ t u ME) as [Q1 Q2]; [eapply same_trans; [apply same_sym, S|exact R]|]. destruct (meet_ok _ _ _ _ _ _ t' u' ME') as [Q3 Q4]; [eapply same_trans; [apply same_sym, S'|exact R']|].
  rewrite !orb_true_iff in H. destruct H as [[[[H|H]|H]|H]|H]; [by eapply (out_ok t0 t)|by eapply (out_ok t1 t')|by eapply (out_ok u0 u)|by eapply (out_ok u1 u')|].
  apply Qle_bool_iff in H. unfold near in N. rewrite (dist2_same w (along xa xb u) z (along xa xb u') R R') in N. assert (EQ : (dist2 (along xa xb u) (along xa xb u') == (u0 - u1) * (u0 - u1) * dist2 xa xb)%Q). { rewrite <- Q2, <- Q4. unfold dist2, along. cbn. ring. } lra.
Qed.
Lemma short_ok d : inv (dec d) -> short_b d = true -> forall g x y, ends (dec d) g x y -> ((1 # 10000000000) * (1 # 10000000000) * dist2 x y < tolerance d * tolerance d)%Q.
Proof.
  intros I H7 g x y E. unfold short_b in H7. rewrite forallb_forall in H7. destruct (seg_live _ _ _ _ I E) as [v L]. specialize (H7 (g, v) (proj1 (elem_of_list_In _ _) (proj2 (elem_of_map_to_list _ _ _) L))). cbn [fst] in H7. rewrite (ends_b_ok _ _ _ _ E) in H7. by apply not_le.
Qed.
(** Test of [clean] (polygons.py lines 480-502, 742-753). *)
Definition clean_b (d : ed) (a b : nat) (xa xb : vect) : bool :=
  clear_b d && negb (Qeq_bool (fst xa) (fst xb) && Qeq_bool (snd xa) (snd xb)) && negb (Qle_bool (tolerance d * tolerance d) ((1 # 10000000000) * (1 # 10000000000) * dist2 xa xb)%Q) &&
  vertices_b d a b xa xb && short_b d && apart_line_b d xa xb.
Lemma clean_ok d a b xa xb : inv (dec d) -> vec_ok (dec d) -> no_zero (dec d) -> is_at (dec d) a xa -> is_at (dec d) b xb -> clean_b d a b xa xb = true -> clean d a b xa xb.
Proof.
  intros I V Z H2 H3 H. unfold clean_b in H. repeat rewrite andb_true_iff in H. destruct H as [[[[[H1 H4] H5] H6] H7] H8]. rewrite not_le in H5. assert (CL := clear_ok d I V Z H1). split.
  - by apply vertices_ok.
  - intros g G. exact (CL a xa g H2 G).
  - intros g G. exact (CL b xb g H3 G).
  - by apply apart_line_ok.
  - by apply short_ok.
  - intros [S1 S2]. apply Qeq_bool_iff in S1, S2. by rewrite S1, S2 in H4.
  - done.
Qed.
(** Test that no point is near (polygons.py lines 371-374). *)
Definition far_b (d : ed) (z : vect) : bool := forallb (fun i => Qle_bool (tolerance d * tolerance d) (dist2 z (snd i))) (map_to_list (xy <$> points (dec d))).
Lemma far_ok d z : far_b d z = true -> forall p v, is_at (dec d) p v -> ~ near z v (tolerance d).
Proof.
  intros H p v A N. unfold far_b in H. rewrite forallb_forall in H. specialize (H (p, v) (proj1 (elem_of_list_In _ _) (proj2 (elem_of_map_to_list _ _ _) A))). apply Qle_bool_iff in H. cbn in H. unfold near in N. lra.
Qed.
(** Test of [lonely], with ids that are not used (polygons.py lines 443-502, 742-753). *)
Definition lonely_line_b (d : ed) (p g : nat) (xa xb : vect) : bool :=
  negb (bool_decide (is_Some (points (dec d) !! p))) && negb (bool_decide (is_Some (vec (dec d) !! g))) && far_b d xa && far_b d xb && lonely_b d xa g && lonely_b d xb g && vertices_b d p p xa xb && apart_line_b d xa xb && short_b d &&
  Qle_bool (tolerance d * tolerance d) (dist2 xa xb) && negb (Qle_bool (tolerance d * tolerance d) ((1 # 10000000000) * (1 # 10000000000) * dist2 xa xb)%Q).
Lemma lonely_line_ok d p g xa xb : inv (dec d) -> vec_ok (dec d) -> no_zero (dec d) -> lonely_line_b d p g xa xb = true -> lonely d xa xb.
Proof.
  intros I V Z H. unfold lonely_line_b in H. repeat rewrite andb_true_iff in H. destruct H as [[[[[[[[[[H1 H2] H3] H4] H5] H6] H7] H8] H9] H10] H11]. apply negb_true_iff, bool_decide_eq_false in H1, H2. rewrite not_le in H11. apply Qle_bool_iff in H10.
  assert (PS : forall z, lonely_b d z g = true -> forall g', ~ passes (dec d) z (tolerance d) g'). { intros z LB g' G. assert (g' = g) as -> by exact (lonely_ok d z g I V Z LB g' G). destruct G as (x & y & w & E & _). apply H2. exact (seg_live _ _ _ _ I E). }
  split.
  - intros q v A. split; [exact (far_ok d xa H3 q v A)|exact (far_ok d xb H4 q v A)].
  - intros g'. split; [by apply PS|by apply PS].
  - intros g' c q w z G A BT. assert (D : q <> p). { intros ->. apply H1. unfold is_at in A. rewrite lookup_fmap in A. destruct (points (dec d) !! p); [eauto|done]. } exact (vertices_ok d p p xa xb H7 g' c q w z G D D A BT).
  - by apply apart_line_ok.
  - by apply short_ok.
  - unfold near. lra.
  - done.
Qed.
