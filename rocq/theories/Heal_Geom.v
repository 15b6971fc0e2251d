(** Proofs about heal_mesh.py: volumes, qualities, tolerance. *)
From stdpp Require Import gmap.
From Coq Require Import ZArith QArith Qpower Qreals Reals Lra Lia Psatz.
From Verif Require Import Heal_Model Heal_Spec Heal_Proofs Heal_Loop Heal_Term Heal_Run Heal_Merge.
Local Open Scope Z_scope.
Local Notation length := List.length.

(** * Volumes *)
Lemma tetra_edge ps i j A B P t V : tetra_measure ps = Some V -> ps !! i = Some A -> ps !! j = Some B -> i <> j -> on_line t A B P ->
  exists V1 V2, tetra_measure (<[i := P]> ps) = Some V1 /\ tetra_measure (<[j := P]> ps) = Some V2 /\ (V1 + V2 == V)%Q.
Proof.
  destruct ps as [|a [|b [|c [|d [|? ?]]]]]; try discriminate. intros [= <-] Hi Hj N H.
  destruct i as [|[|[|[|i]]]], j as [|[|[|[|j]]]]; try congruence; cbn in Hi, Hj; try discriminate;
    injection Hi as <-; injection Hj as <-; clear N; cbn [list_insert insert tetra_measure]; do 2 eexists; (split; [reflexivity|]); (split; [reflexivity|]);
    destruct a as [[a1 a2] a3], b as [[b1 b2] b3], c as [[c1 c2] c3], d as [[d1 d2] d3], P as [[p1 p2] p3]; cbn in H |- *; destruct H as (-> & -> & ->); field.
Qed.
Lemma tetra_face ps i j k A B C P u v w V : tetra_measure ps = Some V -> ps !! i = Some A -> ps !! j = Some B -> ps !! k = Some C ->
  i <> j -> i <> k -> j <> k -> (u + v + w == 1)%Q -> same P (comb3 u v w A B C) ->
  exists V1 V2 V3, tetra_measure (<[i := P]> ps) = Some V1 /\ tetra_measure (<[j := P]> ps) = Some V2 /\
    tetra_measure (<[k := P]> ps) = Some V3 /\ (V1 + V2 + V3 == V)%Q.
Proof.
  destruct ps as [|a [|b [|c [|d [|? ?]]]]]; try discriminate. intros [= <-] Hi Hj Hk N1 N2 N3 S H.
  assert (W : (w == 1 - u - v)%Q) by (rewrite <- S; ring).
  destruct i as [|[|[|[|i]]]], j as [|[|[|[|j]]]], k as [|[|[|[|k]]]]; try congruence; cbn in Hi, Hj, Hk; try discriminate;
    injection Hi as <-; injection Hj as <-; injection Hk as <-; clear N1 N2 N3; cbn [list_insert insert tetra_measure]; do 3 eexists;
    (split; [reflexivity|]); (split; [reflexivity|]); (split; [reflexivity|]);
    destruct a as [[a1 a2] a3], b as [[b1 b2] b3], c as [[c1 c2] c3], d as [[d1 d2] d3], P as [[p1 p2] p3]; cbn in H |- *; destruct H as (-> & -> & ->); rewrite W; field.
Qed.
(** Multiple of a vector. *)
Definition times (t : Q) (p : pt) : pt := let '(x, y, z) := p in (t * x, t * y, t * z)%Q.
Lemma tria_vectors ps i j A B P t V : tria_vector ps = Some V -> ps !! i = Some A -> ps !! j = Some B -> i <> j -> on_line t A B P ->
  exists V1 V2, tria_vector (<[i := P]> ps) = Some V1 /\ tria_vector (<[j := P]> ps) = Some V2 /\ same V1 (times (1 - t) V) /\ same V2 (times t V).
Proof.
  destruct ps as [|a [|b [|c [|? ?]]]]; try discriminate. intros [= <-] Hi Hj N H.
  destruct i as [|[|[|i]]], j as [|[|[|j]]]; try congruence; cbn in Hi, Hj; try discriminate;
    injection Hi as <-; injection Hj as <-; clear N; cbn [list_insert insert tria_vector]; do 2 eexists; (split; [reflexivity|]); (split; [reflexivity|]);
    destruct a as [[a1 a2] a3], b as [[b1 b2] b3], c as [[c1 c2] c3], P as [[p1 p2] p3]; cbn in H |- *; destruct H as (-> & -> & ->);
    (split; (split; [|split]); ring).
Qed.
Lemma dot_times t v w : same w (times t v) -> (dot w w == t * t * dot v v)%Q.
Proof. destruct v as [[x y] z], w as [[x' y'] z']. cbn. intros (-> & -> & ->). ring. Qed.
Lemma dot_nonneg v : (0 <= dot v v)%Q.
Proof. destruct v as [[x y] z]. cbn. assert (forall q : Q, (0 <= q * q)%Q). { intros [n d]. unfold Qle. cbn. nia. } pose proof (H x). pose proof (H y). pose proof (H z). Lqa.lra. Qed.
Lemma sqrt_times t v w : (0 <= t)%Q -> same w (times t v) -> (sqrt (Q2R (dot w w)) = Q2R t * sqrt (Q2R (dot v v)))%R.
Proof.
  intros Ht H. apply dot_times in H. apply Qeq_eqR in H. rewrite H, !Q2R_mult.
  assert (0 <= Q2R t)%R. { apply Qle_Rle in Ht. rewrite RMicromega.Q2R_0 in Ht. auto. }
  assert (0 <= Q2R (dot v v))%R. { pose proof (dot_nonneg v) as D. apply Qle_Rle in D. rewrite RMicromega.Q2R_0 in D. auto. }
  rewrite sqrt_mult; auto; [|nra]. rewrite sqrt_square; auto.
Qed.
Lemma tria_edge ps i j A B P t V : tria_measure ps = Some V -> ps !! i = Some A -> ps !! j = Some B -> i <> j -> (0 <= t <= 1)%Q -> on_line t A B P ->
  exists V1 V2, tria_measure (<[i := P]> ps) = Some V1 /\ tria_measure (<[j := P]> ps) = Some V2 /\ (V1 + V2 = V)%R.
Proof.
  unfold tria_measure. destruct (tria_vector ps) as [v|] eqn:E; [|discriminate]. intros [= <-] Hi Hj N Ht H.
  destruct (tria_vectors ps i j A B P t v E Hi Hj N H) as (v1 & v2 & E1 & E2 & S1 & S2). rewrite E1, E2. do 2 eexists. split; [reflexivity|].
  split; [reflexivity|]. rewrite (sqrt_times (1 - t) v v1) by (auto; Lqa.lra). rewrite (sqrt_times t v v2) by (auto; tauto).
  rewrite Q2R_minus. replace (Q2R 1) with 1%R by (unfold Q2R; cbn; lra). lra.
Qed.
Lemma points_insert s ns ps k n p : points s ns = Some ps -> nodes s !! n = Some p -> points s (<[k := n]> ns) = Some (<[k := p]> ps).
Proof.
  unfold points. rewrite insert_length. destruct (_ && _); [|discriminate]. intros H Hn. apply mapM_Some in H. apply mapM_Some.
  apply Forall2_insert; auto.
Qed.
Lemma points_lookup s ns ps k n : points s ns = Some ps -> ns !! k = Some n -> exists p, nodes s !! n = Some p /\ ps !! k = Some p.
Proof.
  unfold points. destruct (_ && _); [|discriminate]. intros H Hk. apply mapM_Some in H.
  destruct (Forall2_lookup_l _ _ _ _ _ H Hk) as (p & A & B). eauto.
Qed.
Lemma points_same s s' ns : nodes s' = nodes s -> points s' ns = points s ns.
Proof. intros H. unfold points. rewrite H. auto. Qed.
Lemma index_of_spec v ns k : index_of v ns = Some k -> ns !! k = Some v.
Proof.
  unfold index_of. destruct (list_find _ ns) as [[k' x]|] eqn:E; [|discriminate]. intros [= <-]. apply list_find_Some in E.
  destruct E as (A & -> & _). auto.
Qed.
Lemma index_of_in v ns : v ∈ ns -> is_Some (index_of v ns).
Proof.
  intros H. unfold index_of. destruct (list_find_elem_of (fun m => m = v) ns v H eq_refl) as [r ->]. eauto.
Qed.
Section S.
Context (pick : nat -> gset Z -> list Z) (Fair : fair pick).
(** Adding at most one new id. *)
Lemma add_at_most s e r s' : inv s -> add_element pick e s = (Ok r, s') -> inv s' /\ nodes s' = nodes s /\ max_el s' <= max_el s + 1 /\
  (max_el s' = max_el s + 1 -> els s' = <[max_el s + 1 := e]> (els s)).
Proof.
  intros I E. destruct (keeps_ok any _ _ _ _ (keeps_add_element pick e) I Logic.I E) as [I' _]. split; auto.
  destruct (shaped s (e_nodes e)) eqn:Sh.
  - destruct (add_element_cases pick Fair s e I Sh) as [(k & e' & _ & _ & A)|[_ A]]; rewrite A in E; injection E as <- <-; cbn; split; auto; (split; [lia|]); auto. lia.
  - unfold add_element in E. rewrite Sh in E. discriminate.
Qed.
Lemma split_two s i ty tags ns a b p s' : inv s -> els s !! i = Some (ty, tags, ns) -> a ∈ ns -> b ∈ ns ->
  split_el pick true [a; b] p i s = (Ok tt, s') -> max_el s' = max_el s + 2 ->
  exists k l, ns !! k = Some a /\ ns !! l = Some b /\ nodes s' = nodes s /\
    els s' = <[max_el s + 2 := (ty, tags, <[l := p]> ns)]> (<[max_el s + 1 := (ty, tags, <[k := p]> ns)]> (delete i (els s))).
Proof.
  intros I E Ha Hb R Mx. unfold split_el in R.
  rewrite (E : @lookup Z (Z * list Z * list Z) (gmap Z elem) _ i (els s) = Some (ty, tags, ns)) in R.
  cbn [forallb] in R. rewrite !bool_decide_true in R by auto. cbn [andb negb] in R.
  destruct (remove_element_ok2 s i _ I E) as (s1 & R1 & I1 & El1 & Nd1 & Mx1 & Mn1). unfold bind at 1 in R. rewrite R1 in R.
  cbn [for_each] in R. destruct (index_of_in a ns Ha) as [k Hk]. destruct (index_of_in b ns Hb) as [l Hl]. rewrite Hk, Hl in R.
  apply bind_ok in R. destruct R as ([] & s2 & R2 & R). apply bind_ok in R2. destruct R2 as (r2 & s2' & A2 & R2). injection R2 as <-.
  apply bind_ok in R. destruct R as ([] & s3 & R3 & R). apply bind_ok in R3. destruct R3 as (r3 & s3' & A3 & R3). injection R3 as <-. injection R as <-.
  destruct (add_at_most _ _ _ _ I1 A2) as (I2 & Nd2 & M2 & E2). destruct (add_at_most _ _ _ _ I2 A3) as (I3 & Nd3 & M3 & E3).
  exists k, l. split; [apply index_of_spec; auto|]. split; [apply index_of_spec; auto|]. split; [congruence|].
  rewrite E3 by lia. rewrite E2 by lia. rewrite El1, Mx1. replace (max_el s2' + 1) with (max_el s + 2) by lia. auto.
Qed.
Lemma split_three s i ty tags ns a b c p s' : inv s -> els s !! i = Some (ty, tags, ns) -> a ∈ ns -> b ∈ ns -> c ∈ ns ->
  split_el pick false [a; b; c] p i s = (Ok tt, s') -> max_el s' = max_el s + 3 ->
  exists k l m, ns !! k = Some a /\ ns !! l = Some b /\ ns !! m = Some c /\ nodes s' = nodes s /\
    els s' = <[max_el s + 3 := (ty, tags, <[m := p]> ns)]> (<[max_el s + 2 := (ty, tags, <[l := p]> ns)]>
      (<[max_el s + 1 := (ty, tags, <[k := p]> ns)]> (delete i (els s)))).
Proof.
  intros I E Ha Hb Hc R Mx. unfold split_el in R.
  rewrite (E : @lookup Z (Z * list Z * list Z) (gmap Z elem) _ i (els s) = Some (ty, tags, ns)) in R.
  cbn [andb] in R.
  destruct (remove_element_ok2 s i _ I E) as (s1 & R1 & I1 & El1 & Nd1 & Mx1 & Mn1). unfold bind at 1 in R. rewrite R1 in R.
  cbn [for_each] in R. destruct (index_of_in a ns Ha) as [k Hk]. destruct (index_of_in b ns Hb) as [l Hl]. destruct (index_of_in c ns Hc) as [m Hm]. rewrite Hk, Hl, Hm in R.
  apply bind_ok in R. destruct R as ([] & s2 & R2 & R). apply bind_ok in R2. destruct R2 as (r2 & s2' & A2 & R2). injection R2 as <-.
  apply bind_ok in R. destruct R as ([] & s3 & R3 & R). apply bind_ok in R3. destruct R3 as (r3 & s3' & A3 & R3). injection R3 as <-.
  apply bind_ok in R. destruct R as ([] & s4 & R4 & R). apply bind_ok in R4. destruct R4 as (r4 & s4' & A4 & R4). injection R4 as <-. injection R as <-.
  destruct (add_at_most _ _ _ _ I1 A2) as (I2 & Nd2 & M2 & E2). destruct (add_at_most _ _ _ _ I2 A3) as (I3 & Nd3 & M3 & E3).
  destruct (add_at_most _ _ _ _ I3 A4) as (I4 & Nd4 & M4 & E4).
  exists k, l, m. split; [apply index_of_spec; auto|]. split; [apply index_of_spec; auto|]. split; [apply index_of_spec; auto|]. split; [congruence|].
  rewrite E4 by lia. rewrite E3 by lia. rewrite E2 by lia. rewrite El1, Mx1. replace (max_el s2' + 1) with (max_el s + 2) by lia.
  replace (max_el s3' + 1) with (max_el s + 3) by lia. auto.
Qed.
End S.
(** * Histogram *)
Lemma first_smaller_fin q : exists k, first_smaller (Fin q) = k /\ (k < 17)%nat /\ below (Fin q) k = true /\ forall j, (j < k)%nat -> below (Fin q) j = false.
Proof.
  unfold first_smaller. destruct (list_find _ (seq 0 17)) as [[i k]|] eqn:E.
  - apply list_find_Some in E. destruct E as (A & B & C). assert (i = k /\ (k < 17)%nat) as [<- L].
    { apply lookup_seq in A. lia. }
    exists i. split; auto. split; auto. split; auto. intros j Hj. specialize (C j j). rewrite not_true_iff_false in C. apply C; auto. apply lookup_seq. lia.
  - exfalso. apply list_find_None in E. rewrite Forall_forall in E. apply (E 16%nat); [|reflexivity]. apply elem_of_seq. lia.
Qed.
Lemma bin_pow k : (k < 16)%nat -> exists b, bin k = Some b /\ (b == 2 ^ (Z.of_nat k - 15))%Q.
Proof.
  intros H. unfold bin. apply Nat.ltb_lt in H as H'. rewrite H'. eexists. split; [reflexivity|].
  do 16 (destruct k as [|k]; [vm_compute; reflexivity|]). lia.
Qed.
Lemma first_smaller_range q : in_range (first_smaller (Fin q)) q.
Proof.
  destruct (first_smaller_fin q) as (k & -> & L & B & C). split; auto. split.
  - intros N. specialize (C (k - 1)%nat). assert (H : (k - 1 < k)%nat) by lia. specialize (C H). destruct (bin_pow (k - 1)) as (b & E & Eq); [lia|].
    unfold below in C. rewrite E in C. apply negb_false_iff, Qle_bool_iff in C. rewrite Eq in C.
    replace (Z.of_nat k - 16) with (Z.of_nat (k - 1) - 15) by lia. auto.
  - intros N. destruct (bin_pow k) as (b & E & Eq); [lia|]. unfold below in B. rewrite E in B. apply negb_true_iff in B.
    rewrite <- Eq. apply Qnot_le_lt. intros Q. apply Qle_bool_iff in Q. congruence.
Qed.
Lemma pow_le a b : a <= b -> (2 ^ a <= 2 ^ b)%Q.
Proof.
  intros H. replace b with (a + (b - a)) by lia. rewrite Qpower_plus by discriminate.
  assert (0 < 2 ^ a)%Q by (apply Qpower_0_lt; reflexivity). assert (1 <= 2 ^ (b - a))%Q.
  { replace (2 ^ (b - a))%Q with (inject_Z 2 ^ (b - a))%Q by reflexivity. rewrite <- Zpower_Qpower by lia. change 1%Q with (inject_Z 1). rewrite <- Zle_Qle.
    assert (0 < 2 ^ (b - a)) by (apply Z.pow_pos_nonneg; lia). lia. }
  rewrite <- (Qmult_1_r (2 ^ a)) at 1. apply Qmult_le_l; auto.
Qed.
Lemma in_range_unique k j q : in_range k q -> in_range j q -> k = j.
Proof.
  assert (X : forall k j, in_range k q -> in_range j q -> ~ (k < j)%nat).
  { intros k' j' (A1 & A2 & A3) (B1 & B2 & B3) L. assert (k' <> 16%nat) by lia. assert (j' <> 0%nat) by lia. specialize (A3 H). specialize (B2 H0).
    assert (2 ^ (Z.of_nat k' - 15) <= 2 ^ (Z.of_nat j' - 16))%Q by (apply pow_le; lia). Lqa.lra. }
  intros A B. pose proof (X k j A B). pose proof (X j k B A). lia.
Qed.
Lemma statistics_spec qual tol s l : forall h bad h' bad', statistics qual tol s l h bad = Some (h', bad') -> length h = 17%nat ->
  length h' = 17%nat /\
  (forall k n, h !! k = Some n -> h' !! k = Some (n + length (tally qual s (fun x => (first_smaller x =? k)%nat) l))%nat) /\
  bad' = bad ++ map fst (tally qual s (is_bad tol) l).
Proof.
  induction l as [|[i e] l IH]; intros h bad h' bad' E L; cbn [statistics] in E.
  - injection E as <- <-. cbn. split; auto. split; [|rewrite app_nil_r; auto]. intros k n H. rewrite Nat.add_0_r. auto.
  - destruct (points s (e_nodes e)) as [ps|] eqn:Ps; [|discriminate]. destruct (length (e_nodes e) <? 3)%nat eqn:D.
    + apply Nat.ltb_lt in D. assert (T : forall P, tally qual s P ((i, e) :: l) = tally qual s P l).
      { intros P. unfold tally. cbn [List.filter snd]. assert (Q : (3 <=? length (e_nodes e))%nat = false) by (apply Nat.leb_gt; lia). rewrite Q. auto. }
      rewrite !T. destruct (IH _ _ _ _ E L) as (A & B & C). split; auto. split; auto. intros k n. rewrite T. apply B.
    + apply Nat.ltb_ge in D. destruct (qual ps) as [x|] eqn:Qx; [|discriminate].
      assert (T : forall P, tally qual s P ((i, e) :: l) = if P x then (i, e) :: tally qual s P l else tally qual s P l).
      { intros P. unfold tally. cbn [List.filter snd]. assert (Q : (3 <=? length (e_nodes e))%nat = true) by (apply Nat.leb_le; lia). rewrite Q, Ps. cbn. rewrite Qx. auto. }
      destruct (IH _ _ _ _ E) as (A & B & C); [rewrite alter_length; auto|]. split; auto. split.
      * intros k n Hk. rewrite T. destruct (first_smaller x =? k)%nat eqn:F.
        -- apply Nat.eqb_eq in F. specialize (B k (S n)). rewrite B; [cbn; f_equal; lia|]. subst k. rewrite list_lookup_alter, Hk. auto.
        -- apply Nat.eqb_neq in F. apply B. rewrite list_lookup_alter_ne by auto. auto.
      * rewrite C, T. destruct (is_bad tol x); auto. cbn. rewrite <- app_assoc. auto.
Qed.
Lemma statistics_all qual tol s l : forall h bad, (forall i e, (i, e) ∈ l -> exists ps, points s (e_nodes e) = Some ps /\ ((3 <= length (e_nodes e))%nat -> is_Some (qual ps))) ->
  is_Some (statistics qual tol s l h bad).
Proof.
  induction l as [|[i e] l IH]; intros h bad H; cbn [statistics]; [eauto|].
  destruct (H i e) as (ps & -> & X); [set_solver|]. destruct (_ <? _)%nat eqn:D; [apply IH; intros j f Hj; apply (H j f); set_solver|].
  apply Nat.ltb_ge in D. destruct X as [x Hx]; auto. rewrite Hx. apply IH; intros j f Hj; apply (H j f); set_solver.
Qed.
