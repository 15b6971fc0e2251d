(** Altitudes and the shape measures of heal_mesh.py. *)
From stdpp Require Import gmap.
From Coq Require Import ZArith QArith Qreals Reals Lra Lia.
From Verif Require Import Heal_Model Heal_Spec Heal_Geom.
Local Notation length := List.length.

Lemma norm_pos p : (0 <= norm p)%R.
Proof. apply sqrt_pos. Qed.
Lemma norm_same p q : (dot p p == dot q q)%Q -> norm p = norm q.
Proof. intros H. unfold norm. apply Qeq_eqR in H. rewrite H. auto. Qed.
Lemma abs_same p q : (p == q \/ p == - q)%Q -> Rabs (Q2R p) = Rabs (Q2R q).
Proof.
  intros [H|H]; apply Qeq_eqR in H; rewrite H; auto. rewrite Q2R_opp, Rabs_Ropp. auto.
Qed.
(** Twice the area times the altitude. *)
Lemma plane_area p a b c V A : (V == dot (minus p a) (cross (minus b a) (minus c a)) \/ V == - dot (minus p a) (cross (minus b a) (minus c a)))%Q ->
  A = (norm (cross (minus b a) (minus c a)) / 2)%R -> (0 < A)%R -> dist_plane p a b c = (Rabs (Q2R V) / (2 * A))%R.
Proof.
  intros H -> Pos. unfold dist_plane. rewrite (abs_same _ _ H). f_equal. lra.
Qed.
Ltac coords := repeat match goal with p : pt |- _ => let x := fresh "x" in let y := fresh "y" in let z := fresh "z" in destruct p as [[x y] z] end.
Lemma tria_norm a b c : tria_measure [a; b; c] = Some (norm (cross (minus b a) (minus c a)) / 2)%R.
Proof. unfold tria_measure, tria_vector. fold (norm (cross (minus c a) (minus b a))). do 2 f_equal. apply norm_same. coords. cbn. ring. Qed.
Lemma faces_four a b c d : face_areas [a; b; c; d] =
  [norm (cross (minus b a) (minus c a)) / 2; norm (cross (minus a d) (minus b d)) / 2;
   norm (cross (minus d c) (minus a c)) / 2; norm (cross (minus c b) (minus d b)) / 2]%R.
Proof.
  unfold face_areas, vtxs_faces. cbn [map]. cbn [mapM list_lookup lookup mbind option_bind mret option_ret]. rewrite !tria_norm.
  rewrite (norm_same (cross (minus d a) (minus b a)) (cross (minus a d) (minus b d))) by (coords; cbn; ring).
  rewrite (norm_same (cross (minus c a) (minus d a)) (cross (minus d c) (minus a c))) by (coords; cbn; ring).
  rewrite (norm_same (cross (minus d b) (minus c b)) (cross (minus c b) (minus d b))) by (coords; cbn; ring). reflexivity.
Qed.
Lemma max300_greatest l : (exists x, x ∈ l /\ / 10 ^ 300 <= x)%R -> greatest (max300 l) l.
Proof.
  unfold max300, greatest. assert (A : Forall (fun y => y <= foldr Rmax (/ 10 ^ 300) l)%R l).
  { induction l as [|y l IH]; cbn; constructor; [apply Rmax_l|]. eapply Forall_impl; [exact IH|]. cbn. intros z Hz. eapply Rle_trans; [exact Hz|apply Rmax_r]. }
  intros (x & Hx & L). split; auto. assert (B : foldr Rmax (/ 10 ^ 300)%R l ∈ l \/ foldr Rmax (/ 10 ^ 300)%R l = (/ 10 ^ 300)%R).
  { clear. induction l as [|y l IH]; cbn; auto. unfold Rmax at 1 3. destruct (Rle_dec _ _); [destruct IH as [IH|IH]; [left; set_solver|auto]|left; set_solver]. }
  destruct B as [B|B]; auto. rewrite B. rewrite Forall_forall in A. specialize (A x Hx). rewrite B in A. assert (x = / 10 ^ 300)%R as <- by lra. auto.
Qed.
Lemma least_div k l m : (0 <= k)%R -> Forall (fun y => 0 < y)%R l -> greatest m l -> least (k / m)%R (map (fun y => k / y)%R l).
Proof.
  intros K P [I G]. split; [apply elem_of_list_fmap; eauto|]. rewrite Forall_forall in P, G. apply Forall_forall. intros y H. apply elem_of_list_fmap in H.
  destruct H as (x & -> & Hx). specialize (G x Hx). pose proof (P x Hx). pose proof (P m I). unfold Rdiv. apply Rmult_le_compat_l; auto. apply Rinv_le_contravar; auto.
Qed.
Lemma least_perm x l l' : l ≡ₚ l' -> least x l -> least x l'.
Proof. unfold least. intros ->. auto. Qed.
(** A tetrahedron whose faces are not degenerate. *)
Lemma flat_tetra ps V : tetra_measure ps = Some V -> Forall (fun a => 0 < a)%R (face_areas ps) ->
  (exists x, x ∈ face_areas ps /\ / 10 ^ 300 <= x)%R ->
  exists h, least h (altitudes ps) /\ flat_indicator ps = Some (2 * (h / max300 (edge_lens ps)))%R.
Proof.
  intros E P M. unfold flat_indicator. rewrite E. apply max300_greatest in M.
  pose proof (least_div (3 * Rabs (Q2R V)) _ _ ltac:(pose proof (Rabs_pos (Q2R V)); lra) P M) as L.
  exists (3 * Rabs (Q2R V) / max300 (face_areas ps))%R. split; [|f_equal; unfold Rdiv; ring]. clear M.
  destruct ps as [|a [|b [|c [|d [|? ?]]]]]; try discriminate. unfold tetra_measure in E. injection E as E. subst V.
  set (V := dot (minus b a) (cross (minus c a) (minus d a))) in *.
  assert (HV : Q2R (V / 6) = (Q2R V / 6)%R). { unfold Qdiv. rewrite Q2R_mult. f_equal. unfold Q2R. cbn. lra. }
  rewrite HV in *. assert (HA : Rabs (Q2R V / 6) = (Rabs (Q2R V) / 6)%R). { unfold Rdiv. rewrite Rabs_mult, (Rabs_right (/ 6)) by lra. auto. }
  rewrite HA in *.
  match type of L with least ?x _ => generalize dependent x end. intros h L. rewrite (faces_four a b c d) in L, P.
  apply Forall_cons in P. destruct P as [P1 P]. apply Forall_cons in P. destruct P as [P2 P]. apply Forall_cons in P. destruct P as [P3 P].
  apply Forall_cons in P. destruct P as [P4 _]. cbn [map] in L. cbn [altitudes].
  assert (Q1 : forall n p a b c, (V == dot (minus p a) (cross (minus b a) (minus c a)) \/ V == - dot (minus p a) (cross (minus b a) (minus c a)))%Q ->
    (0 < n / 2)%R -> n = norm (cross (minus b a) (minus c a)) -> dist_plane p a b c = (3 * (Rabs (Q2R V) / 6) / (n / 2))%R).
  { intros n p a' b' c' H Pn ->. rewrite (plane_area p a' b' c' V _ H eq_refl Pn). field. lra. }
  rewrite (Q1 _ a b c d) by (try exact P4; try reflexivity; subst V; clear; coords; cbn; first [left; ring|right; ring]).
  rewrite (Q1 _ b c d a) by (try exact P3; try reflexivity; subst V; clear; coords; cbn; first [left; ring|right; ring]).
  rewrite (Q1 _ c d a b) by (try exact P2; try reflexivity; subst V; clear; coords; cbn; first [left; ring|right; ring]).
  rewrite (Q1 _ d a b c) by (try exact P1; try reflexivity; subst V; clear; coords; cbn; first [left; ring|right; ring]).
  eapply least_perm; [|exact L].
  match goal with |- [?w; ?x; ?y; ?z] ≡ₚ _ => change ([w; x; y; z] ≡ₚ reverse [w; x; y; z]) end. symmetry. apply reverse_Permutation.
Qed.
Lemma lens_three a b c : edge_lens [a; b; c] = [norm (minus c b); norm (minus a c); norm (minus b a)].
Proof. reflexivity. Qed.
(** A triangle whose edges are not degenerate. *)
Lemma flat_tria ps A : tria_measure ps = Some A -> Forall (fun a => 0 < a)%R (edge_lens ps) ->
  (exists x, x ∈ edge_lens ps /\ / 10 ^ 300 <= x)%R ->
  exists h, least h (altitudes ps) /\ flat_indicator ps = Some (h / max300 (edge_lens ps))%R.
Proof.
  intros E P M. unfold flat_indicator. rewrite E. apply max300_greatest in M.
  destruct ps as [|a [|b [|c [|? ?]]]]; try discriminate. cbn [tetra_measure]. rewrite tria_norm in E. injection E as <-.
  rewrite Rabs_right by (pose proof (norm_pos (cross (minus b a) (minus c a))); lra).
  replace (2 * (norm (cross (minus b a) (minus c a)) / 2))%R with (norm (cross (minus b a) (minus c a))) by field.
  pose proof (least_div _ _ _ (norm_pos (cross (minus b a) (minus c a))) P M) as L.
  eexists. split; [|reflexivity]. clear M. match type of L with least ?x _ => generalize dependent x end. intros h L.
  rewrite lens_three in L. cbn [map] in L. cbn [altitudes]. unfold dist_line.
  rewrite (norm_same (cross (minus a b) (minus c b)) (cross (minus b a) (minus c a))) by (clear; coords; cbn; ring).
  rewrite (norm_same (cross (minus b c) (minus a c)) (cross (minus b a) (minus c a))) by (clear; coords; cbn; ring).
  rewrite (norm_same (cross (minus c a) (minus b a)) (cross (minus b a) (minus c a))) by (clear; coords; cbn; ring).
  exact L.
Qed.
(** The sum of line 90 and the right one. *)
Lemma pairs_differ F l : (sum_pairs F l - right_pairs F l = F 3%nat * (F 0%nat - F 2%nat) * (l 3%nat * l 3%nat - l 5%nat * l 5%nat))%R.
Proof.
  unfold sum_pairs, right_pairs, e_faces. cbn [edges_of imap foldr]. unfold compose.
  set (T := fun e : nat * nat => List.filter (fun i => match vtxs_faces !! i with Some f => bool_decide (edge_in_face e f) | None => false end) [0; 1; 2; 3]%nat).
  repeat match goal with |- context [List.filter (fun i => match vtxs_faces !! i with Some f => bool_decide (edge_in_face ?e f) | None => false end) [0; 1; 2; 3]%nat] =>
    change (List.filter (fun i => match vtxs_faces !! i with Some f => bool_decide (edge_in_face e f) | None => false end) [0; 1; 2; 3]%nat) with (T e) end.
  assert (T1 : T (0, 1)%nat = [0; 1]%nat) by reflexivity. assert (T2 : T (0, 2)%nat = [0; 2]%nat) by reflexivity.
  assert (T3 : T (0, 3)%nat = [1; 2]%nat) by reflexivity. assert (T4 : T (2, 3)%nat = [2; 3]%nat) by reflexivity.
  assert (T5 : T (1, 3)%nat = [1; 3]%nat) by reflexivity. assert (T6 : T (1, 2)%nat = [0; 3]%nat) by reflexivity.
  rewrite T1, T2, T3, T4, T5, T6. cbn. ring.
Qed.
