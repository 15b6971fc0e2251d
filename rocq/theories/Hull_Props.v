(** Property C85: convex_hull_2d answers the convex hull of points that are not on one vertical line. *)
From Coq Require Import List QArith Bool Lqa Lia.
From Verif Require Import Aabb_Model Geom_Model Hull_Model Hull_Spec Hull_Proofs.
Import ListNotations.
Open Scope Q_scope.

(** The answer is a walk from a point back to it through distinct points of the sample. All points of the sample are on the right of
    or on every edge. Every point of the sample is in the convex hull of the answer. *)
Theorem C85_hull (sample : list pt) (p q : pt) : (2 < length sample)%nat -> In p sample -> In q sample -> ~ fst p == fst q ->
  exists a m, convex_hull_2d sample = Some (a :: m ++ [a]) /\ incl (a :: m) sample /\ distinct (a :: m) /\
    (forall x y z, edge_of (a :: m ++ [a]) x y -> In z sample -> ~ same x y /\ side x y z <= 0) /\
    (forall z, In z sample -> in_hull (a :: m) z).
Proof.
  intros LN P Q NE. apply Nat.ltb_lt in LN as LB. unfold convex_hull_2d. destruct sample as [|s0 rest] eqn:ES; [contradiction|]. rewrite LB. rewrite <- ES in *.
  set (L := arg_max _ s0 rest). set (R := arg_max fst s0 rest).
  assert (IL : In L sample) by (rewrite ES; apply arg_max_in). assert (IR : In R sample) by (rewrite ES; apply arg_max_in).
  assert (ML : forall z, In z sample -> fst L <= fst z). { intros z Z. rewrite ES in Z. assert (X := arg_max_all (fun p => - fst p) s0 rest z Z). fold L in X. cbn in X. lra. }
  assert (MR : forall z, In z sample -> fst z <= fst R). { intros z Z. rewrite ES in Z. exact (arg_max_all fst s0 rest z Z). }
  assert (LR : fst L < fst R). { assert (A := ML p P). assert (B := ML q Q). assert (C := MR p P). assert (D := MR q Q). destruct (Qlt_le_dec (fst L) (fst R)) as [X|X]; [exact X|]. exfalso. apply NE. lra. }
  destruct (dome_ok sample (S (length sample)) sample L R (0, 1) (0, - (1))) as (mu & D1 & M1 & E1 & X1 & H1);
    [lia|exists L; split; [exact IL|unfold side; lra]|apply incl_refl|exact IL|exact IR|intros [S _]; lra|now left| | | |].
  { intros z Z. specialize (ML z Z). unfold cr, vsub. cbn. lra. }
  { intros z Z. specialize (MR z Z). unfold cr, vsub. cbn. lra. }
  { left. unfold cr, vsub. cbn. split; lra. }
  destruct (dome_ok sample (S (length sample)) sample R L (0, - (1)) (0, 1)) as (ml & D2 & M2 & E2 & X2 & H2);
    [lia|exists L; split; [exact IL|unfold side; lra]|apply incl_refl|exact IR|exact IL|intros [S _]; lra|now left| | | |].
  { intros z Z. specialize (MR z Z). unfold cr, vsub. cbn. lra. }
  { intros z Z. specialize (ML z Z). unfold cr, vsub. cbn. lra. }
  { left. unfold cr, vsub. cbn. split; lra. }
  exists L, (mu ++ R :: ml). rewrite D1, D2. unfold link. cbn [tl].
  assert (EQ : L :: (mu ++ R :: ml) ++ [L] = (L :: mu) ++ R :: ml ++ [L]) by (cbn; now rewrite <- app_assoc).
  assert (FP : forall (l : list pt) k, distinct (l ++ k) -> distinct l /\ distinct k).
  { intros l k. induction l as [|x l IH]; intros X; [split; [constructor|exact X]|]. inversion X as [|? ? F G]; subst. destruct (IH G) as [A B]. apply Forall_app in F as [F _]. split; [constructor; [exact F|exact A]|exact B]. }
  split; [cbn; now rewrite <- !app_assoc|]. split; [|split; [|split]].
  - intros z [<- |Z]; [exact IL|]. apply in_app_or in Z as [Z|[<- |Z]]; [apply M1, Z|exact IR|apply M2, Z].
  - change (L :: mu ++ R :: ml) with ((L :: mu) ++ R :: ml). change (L :: mu ++ [R]) with ((L :: mu) ++ [R]) in X1. change (R :: ml ++ [L]) with ((R :: ml) ++ [L]) in X2.
    apply FP in X1 as A1. destruct A1 as [A1 _]. apply FP in X2 as A2. destruct A2 as [A2 _]. apply pairs_app; [exact A1|exact A2|]. intros a b A B S.
    assert (AB : side L R a == side L R b) by (apply same_side, S).
    assert (OP : forall z, side L R z == - side R L z) by (intros z; unfold side; ring). assert (side L R L == 0) by (unfold side; ring). assert (side L R R == 0) by (unfold side; ring).
    destruct A as [<- |A]; destruct B as [<- |B].
    + destruct S as [S _]. lra.
    + apply M2 in B as [_ B]. rewrite (OP b) in AB. lra.
    + apply M1 in A as [_ A]. lra.
    + apply M1 in A as [_ A]. apply M2 in B as [_ B]. rewrite (OP b) in AB. lra.
  - intros x y z E Z. rewrite EQ in E. apply edge_app in E as [E|E].
    + split; [|exact (E1 x y z E Z)]. destruct E as (l1 & l2 & E). change (L :: mu ++ [R]) with ((L :: mu) ++ [R]) in X1. rewrite E in X1. apply FP in X1 as [_ X1]. inversion X1 as [|? ? F G]; subst. inversion F; assumption.
    + split; [|exact (E2 x y z E Z)]. destruct E as (l1 & l2 & E). rewrite E in X2. apply FP in X2 as [_ X2]. inversion X2 as [|? ? F G]; subst. inversion F; assumption.
  - intros z Z. assert (OP : side L R z == - side R L z) by (unfold side; ring).
    destruct (Qlt_le_dec 0 (side L R z)) as [S1|S1].
    { apply hull_incl with (L :: mu ++ [R]); [auto|]. intros w [<- |W]; [now left|]. right. apply in_or_app. apply in_app_or in W as [W|[<- |[]]]; [now left|right; now left]. }
    destruct (Qlt_le_dec 0 (side R L z)) as [S2|S2].
    { apply hull_incl with (R :: ml ++ [L]); [auto|]. intros w [<- |W]; [right; apply in_or_app; right; now left|]. apply in_app_or in W as [W|[<- |[]]]; [right; apply in_or_app; right; now right|now left]. }
    intros C CC CL. assert (S0 : side L R z == 0) by lra. specialize (ML z Z). specialize (MR z Z).
    apply (CC L R ((fst z - fst L) / (fst R - fst L)) z); [apply CL; now left|apply CL; right; apply in_or_app; right; now left| | |].
    + apply Qle_shift_div_l; lra.
    + apply Qle_shift_div_r; lra.
    + split; cbn; [field; lra|]. unfold side in S0. apply (Qmult_inj_l _ _ (fst R - fst L)); [lra|]. setoid_replace ((fst R - fst L) * (snd L + (fst z - fst L) / (fst R - fst L) * (snd R - snd L))) with ((fst R - fst L) * snd L + (fst z - fst L) * (snd R - snd L)) by (field; lra). lra.
Qed.
(** Points on one vertical line: the answer is the first point three times. *)
Theorem C85_vertical (a : pt) (l : list pt) : (2 <= length l)%nat -> (forall z, In z l -> fst z == fst a) -> convex_hull_2d (a :: l) = Some [a; a; a].
Proof.
  intros LN V. unfold convex_hull_2d. assert (LB : Nat.ltb 2 (length (a :: l)) = true) by (apply Nat.ltb_lt; cbn; lia). rewrite LB.
  assert (M : forall f : pt -> Q, (forall z, In z l -> f z == f a) -> arg_max f a l = a).
  { intros f F. clear LN LB V. induction l as [|z l IH]; [reflexivity|]. cbn. assert (Qlt_bool (f a) (f z) = false) as ->. { apply lt_bool_false. rewrite (F z (or_introl eq_refl)). lra. } apply IH. intros w W. apply F. now right. }
  rewrite (M (fun p => - fst p)), (M fst); [|exact V|intros z Z; rewrite (V z Z); reflexivity].
  assert (D : dome (S (length (a :: l))) (a :: l) a a = Some [a; a]).
  { remember (a :: l) as k eqn:K. clear K LB. cbn [dome]. assert (F : filter (fun p => Qlt_bool 0 (dist_from a a p)) k = []).
    { induction k as [|z k IH]; [reflexivity|]. cbn. assert (Qlt_bool 0 (dist_from a a z) = false) as ->. { apply lt_bool_false. rewrite dist_side. unfold side. lra. } exact IH. }
    rewrite F. reflexivity. }
  rewrite D. reflexivity.
Qed.
(** The hull of three points on a vertical line misses two of them. *)
Theorem C85_vertical_refuted : exists sample l z, (2 < length sample)%nat /\ convex_hull_2d sample = Some l /\ In z sample /\ ~ in_hull l z.
Proof.
  exists [(0, 0); (0, 1); (0, 2)], [(0, 0); (0, 0); (0, 0)], (0, 1). split; [cbn; lia|]. split; [reflexivity|]. split; [cbn; auto|].
  intros H. specialize (H (fun p => snd p == 0)). cbn in H. assert (1 == 0) as X; [apply H|discriminate X].
  - intros a b t p A B _ _ [_ S]. cbn in S. rewrite A, B in S. rewrite S. ring.
  - intros q [<- |[<- |[<- |[]]]]; reflexivity.
Qed.
Example C85_case : let s := [(2, 1); (0, 0); (4, 0); (1, 3); (2, 2); (3, 3); (2, 3); (0, 2)] in
  (2 < length s)%nat /\ In (0, 0) s /\ In (4, 0) s /\ ~ fst (0, 0) == fst (4, 0) /\ convex_hull_2d s = Some [(0, 0); (0, 2); (1, 3); (3, 3); (4, 0); (0, 0)].
Proof. cbn zeta. split; [cbn; lia|]. split; [cbn; auto|]. split; [cbn; auto|]. split; [discriminate|]. vm_compute. reflexivity. Qed.
Example C85_vertical_case : (2 <= length [(1, 0); (1, 5)])%nat /\ (forall z, In z [(1, 0); (1, 5)] -> fst z == fst (1, 3)).
Proof. split; [cbn; lia|]. intros z [<- |[<- |[]]]; reflexivity. Qed.
Print Assumptions C85_hull.
Print Assumptions C85_vertical.
Print Assumptions C85_vertical_refuted.
