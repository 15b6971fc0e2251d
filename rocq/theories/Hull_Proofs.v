(** The recursion of convex_hull_2d. *)
From Coq Require Import List QArith Bool Lqa Lia.
From Verif Require Import Aabb_Model Geom_Model Hull_Model Hull_Spec.
Import ListNotations.
Open Scope Q_scope.

Lemma lt_bool a b : Qlt_bool a b = true <-> a < b.
Proof. unfold Qlt_bool. rewrite negb_true_iff. destruct (Qle_bool b a) eqn:E; [apply Qle_bool_iff in E; split; [discriminate|lra]|]. split; [|reflexivity]. intros _. apply Qnot_le_lt. intros H. apply Qle_bool_iff in H. congruence. Qed.
Lemma lt_bool_false a b : Qlt_bool a b = false <-> b <= a.
Proof. unfold Qlt_bool. rewrite negb_false_iff. apply Qle_bool_iff. Qed.
Lemma dist_side h t p : dist_from h t p == side h t p.
Proof. unfold dist_from, side, vdot, vsub. cbn. ring. Qed.
Lemma arg_max_in f b l : In (arg_max f b l) (b :: l).
Proof. revert b. induction l as [|p l IH]; intros b; cbn; [auto|]. destruct (IH (if Qlt_bool (f b) (f p) then p else b)) as [E|E]; [|auto]. destruct (Qlt_bool (f b) (f p)); rewrite <- E; auto. Qed.
Lemma arg_max_ge f b l : f b <= f (arg_max f b l) /\ forall p, In p l -> f p <= f (arg_max f b l).
Proof.
  revert b. induction l as [|q l IH]; intros b; cbn; [split; [lra|tauto]|]. destruct (IH (if Qlt_bool (f b) (f q) then q else b)) as [A B].
  destruct (Qlt_bool (f b) (f q)) eqn:E; [apply lt_bool in E|apply lt_bool_false in E]; (split; [lra|]); intros p [<- |P]; try lra; auto.
Qed.
Lemma arg_max_all f b l p : In p (b :: l) -> f p <= f (arg_max f b l).
Proof. destruct (arg_max_ge f b l) as [A B]. intros [<- |P]; auto. Qed.

(** Vectors. *)
Definition cr (a b : pt) : Q := fst a * snd b - snd a * fst b.
Lemma signs x1 x2 x3 x4 x5 g : x1 < 0 -> x2 < 0 -> x3 <= 0 -> x4 <= 0 -> x5 <= 0 \/ x3 == 0 -> x1 * g == x2 * x4 + x3 * x5 -> g <= 0.
Proof. intros H1 H2 H3 H4 H5 I. assert (0 <= x2 * x4) by nra. assert (0 <= x3 * x5) by (destruct H5 as [H5|H5]; [nra|rewrite H5; lra]). apply Qnot_lt_le. intros H6. assert (x1 * g < 0) by nra. lra. Qed.
Lemma cone_start (d a b p : pt) : cr d b < 0 -> cr a b < 0 -> cr d a <= 0 -> cr d p <= 0 -> cr b p <= 0 \/ cr d a == 0 -> cr a p <= 0.
Proof. intros H1 H2 H3 H4 H5. apply (signs _ _ _ _ _ _ H1 H2 H3 H4 H5). unfold cr. ring. Qed.
Lemma cone_end (d a b p : pt) : cr b d < 0 -> cr b a < 0 -> cr a d <= 0 -> cr d p <= 0 -> cr b p <= 0 \/ cr a d == 0 -> cr a p <= 0.
Proof. intros H1 H2 H3 H4 H5. apply (signs _ _ _ _ _ _ H1 H2 H3 H4 H5). unfold cr. ring. Qed.
(** A point in a triangle. *)
Lemma in_triangle l h v t p : In h l -> In v l -> In t l -> 0 < side h t v -> 0 < side h t p -> side h v p <= 0 -> side v t p <= 0 -> in_hull l p.
Proof.
  intros Ih Iv It A B C1 C2 C CC CL. 
  assert (X : side h t v * fst p == - side v t p * fst h + side h t p * fst v + - side h v p * fst t) by (unfold side; ring).
  assert (Y : side h t v * snd p == - side v t p * snd h + side h t p * snd v + - side h v p * snd t) by (unfold side; ring).
  assert (Z : side h t v == - side v t p + side h t p + - side h v p) by (unfold side; ring).
  set (D := side h t v) in *. set (a := - side v t p) in *. set (b := side h t p) in *. set (c := - side h v p) in *.
  assert (a0 : 0 <= a) by (unfold a; lra). assert (c0 : 0 <= c) by (unfold c; lra). clearbody D a b c. clear C1 C2.
  destruct (Qeq_dec (a + c) 0) as [E|E].
  - assert (a == 0) as Ea by lra. assert (c == 0) as Ec by lra. apply (CC v v 0 p); [auto|auto|lra|lra|]. rewrite Ea, Ec in X, Y, Z.
    split; cbn; apply (Qmult_inj_l _ _ D); try lra; [rewrite X|rewrite Y]; rewrite Z; ring.
  - assert (P : 0 < a + c) by lra. assert (Q1 : C (fst h + c / (a + c) * (fst t - fst h), snd h + c / (a + c) * (snd t - snd h))).
    { apply (CC h t (c / (a + c))); [auto|auto| | |split; reflexivity].
      - apply Qle_shift_div_l; lra.
      - apply Qle_shift_div_r; lra. }
    apply (CC _ _ (b / D) p Q1 (CL v Iv)).
    + apply Qle_shift_div_l; lra.
    + apply Qle_shift_div_r; lra.
    + split; cbn; apply (Qmult_inj_l _ _ D); try lra; [rewrite X|rewrite Y]; rewrite Z; field; split; lra.
Qed.
Lemma filter_less {A} (f : A -> bool) l q : In q l -> f q = false -> (length (filter f l) < length l)%nat.
Proof.
  assert (G : forall l, (length (filter f l) <= length l)%nat) by (induction l0 as [|x k IH]; cbn; [lia|destruct (f x); cbn; lia]).
  induction l as [|x l IH]; [intros []|]. intros [<- |I] F; cbn.
  - rewrite F. specialize (G l). lia.
  - specialize (IH I F). destruct (f x); cbn; lia.
Qed.
Lemma edge_app m1 v m2 a b : edge_of (m1 ++ v :: m2) a b -> edge_of (m1 ++ [v]) a b \/ edge_of (v :: m2) a b.
Proof.
  intros (l1 & l2 & E). revert l1 E. induction m1 as [|x m1 IH]; intros l1 E; [right; exists l1, l2; exact E|].
  destruct l1 as [|y l1]; cbn in E; injection E as -> E.
  - left. exists []. destruct m1 as [|z m1]; cbn in E; injection E as -> E; eexists; reflexivity.
  - destruct (IH _ E) as [(k1 & k2 & X)|X]; [left|right; exact X]. exists (y :: k1), k2. cbn. now rewrite X.
Qed.
Lemma pairs_app {A} (R : A -> A -> Prop) l k : ForallOrdPairs R l -> ForallOrdPairs R k -> (forall a b, In a l -> In b k -> R a b) -> ForallOrdPairs R (l ++ k).
Proof.
  intros L K H. induction L as [|a l F _ IH]; [exact K|]. cbn. constructor; [|apply IH; intros; apply H; [now right|assumption]].
  apply Forall_app. split; [exact F|]. apply Forall_forall. intros b B. apply H; [now left|assumption].
Qed.
Lemma hull_incl l k p : in_hull l p -> incl l k -> in_hull k p.
Proof. intros H I C CC CL. apply H; auto. Qed.
Lemma same_side h t p q : same p q -> side h t p == side h t q.
Proof. intros [A B]. unfold side. rewrite A, B. reflexivity. Qed.

Lemma dome_ok All n : forall sample h t dh dt,
  (length sample < n)%nat -> (exists q, In q sample /\ side h t q <= 0) -> incl sample All -> In h All -> In t All -> ~ same h t ->
  (forall p, In p All -> In p sample \/ side h t p <= 0) ->
  (forall p, In p All -> cr dh (vsub p h) <= 0) -> (forall p, In p All -> cr dt (vsub p t) <= 0) ->
  ((cr dh (vsub t h) < 0 /\ cr (vsub t h) dt < 0) \/ forall p, In p All -> side h t p <= 0) ->
  exists m, dome n sample h t = Some (h :: m ++ [t]) /\ (forall p, In p m -> In p sample /\ 0 < side h t p) /\
    (forall a b p, edge_of (h :: m ++ [t]) a b -> In p All -> side a b p <= 0) /\ distinct (h :: m ++ [t]) /\
    (forall p, In p sample -> 0 < side h t p -> in_hull (h :: m ++ [t]) p).
Proof.
  induction n as [|n IH]; intros sample h t dh dt Ln (q0 & Q0 & Q1) IA Ih It NS R Sh St ST; [lia|]. cbn [dome].
  set (outer := filter _ sample). assert (OI : forall p, In p outer <-> In p sample /\ 0 < side h t p).
  { intros p. unfold outer. rewrite filter_In, lt_bool, dist_side. reflexivity. }
  assert (Lo : (length outer < length sample)%nat). { apply filter_less with q0; [exact Q0|]. apply lt_bool_false. rewrite dist_side. exact Q1. }
  assert (BASE : outer = [] -> exists m, Some [h; t] = Some (h :: m ++ [t]) /\ (forall p, In p m -> In p sample /\ 0 < side h t p) /\
    (forall a b p, edge_of (h :: m ++ [t]) a b -> In p All -> side a b p <= 0) /\ distinct (h :: m ++ [t]) /\ (forall p, In p sample -> 0 < side h t p -> in_hull (h :: m ++ [t]) p)).
  { intros Z. exists []. split; [reflexivity|]. split; [intros ? []|]. split; [|split].
    - intros a b p (l1 & l2 & E) P. destruct l1 as [|x [|y l1]]; cbn in E; [injection E as <- <- _|discriminate E|destruct l1; discriminate E].
      destruct (R p P) as [X|X]; [|exact X]. apply Qnot_lt_le. intros Y. assert (In p outer) by (apply OI; auto). rewrite Z in *. contradiction.
    - constructor; [constructor; [exact NS|constructor]|constructor; constructor].
    - intros p P Y. assert (In p outer) by (apply OI; auto). rewrite Z in *. contradiction. }
  destruct outer as [|o os] eqn:EO; [exact (BASE eq_refl)|]. rewrite <- EO in *. clear BASE.
  destruct sample as [|s0 rest] eqn:ES; [contradiction|]. rewrite <- ES in *.
  set (v := arg_max (dist_from h t) s0 rest).
  assert (Iv : In v sample) by (rewrite ES; apply arg_max_in).
  assert (Mv : forall p, In p sample -> side h t p <= side h t v). { intros p P. rewrite <- !dist_side. apply arg_max_all. rewrite <- ES. exact P. }
  assert (Pv : 0 < side h t v). { assert (O : In o outer) by (rewrite EO; now left). apply OI in O as [O1 O2]. specialize (Mv o O1). lra. }
  assert (Ov : In v outer) by (apply OI; auto).
  assert (MA : forall p, In p All -> side h t p <= side h t v). { intros p P. destruct (R p P) as [X|X]; [auto|lra]. }
  destruct ST as [[ST1 ST2]|ST]; [|exfalso; specialize (ST v (IA v Iv)); lra].
  assert (IO : incl outer All). { intros p P. apply OI in P as [P _]. auto. }
  assert (NO : forall p, In p All -> In p outer \/ side h t p <= 0). { intros p P. destruct (R p P) as [X|X]; [|now right]. destruct (Qlt_le_dec 0 (side h t p)) as [Y|Y]; [left; apply OI; auto|now right]. }
  assert (CRa : cr (vsub v h) (vsub t h) < 0) by (unfold cr, side, vsub in *; cbn in *; lra).
  assert (CRb : cr (vsub t h) (vsub t v) < 0) by (unfold cr, side, vsub in *; cbn in *; lra).
  assert (VH : cr dh (vsub v h) <= 0) by auto. assert (VT : cr (vsub t v) dt <= 0). { specialize (St v (IA v Iv)). unfold cr, vsub in *; cbn in *; lra. }
  assert (RH : forall p, In p All -> side h t p <= 0 \/ cr dh (vsub v h) == 0 -> side h v p <= 0).
  { intros p P D. assert (X := cone_start dh (vsub v h) (vsub t h) (vsub p h) ST1 CRa VH (Sh p P)). unfold side. unfold side, cr, vsub in *; cbn in *. apply X. destruct D as [D|D]; [left|right]; lra. }
  assert (RT : forall p, In p All -> side h t p <= 0 \/ cr (vsub t v) dt == 0 -> side v t p <= 0).
  { intros p P D. assert (X := cone_end dt (vsub t v) (vsub t h) (vsub p t) ST2 CRb VT (St p P)).
    assert (cr (vsub t v) (vsub p t) <= 0) as Y. { apply X. destruct D as [D|D]; [left|right; exact D]. unfold side, cr, vsub in *; cbn in *; lra. } unfold side, cr, vsub in *; cbn in *; lra. }
  assert (SV : forall p, In p All -> cr (vsub t h) (vsub p v) <= 0). { intros p P. specialize (MA p P). unfold side, cr, vsub in *; cbn in *; lra. }
  destruct (IH outer h v dh (vsub t h)) as (m1 & D1 & M1 & E1 & X1 & H1); [lia| |exact IO|exact Ih|auto| | |exact Sh|exact SV| |].
  { exists v. split; [exact Ov|]. unfold side. lra. }
  { intros S. assert (X := same_side h t h v S). unfold side in *. lra. }
  { intros p P. destruct (NO p P) as [Y|Y]; [now left|right; auto]. }
  { destruct (Qeq_dec (cr dh (vsub v h)) 0) as [Z|Z]; [right; intros p P; auto|left; split; [lra|exact CRa]]. }
  destruct (IH outer v t (vsub t h) dt) as (m2 & D2 & M2 & E2 & X2 & H2); [lia| |exact IO|auto|exact It| | |exact SV|exact St| |].
  { exists v. split; [exact Ov|]. unfold side. lra. }
  { intros S. assert (X := same_side h t v t S). unfold side in *. lra. }
  { intros p P. destruct (NO p P) as [Y|Y]; [now left|right; auto]. }
  { destruct (Qeq_dec (cr (vsub t v) dt) 0) as [Z|Z]; [right; intros p P; auto|left; split; [exact CRb|lra]]. }
  assert (EQ : h :: (m1 ++ v :: m2) ++ [t] = (h :: m1) ++ v :: (m2 ++ [t])) by (cbn; now rewrite <- app_assoc).
  exists (m1 ++ v :: m2). rewrite EQ. split; [|split; [|split; [|split]]].
  - rewrite D1, D2. unfold link. cbn. now rewrite <- app_assoc.
  - intros p P. apply OI. apply in_app_or in P as [P|[<- |P]]; [apply M1, P|exact Ov|apply M2, P].
  - intros a b p E P. apply edge_app in E as [E|E]; [apply (E1 a b p)|apply (E2 a b p)]; auto.
  - change ((h :: m1) ++ v :: m2 ++ [t]) with ((h :: m1) ++ (v :: m2 ++ [t])).
    assert (HM : distinct (h :: m1)). { clear - X1. change (h :: m1 ++ [v]) with ((h :: m1) ++ [v]) in X1. revert X1. generalize (h :: m1). intros l. induction l as [|x l IH]; intros X; [constructor|]. inversion X as [|? ? F G]; subst. apply Forall_app in F as [F _]. constructor; [exact F|exact (IH G)]. }
    apply pairs_app; [exact HM|exact X2|]. intros a b A B S.
    assert (AB : side h t a == side h t b) by (apply same_side, S).
    assert (BV : side h v a == side h v b) by (apply same_side, S). assert (BT : side v t a == side v t b) by (apply same_side, S).
    destruct A as [<- |A].
    + assert (side h t h == 0) by (unfold side; ring). destruct B as [<- |B]; [lra|]. apply in_app_or in B as [B|[<- |[]]]; [|contradiction]. apply M2 in B as [B _]. apply OI in B as [_ B]. lra.
    + apply M1 in A as [A A']. apply OI in A as [A1 A2]. destruct B as [<- |B].
      * assert (side h v v == 0) by (unfold side; ring). lra.
      * assert (0 <= side v t a). { rewrite BT. apply in_app_or in B as [B|[<- |[]]]; [apply M2 in B as [_ B]; lra|]. unfold side; lra. }
        specialize (MA a (IA a A1)). unfold side in *. lra.
  - intros p P Y. assert (O : In p outer) by (apply OI; auto). destruct (Qlt_le_dec 0 (side h v p)) as [Z1|Z1].
    { apply hull_incl with (h :: m1 ++ [v]); [auto|]. intros x X. apply in_or_app. destruct X as [<- |X]; [left; now left|]. apply in_app_or in X as [X|[<- |[]]]; [left; now right|right; now left]. }
    destruct (Qlt_le_dec 0 (side v t p)) as [Z2|Z2].
    { apply hull_incl with (v :: m2 ++ [t]); [auto|]. intros x X. apply in_or_app. now right. }
    apply (in_triangle _ h v t); auto; apply in_or_app; [left; now left|right; now left|right; right; apply in_or_app; right; now left].
Qed.
