(** Proofs for knot packing, equidistant knots, curves and surfaces. *)
From Coq Require Import List Arith Bool Reals Lia Lra.
From Verif Require Import Spline_Model Spline_Spec Spline_Piece Spline_Proofs.
Import ListNotations.
Open Scope R_scope.

(** * Packing *)
Lemma unpack_app a c : unpack (a ++ c) = unpack a ++ unpack c.
Proof. unfold unpack. apply flat_map_app. Qed.
Lemma unpack_one q n : unpack [(q, n)] = repeat q n.
Proof. unfold unpack. simpl. apply app_nil_r. Qed.
Lemma repeat_snoc (q : R) n l : repeat q (S n) ++ l = repeat q n ++ q :: l.
Proof. induction n; [reflexivity|]. cbn [repeat app] in *. rewrite IHn. reflexivity. Qed.

Lemma pack_loop_unpack l : forall last mult packed,
  unpack (pack_loop last mult packed l) = unpack packed ++ repeat last mult ++ l.
Proof.
  induction l as [|q l IH]; intros last mult packed; cbn [pack_loop].
  - rewrite unpack_app, unpack_one, app_nil_r. reflexivity.
  - destruct (Reqb_spec q last) as [->|N].
    + rewrite IH. rewrite repeat_snoc. reflexivity.
    + rewrite IH, unpack_app, unpack_one, <- app_assoc. reflexivity.
Qed.

(** Adjacent values differ, multiplicities are positive. *)
Fixpoint packed_ok (l : list (R * nat)) : Prop :=
  match l with
  | [] => True
  | (q, n) :: r => (0 < n)%nat /\
      match r with [] => True | (q', _) :: _ => q <> q' end /\ packed_ok r
  end.

Lemma packed_ok_snoc l q n q' n' : packed_ok (l ++ [(q, n)]) -> (0 < n')%nat -> q <> q' ->
  packed_ok ((l ++ [(q, n)]) ++ [(q', n')]).
Proof.
  induction l as [|[a m] l IH]; cbn [app packed_ok]; intros (H1 & H2 & H3) Hn Hq.
  - auto.
  - split; auto. split; [|apply IH; auto]. destruct l as [|[a' m'] l]; cbn [app] in *; auto.
Qed.
Lemma packed_ok_mult l q n n' : packed_ok (l ++ [(q, n)]) -> (0 < n')%nat ->
  packed_ok (l ++ [(q, n')]).
Proof.
  induction l as [|[a m] l IH]; cbn [app packed_ok]; intros (H1 & H2 & H3) Hn.
  - auto.
  - split; auto. split; [|apply IH; auto]. destruct l as [|[a' m'] l]; cbn [app] in *; auto.
Qed.
Lemma pack_loop_ok l : forall last mult packed,
  packed_ok (packed ++ [(last, mult)]) -> packed_ok (pack_loop last mult packed l).
Proof.
  induction l as [|q l IH]; intros last mult packed H; cbn [pack_loop]; auto.
  destruct (Reqb_spec q last) as [->|N]; apply IH.
  - eapply packed_ok_mult; [exact H|lia].
  - apply packed_ok_snoc; auto; lia.
Qed.

Lemma pack_loop_repeat q n : forall mult packed l,
  pack_loop q mult packed (repeat q n ++ l) = pack_loop q (mult + n) packed l.
Proof.
  induction n; intros mult packed l; cbn [repeat app pack_loop].
  - f_equal. lia.
  - rewrite Reqb_refl, IHn. f_equal. lia.
Qed.
Lemma pack_loop_packed r : forall q n packed, packed_ok ((q, n) :: r) ->
  pack_loop q n packed (unpack r) = packed ++ (q, n) :: r.
Proof.
  induction r as [|[q' n'] r IH]; intros q n packed H.
  - reflexivity.
  - destruct H as (H1 & H2 & H3). destruct n' as [|n']; [destruct H3; lia|].
    cbn [unpack flat_map repeat app fst snd pack_loop].
    destruct (Reqb_spec q' q) as [->|N]; [contradiction|].
    change (flat_map (fun qm => repeat (fst qm) (snd qm)) r) with (unpack r).
    rewrite pack_loop_repeat, IH by auto. rewrite <- app_assoc. reflexivity.
Qed.

Lemma pack_unpack_l deg l b ps : make_basis deg l = Some b -> pack_knots b = Some ps ->
  unpack ps = l /\ packed_ok ps /\
  make_from_packed_knots deg ps = Some b /\
  list_sum (map snd ps) = length l.
Proof.
  intros Hb Hp.
  assert (knots b = l /\ degree b = deg) as [K D].
  { unfold make_basis in Hb. destruct (free_ends deg l); [|discriminate].
    injection Hb as <-. auto. }
  unfold pack_knots in Hp. rewrite K in Hp. destruct l as [|q r]; [discriminate|].
  assert (ps = pack_loop q 0 [] (q :: r)) as -> by congruence. clear Hp.
  assert (unpack (pack_loop q 0 [] (q :: r)) = q :: r) as U by (rewrite pack_loop_unpack; reflexivity).
  split; [exact U|]. split.
  - cbn [pack_loop]. rewrite Reqb_refl. apply pack_loop_ok. cbn. auto.
  - split.
    + unfold make_from_packed_knots. rewrite U. exact Hb.
    + assert (forall l, list_sum (map snd l) = length (unpack l)) as Su.
      { clear. induction l as [|[a n] l IH]; [reflexivity|].
        unfold unpack in *. cbn [flat_map map snd fst]. rewrite app_length, repeat_length, <- IH.
        reflexivity. }
      rewrite Su, U. reflexivity.
Qed.

Lemma pack_of_packed_l deg ps b : packed_ok ps -> make_from_packed_knots deg ps = Some b ->
  pack_knots b = Some ps.
Proof.
  intros H Hb. unfold make_from_packed_knots, make_basis in Hb.
  destruct (free_ends deg (unpack ps)) eqn:E; [|discriminate]. injection Hb as <-.
  unfold pack_knots. cbn [knots].
  destruct ps as [|[q n] r].
  - unfold free_ends in E. simpl in E. apply andb_prop in E as [E _].
    destruct (Nat.leb_spec (deg + 1) 0); [lia|discriminate].
  - pose proof H as (H1 & _). destruct n as [|n]; [lia|].
    cbn [unpack flat_map repeat app fst snd].
    change (flat_map (fun qm => repeat (fst qm) (snd qm)) r) with (unpack r).
    cbn [pack_loop]. rewrite Reqb_refl, pack_loop_repeat. f_equal.
    apply (pack_loop_packed r q (1 + n) []). exact H.
Qed.

(** * Equidistant knots *)
Lemma eq_knots_length deg n r0 r1 : length (equidistant_knots deg n r0 r1) = (n + 2 * deg + 1)%nat.
Proof. unfold equidistant_knots. rewrite map_length, seq_length. reflexivity. Qed.
Lemma eq_knots_nth deg n r0 r1 i : (i < n + 2 * deg + 1)%nat -> (0 < n)%nat ->
  kn (equidistant_knots deg n r0 r1) i =
  if (n + deg <=? i)%nat then r1 else if (i <=? deg)%nat then r0
  else r0 + INR (i - deg) * ((r1 - r0) / INR n).
Proof.
  intros Hi Hn. unfold kn, equidistant_knots.
  set (f := fun i => _). rewrite nth_indep with (d' := f 0%nat).
  - rewrite map_nth, seq_nth by auto. unfold f. cbn [Nat.add].
    destruct (Nat.leb_spec (n + 2 * deg + 1 - deg - 1) i), (Nat.leb_spec (n + deg) i); try lia; auto.
    destruct (Nat.leb_spec (deg + 1) i), (Nat.leb_spec i deg); try lia; auto. ring.
  - rewrite map_length, seq_length. auto.
Qed.

Lemma make_equidistant_l deg n r0 r1 : (0 < n)%nat -> r0 <= r1 ->
  exists b, make_equidistant deg n r0 r1 = Some b /\ valid_basis b /\ degree b = deg /\
    n_intervals b = n /\ dom0 b = r0 /\ dom1 b = r1 /\
    forall i, (i <= n)%nat -> kn (knots b) (deg + i) = r0 + INR i * ((r1 - r0) / INR n).
Proof.
  intros Hn Hr.
  assert (0 < INR n) as HN by (apply lt_0_INR; auto).
  assert (forall i, (i <= n)%nat ->
    kn (equidistant_knots deg n r0 r1) (deg + i) = r0 + INR i * ((r1 - r0) / INR n)) as Kv.
  { intros i Hi. rewrite eq_knots_nth by lia.
    destruct (Nat.leb_spec (n + deg) (deg + i)).
    - replace i with n by lia. field. lra.
    - destruct (Nat.leb_spec (deg + i) deg).
      + replace i with 0%nat by lia. simpl. ring.
      + replace (deg + i - deg)%nat with i by lia. reflexivity. }
  assert (free_ends deg (equidistant_knots deg n r0 r1) = true) as FE.
  { unfold free_ends. rewrite eq_knots_length.
    destruct (Nat.leb_spec (deg + 1) (n + 2 * deg + 1)); [|lia]. cbn [andb].
    apply forallb_forall. intros i Hi. rewrite in_seq in Hi.
    rewrite !eq_knots_nth by lia.
    repeat match goal with |- context [Nat.leb ?a ?c] => destruct (Nat.leb_spec a c); try lia end.
    rewrite !Reqb_refl. reflexivity. }
  exists (Basis deg (equidistant_knots deg n r0 r1)).
  unfold make_equidistant. destruct (Nat.eqb_spec n 0); [lia|].
  unfold make_basis. rewrite FE. split; auto.
  assert (0 <= (r1 - r0) / INR n) as HD.
  { apply Rmult_le_pos; [lra|]. left. apply Rinv_0_lt_compat; auto. }
  split; [|split; [auto|]].
  - constructor; cbn [degree knots].
    + unfold make_basis. rewrite FE. reflexivity.
    + intros i j Hij Hj. rewrite eq_knots_length in Hj.
      change (kn (equidistant_knots deg n r0 r1) i <= kn (equidistant_knots deg n r0 r1) j).
      assert (forall a, (a < n + 2 * deg + 1)%nat -> kn (equidistant_knots deg n r0 r1) a
         = r0 + INR (Nat.min (a - deg) n) * ((r1 - r0) / INR n)) as U.
      { intros a Ha. rewrite eq_knots_nth by lia.
        destruct (Nat.leb_spec (n + deg) a).
        - replace (Nat.min (a - deg) n) with n by lia. field. lra.
        - destruct (Nat.leb_spec a deg).
          + replace (Nat.min (a - deg) n) with 0%nat by lia. simpl. ring.
          + replace (Nat.min (a - deg) n) with (a - deg)%nat by lia. reflexivity. }
      rewrite !U by lia. apply Rplus_le_compat_l. apply Rmult_le_compat_r; auto.
      apply le_INR. lia.
    + rewrite eq_knots_length. lia.
  - unfold n_intervals, size, dom0, dom1. cbn [degree knots]. rewrite eq_knots_length.
    split; [lia|]. split.
    + rewrite <- (Nat.add_0_r deg) at 2. rewrite Kv by lia. simpl. ring.
    + split; [|exact Kv].
      replace (n + 2 * deg + 1 - deg - 1)%nat with (deg + n)%nat by lia.
      rewrite Kv by lia. field. lra.
Qed.

(** * check *)
Lemma check_l b t : dom0 b <= dom1 b ->
  (forall t', check b t = Some t' -> dom0 b <= t' <= dom1 b /\ Rabs (t' - t) <= check_tol t) /\
  (dom0 b <= t <= dom1 b -> check b t = Some t) /\
  (t < dom0 b - check_tol t \/ dom1 b + check_tol t < t -> check b t = None).
Proof.
  intros H01. unfold check.
  assert (0 <= check_tol t) as TP.
  { unfold check_tol, rtol. pose proof (Rabs_pos t).
    assert (0 < / 10 ^ 4) by (apply Rinv_0_lt_compat; lra).
    assert (0 < / 10 ^ 10) by (apply Rinv_0_lt_compat; lra).
    apply Rmult_le_pos; lra. }
  destruct (Rleb_spec (dom0 b) t), (Rleb_spec t (dom1 b)); cbn [andb];
  destruct (Rleb_spec (dom0 b - check_tol t) t), (Rleb_spec t (dom1 b + check_tol t)); cbn [andb negb];
  destruct (Rltb_spec t (dom0 b)); try (exfalso; lra);
  (split; [|split]).
  all: try (intros E; first [exfalso; lra|reflexivity|exfalso; destruct E; lra]).
  all: intros t' E; try discriminate; try (injection E as <-; split; [lra|]; apply Rabs_le; lra).
Qed.

(** * Sums and slices *)
Lemma nth_map_lt {A B} (f : A -> B) l i d d' : (i < length l)%nat ->
  nth i (map f l) d = f (nth i l d').
Proof.
  intros H. rewrite nth_indep with (d' := f d').
  - apply map_nth.
  - rewrite map_length. auto.
Qed.
Lemma inner_seq f n : forall l, inner (map f (seq 0 n)) l = rsum n (fun r => f r * nth r l 0).
Proof.
  assert (forall m a l, inner (map f (seq a m)) l = rsum m (fun r => f (a + r)%nat * nth r l 0)) as H.
  { induction m; intros a l; [reflexivity|]. rewrite rsum_shift. cbn [seq map inner].
    destruct l as [|x l].
    - rewrite rsum_0; [cbn; ring|]. intros i Hi. cbn. ring.
    - rewrite IHm, Nat.add_0_r. cbn [nth]. f_equal. apply rsum_ext. intros.
      f_equal. f_equal. lia. }
  intros. rewrite H. reflexivity.
Qed.
Lemma slice_length {A} i n (l : list A) : (i + n <= length l)%nat -> length (slice i n l) = n.
Proof. intros H. unfold slice. rewrite firstn_length, skipn_length. lia. Qed.
Lemma nth_slice {A} i n (l : list A) r d : (r < n)%nat -> nth r (slice i n l) d = nth (i + r) l d.
Proof.
  intros H. unfold slice.
  assert (forall m (x : list A) q, (q < m)%nat -> nth q (firstn m x) d = nth q x d) as F.
  { induction m; intros x q Hq; [lia|]. destruct x; [reflexivity|]. destruct q; [reflexivity|].
    cbn. apply IHm. lia. }
  rewrite F by auto. clear. revert l. induction i; intros l; [reflexivity|].
  destruct l; cbn; [destruct r; reflexivity|]. apply IHi.
Qed.

Lemma convex_sum n w x lo hi : (forall i, (i < n)%nat -> 0 <= w i) -> rsum n w = 1 ->
  (forall i, (i < n)%nat -> lo <= x i <= hi) -> lo <= rsum n (fun i => w i * x i) <= hi.
Proof.
  intros H S X. split.
  - replace lo with (lo * rsum n w) by (rewrite S; ring). rewrite <- rsum_scal.
    apply rsum_le. intros i Hi. rewrite Rmult_comm. apply Rmult_le_compat_l; auto. apply X; auto.
  - replace hi with (hi * rsum n w) by (rewrite S; ring). rewrite <- rsum_scal.
    apply rsum_le. intros i Hi. rewrite (Rmult_comm hi). apply Rmult_le_compat_l; auto. apply X; auto.
Qed.
Lemma pos_bound n (w : nat -> R) : (forall i, (i < n)%nat -> 0 < w i) ->
  exists e, 0 < e /\ forall i, (i < n)%nat -> e <= w i.
Proof.
  induction n; intros H.
  - exists 1. split; [lra|]. intros; lia.
  - destruct IHn as (e & He & A); [auto|]. exists (Rmin e (w n)). split.
    + apply Rmin_glb_lt; auto.
    + intros i Hi. destruct (Nat.eq_dec i n) as [->|N]; [apply Rmin_r|].
      eapply Rle_trans; [apply Rmin_l|]. apply A. lia.
Qed.
Lemma weighted_sum_pos n w v : (forall i, (i < n)%nat -> 0 <= w i) -> rsum n w = 1 ->
  (forall i, (i < n)%nat -> 0 < v i) -> 0 < rsum n (fun i => w i * v i).
Proof.
  intros H S X. destruct (pos_bound n v X) as (e & He & A).
  apply Rlt_le_trans with (e * rsum n w); [rewrite S; lra|].
  rewrite <- rsum_scal. apply rsum_le. intros i Hi. rewrite (Rmult_comm e).
  apply Rmult_le_compat_l; auto.
Qed.
Lemma rational_bound n w v x lo hi : (forall i, (i < n)%nat -> 0 <= w i) -> rsum n w = 1 ->
  (forall i, (i < n)%nat -> 0 < v i) -> (forall i, (i < n)%nat -> lo <= x i <= hi) ->
  lo <= rsum n (fun i => w i * (x i * v i)) / rsum n (fun i => w i * v i) <= hi.
Proof.
  intros H S V X. pose proof (weighted_sum_pos n w v H S V) as P.
  set (s := rsum n (fun i => w i * v i)) in *.
  assert (rsum n (fun i => w i * v i / s) = 1) as S1.
  { rewrite (rsum_ext _ _ (fun i => / s * (w i * v i))) by (intros; unfold Rdiv; ring).
    rewrite rsum_scal. fold s. field. lra. }
  replace (rsum n (fun i => w i * (x i * v i)) / s) with (rsum n (fun i => (w i * v i / s) * x i)).
  - apply convex_sum; auto. intros i Hi.
    apply Rmult_le_pos; [apply Rmult_le_pos; auto; left; auto|]. left. apply Rinv_0_lt_compat. auto.
  - rewrite (rsum_ext _ _ (fun i => / s * (w i * (x i * v i)))) by (intros; unfold Rdiv; ring).
    rewrite rsum_scal. unfold Rdiv. ring.
Qed.

Lemma amin_spec l m : amin l = Some m -> forall x, In x l -> m <= x.
Proof.
  revert m. induction l as [|a l IH]; intros m H x Hx; [discriminate|].
  cbn in H. destruct (amin l) as [q|] eqn:E.
  - injection H as <-. destruct Hx as [<-|Hx]; [apply Rmin_l|].
    eapply Rle_trans; [apply Rmin_r|]. apply IH; auto.
  - injection H as <-. destruct Hx as [<-|Hx]; [lra|]. destruct l; [contradiction|].
    cbn in E. destruct (amin l); discriminate.
Qed.
Lemma amax_spec l m : amax l = Some m -> forall x, In x l -> x <= m.
Proof.
  revert m. induction l as [|a l IH]; intros m H x Hx; [discriminate|].
  cbn in H. destruct (amax l) as [q|] eqn:E.
  - injection H as <-. destruct Hx as [<-|Hx]; [apply Rmax_l|].
    eapply Rle_trans; [|apply Rmax_r]. apply IH; auto.
  - injection H as <-. destruct Hx as [<-|Hx]; [lra|]. destruct l; [contradiction|].
    cbn in E. destruct (amax l); discriminate.
Qed.
Lemma amin_in l m : amin l = Some m -> In m l.
Proof.
  revert m. induction l as [|a l IH]; intros m H; [discriminate|].
  cbn in H. destruct (amin l) as [q|] eqn:E; injection H as <-; [|now left].
  unfold Rmin. destruct (Rle_dec a q); [now left|right; auto].
Qed.
Lemma amax_in l m : amax l = Some m -> In m l.
Proof.
  revert m. induction l as [|a l IH]; intros m H; [discriminate|].
  cbn in H. destruct (amax l) as [q|] eqn:E; injection H as <-; [|now left].
  unfold Rmax. destruct (Rle_dec a q); [right; auto|now left].
Qed.
Lemma amin_some l : l <> [] -> exists m, amin l = Some m.
Proof. destruct l; [easy|]. intros _. cbn. destruct (amin l); eauto. Qed.
Lemma amax_some l : l <> [] -> exists m, amax l = Some m.
Proof. destruct l; [easy|]. intros _. cbn. destruct (amax l); eauto. Qed.

Definition odef (o : option R) : R := match o with Some x => x | None => 0 end.

Lemma all_some_odef f n : (forall i : nat, (i < n)%nat -> exists m, f i = Some m) ->
  all_some (map f (seq 0 n)) = Some (map (fun i => odef (f i)) (seq 0 n)).
Proof.
  intros H. apply all_some_map. intros i Hi. rewrite in_seq in Hi.
  destruct (H i ltac:(lia)) as [m E]. rewrite E. reflexivity.
Qed.
Lemma nth_map_seq (f : nat -> R) n j : (j < n)%nat -> nth j (map f (seq 0 n)) 0 = f j.
Proof.
  intros H. rewrite (nth_map_lt f (seq 0 n) j 0 0%nat) by (rewrite seq_length; auto).
  rewrite seq_nth by auto. reflexivity.
Qed.

(** * Curves *)
Section CurveProofs.
Variable c : curve.
Hypothesis V : valid_basis (c_basis c).
Hypothesis NP : length (c_poles c) = size (c_basis c).
Notation b := (c_basis c).

Definition pole (i j : nat) : R := nth j (nth i (c_poles c) []) 0.

Lemma window_value (g : list R -> R) t I : (I < n_intervals b)%nat ->
  inner (map (fun r => ev b (I + r) t) (seq 0 (degree b + 1)))
        (map g (slice I (degree b + 1) (c_poles c)))
  = rsum (degree b + 1) (fun r => g (nth (I + r) (c_poles c) []) * ev b (I + r) t).
Proof.
  intros H. rewrite inner_seq. apply rsum_ext. intros r Hr.
  pose proof (len_eq b V) as (L1 & L2 & L3).
  rewrite (nth_map_lt g _ r 0 []) by (rewrite slice_length; lia).
  rewrite nth_slice by auto. ring.
Qed.

Lemma curve_eval_l t : dom0 b <= t <= dom1 b -> c_rational c = false ->
  curve_eval c t = Some (map (fun j => rsum (size b) (fun i => pole i j * ev b i t))
                             (seq 0 (c_dim c))).
Proof.
  intros H Hr. unfold curve_eval.
  destruct (check_l b t ltac:(lra)) as (_ & E & _). rewrite E by auto.
  destruct (find_spec b V t H) as (I & F & A & _). rewrite F. unfold curve_eval_local.
  rewrite (eval_vector_l b V t I A), Hr. f_equal. apply map_ext. intros j.
  unfold column. rewrite window_value by auto.
  symmetry. apply (sum_window b V (fun i => pole i j) t I H F).
Qed.

Lemma curve_eval_rational_l t : dom0 b <= t <= dom1 b -> c_rational c = true ->
  (forall i, (i < size b)%nat -> 0 < pole i (c_dim c)) ->
  (forall i, (i < size b)%nat -> length (nth i (c_poles c) []) = S (c_dim c)) ->
  curve_eval c t = Some (map (fun j =>
     rsum (size b) (fun i => ev b i t * (pole i j * pole i (c_dim c)))
     / rsum (size b) (fun i => ev b i t * pole i (c_dim c))) (seq 0 (c_dim c))).
Proof.
  intros H Hr Hw Hl. unfold curve_eval.
  destruct (check_l b t ltac:(lra)) as (_ & E & _). rewrite E by auto.
  destruct (find_spec b V t H) as (I & F & A & _). rewrite F. unfold curve_eval_local.
  rewrite (eval_vector_l b V t I A), Hr.
  pose proof (len_eq b V) as (L1 & L2 & L3).
  assert (forall f, rsum (size b) (fun i => ev b i t * f i)
           = rsum (degree b + 1) (fun r => f (I + r)%nat * ev b (I + r) t)) as SW.
  { intros f. rewrite <- (sum_window b V f t I H F). apply rsum_ext. intros; ring. }
  assert (slice I (degree b + 1) (weights_of (c_dim c) (c_poles c))
          = map (fun p => nth (c_dim c) p 0) (slice I (degree b + 1) (c_poles c))) as ->.
  { unfold weights_of, column, slice. rewrite skipn_map, firstn_map. reflexivity. }
  rewrite window_value by auto.
  rewrite <- (SW (fun i => nth (c_dim c) (nth i (c_poles c) []) 0)).
  set (bot := rsum (size b) (fun i => ev b i t * nth (c_dim c) (nth i (c_poles c) []) 0)).
  assert (0 < bot) as Pb.
  { apply weighted_sum_pos; auto.
    - intros i Hi. apply (nonneg_l b V); auto.
    - apply (partition_l b V); auto. }
  apply all_some_map. intros j Hj. rewrite in_seq in Hj.
  assert (column j (slice I (degree b + 1) (weighted_of (c_dim c) (c_poles c)))
     = map (fun p => nth j (map (fun x => x * nth (c_dim c) p 0) (firstn (c_dim c) p)) 0)
           (slice I (degree b + 1) (c_poles c))) as ->.
  { unfold column, weighted_of, slice. rewrite skipn_map, firstn_map, map_map. reflexivity. }
  rewrite window_value by auto. rewrite ndiv_some by lra. f_equal. f_equal.
  rewrite (SW (fun i => pole i j * pole i (c_dim c))).
  apply rsum_ext. intros r Hr'. f_equal.
  rewrite (nth_map_lt _ _ j 0 0) by (rewrite firstn_length, Hl by lia; lia).
  unfold pole. f_equal.
  change (firstn (c_dim c) (nth (I + r) (c_poles c) [])) with
    (slice 0 (c_dim c) (nth (I + r) (c_poles c) [])).
  rewrite nth_slice by lia. reflexivity.
Qed.

Lemma poles_nonempty : c_poles c <> [].
Proof. pose proof (len_eq b V) as (L1 & L2 & L3). intros E. rewrite E in NP. simpl in NP. lia. Qed.

Lemma curve_aabb_l : exists lo hi, curve_aabb c = Some (lo, hi) /\
  length lo = length (nth 0 (c_poles c) []) /\ length hi = length (nth 0 (c_poles c) []) /\
  forall i j, (i < size b)%nat -> (j < length (nth 0 (c_poles c) []))%nat ->
    nth j lo 0 <= pole i j <= nth j hi 0.
Proof.
  pose proof poles_nonempty as NE. unfold curve_aabb.
  set (w := length (nth 0 (c_poles c) [])).
  assert (forall j, column j (c_poles c) <> []) as CN.
  { intros j. unfold column. destruct (c_poles c); easy. }
  rewrite (all_some_odef (fun j => amin (column j (c_poles c)))) by (intros; apply amin_some; auto).
  rewrite (all_some_odef (fun j => amax (column j (c_poles c)))) by (intros; apply amax_some; auto).
  eexists _, _. split; [reflexivity|]. rewrite !map_length, seq_length. split; auto. split; auto.
  intros i j Hi Hj. rewrite !nth_map_seq by auto.
  destruct (amin_some _ (CN j)) as [lo Elo]. destruct (amax_some _ (CN j)) as [hi Ehi].
  rewrite Elo, Ehi. cbn [odef].
  assert (In (pole i j) (column j (c_poles c))) as HI.
  { unfold column, pole. apply (in_map (fun p => nth j p 0)). apply nth_In. lia. }
  split; [apply (amin_spec _ _ Elo)|apply (amax_spec _ _ Ehi)]; auto.
Qed.

Lemma curve_aabb_tight_l lo hi j : curve_aabb c = Some (lo, hi) ->
  (j < length (nth 0 (c_poles c) []))%nat ->
  (exists p, In p (c_poles c) /\ nth j p 0 = nth j lo 0) /\
  (exists p, In p (c_poles c) /\ nth j p 0 = nth j hi 0).
Proof.
  intros H Hj. pose proof poles_nonempty as NE. unfold curve_aabb in H.
  assert (forall j, column j (c_poles c) <> []) as CN.
  { intros q. unfold column. destruct (c_poles c); easy. }
  rewrite (all_some_odef (fun j => amin (column j (c_poles c)))) in H by (intros; apply amin_some; auto).
  rewrite (all_some_odef (fun j => amax (column j (c_poles c)))) in H by (intros; apply amax_some; auto).
  injection H as <- <-. rewrite !nth_map_seq by auto.
  destruct (amin_some _ (CN j)) as [mn Elo]. destruct (amax_some _ (CN j)) as [mx Ehi].
  rewrite Elo, Ehi. cbn [odef].
  apply amin_in in Elo. apply amax_in in Ehi. unfold column in Elo, Ehi.
  rewrite in_map_iff in Elo, Ehi. destruct Elo as (p & E & I). destruct Ehi as (q & E' & I').
  split; [exists p|exists q]; auto.
Qed.

Lemma curve_hull_l t : dom0 b <= t <= dom1 b -> c_rational c = false ->
  exists p lo hi, curve_eval c t = Some p /\ curve_aabb c = Some (lo, hi) /\
    length p = c_dim c /\ forall j, (j < c_dim c)%nat -> nth j lo 0 <= nth j p 0 <= nth j hi 0.
Proof.
  intros H Hr. destruct curve_aabb_l as (lo & hi & E & _ & _ & B).
  eexists _, lo, hi. split; [apply curve_eval_l; auto|]. split; auto.
  rewrite map_length, seq_length. split; auto. intros j Hj. rewrite nth_map_seq by auto.
  rewrite (rsum_ext _ _ (fun i => ev b i t * pole i j)) by (intros; ring).
  apply convex_sum.
  - intros i Hi. apply (nonneg_l b V); auto.
  - apply (partition_l b V); auto.
  - intros i Hi. apply B; auto. unfold c_dim in Hj. lia.
Qed.

Lemma curve_hull_rational_l t : dom0 b <= t <= dom1 b -> c_rational c = true ->
  (forall i, (i < size b)%nat -> 0 < pole i (c_dim c)) ->
  (forall i, (i < size b)%nat -> length (nth i (c_poles c) []) = S (c_dim c)) ->
  exists p lo hi, curve_eval c t = Some p /\ curve_aabb c = Some (lo, hi) /\
    length p = c_dim c /\ forall j, (j < c_dim c)%nat -> nth j lo 0 <= nth j p 0 <= nth j hi 0.
Proof.
  intros H Hr Hw Hl. destruct curve_aabb_l as (lo & hi & E & _ & _ & B).
  eexists _, lo, hi. split; [apply curve_eval_rational_l; auto|]. split; auto.
  rewrite map_length, seq_length. split; auto. intros j Hj. rewrite nth_map_seq by auto.
  apply rational_bound; auto.
  - intros i Hi. apply (nonneg_l b V); auto.
  - apply (partition_l b V); auto.
  - intros i Hi. apply B; auto. unfold c_dim in Hj. lia.
Qed.
End CurveProofs.

(** Weighted sums at the two ends of the domain. *)
Lemma sum_start b : valid_basis b -> kn (knots b) (degree b) < kn (knots b) (degree b + 1) ->
  forall c, rsum (size b) (fun i => c i * ev b i (dom0 b)) = c 0%nat.
Proof.
  intros V H c. pose proof (len_eq b V) as (L1 & L2 & L3).
  assert (located b (degree b) (dom0 b)) as L.
  { unfold located. split; [lia|]. split; [lia|]. split; auto. unfold dom0. split; [lra|]. left. auto. }
  rewrite <- (rsum_delta (size b) 0 c) by lia. apply rsum_ext. intros i Hi.
  rewrite (ev_pc b V i _ _ Hi L).
  rewrite (pc_right_end _ (length (knots b)) _ _ _ ltac:(exact H)); try lia.
  - destruct (Nat.eqb_spec (i + degree b) (degree b)), (Nat.eqb_spec i 0); try lia; ring.
  - intros r Hr. apply (k_start b V). lia.
Qed.

Lemma curve_ends_l c : valid_basis (c_basis c) -> length (c_poles c) = size (c_basis c) ->
  c_rational c = false ->
  (forall p, In p (c_poles c) -> length p = c_dim c) ->
  kn (knots (c_basis c)) (degree (c_basis c)) < kn (knots (c_basis c)) (degree (c_basis c) + 1) ->
  curve_eval c (dom0 (c_basis c)) = Some (hd [] (c_poles c)) /\
  curve_eval c (dom1 (c_basis c)) = Some (last (c_poles c) []).
Proof.
  intros V NP Hr Hl Hs. pose proof (len_eq _ V) as (L1 & L2 & L3).
  assert (dom0 (c_basis c) < dom1 (c_basis c)) as D.
  { apply Rlt_le_trans with (kn (knots (c_basis c)) (degree (c_basis c) + 1)); [exact Hs|].
    apply (k_le_end _ V). lia. }
  assert (forall i, (i < size (c_basis c))%nat ->
     map (fun j => pole c i j) (seq 0 (c_dim c)) = nth i (c_poles c) []) as M.
  { intros i Hi. unfold pole. rewrite <- (Hl (nth i (c_poles c) [])) by (apply nth_In; lia).
    generalize (nth i (c_poles c) []). intros p.
    apply nth_ext with (d := 0) (d' := 0); rewrite map_length, seq_length; auto.
    intros j Hj. rewrite nth_map_seq by auto. reflexivity. }
  split.
  - rewrite (curve_eval_l c V NP) by (auto; lra). f_equal.
    transitivity (nth 0 (c_poles c) []); [|destruct (c_poles c); reflexivity].
    rewrite <- (M 0%nat) by lia. apply map_ext. intros j.
    apply (sum_start _ V Hs (fun i => pole c i j)).
  - rewrite (curve_eval_l c V NP) by (auto; lra). f_equal.
    transitivity (nth (size (c_basis c) - 1) (c_poles c) []).
    + rewrite <- (M (size (c_basis c) - 1)%nat) by lia. apply map_ext. intros j.
      apply (sum_end _ V (fun i => pole c i j)).
    + rewrite <- NP. generalize (c_poles c). induction l as [|x l IH]; [reflexivity|].
      destruct l as [|y l]; [reflexivity|].
      change (last (x :: y :: l) []) with (last (y :: l) []). rewrite <- IH. cbn [length].
      replace (S (S (length l)) - 1)%nat with (S (S (length l) - 1)) by lia. reflexivity.
Qed.

(** Affine maps x -> A x + o of points; A is given by rows. *)
Definition affine (A : list (list R)) (o : list R) (p : list R) : list R :=
  map (fun q => inner (nth q A []) p + nth q o 0) (seq 0 (length A)).

Lemma inner_sum l : forall p n, length l = n ->
  inner l p = rsum n (fun q => nth q l 0 * nth q p 0).
Proof.
  induction l as [|x l IH]; intros p n <-; [reflexivity|].
  cbn [length]. rewrite rsum_shift. destruct p as [|y p]; cbn [inner nth].
  - rewrite rsum_0; [ring|]. intros i _. destruct i; ring.
  - rewrite (IH p (length l)) by auto. reflexivity.
Qed.
Lemma inner_lin l n (f : nat -> R) (P : nat -> list R) :
  inner l (map (fun j => rsum n (fun i => nth j (P i) 0 * f i)) (seq 0 (length l)))
  = rsum n (fun i => inner l (P i) * f i).
Proof.
  rewrite (inner_sum l _ (length l) eq_refl).
  rewrite (rsum_ext (length l) _ (fun q => rsum n (fun i => (nth q l 0 * nth q (P i) 0) * f i))).
  - rewrite (rsum_ext n _ (fun i => rsum (length l) (fun q => nth q l 0 * nth q (P i) 0 * f i))).
    + generalize (length l) as m. induction m; cbn [rsum].
      * symmetry. apply rsum_0. auto.
      * rewrite IHm, <- rsum_plus. reflexivity.
    + intros i Hi. rewrite (inner_sum l _ (length l) eq_refl).
      rewrite Rmult_comm, <- rsum_scal. apply rsum_ext. intros; ring.
  - intros q Hq. rewrite nth_map_seq by auto. rewrite <- rsum_scal.
    apply rsum_ext. intros; ring.
Qed.

Lemma curve_affine_l c c' A o t : valid_basis (c_basis c) -> length (c_poles c) = size (c_basis c) ->
  c_rational c = false -> (forall r, In r A -> length r = c_dim c) ->
  c' = Curve (c_basis c) (map (affine A o) (c_poles c)) false ->
  dom0 (c_basis c) <= t <= dom1 (c_basis c) ->
  exists p, curve_eval c t = Some p /\ curve_eval c' t = Some (affine A o p).
Proof.
  intros V NP Hr HA -> H. pose proof (len_eq _ V) as (L1 & L2 & L3).
  eexists. split; [apply curve_eval_l; auto|].
  rewrite curve_eval_l; cbn [c_basis c_poles c_rational]; auto.
  2:{ rewrite map_length. auto. }
  f_equal.
  assert (c_dim (Curve (c_basis c) (map (affine A o) (c_poles c)) false) = length A) as Ed.
  { unfold c_dim. cbn [c_poles c_rational rat_cols].
    rewrite (nth_map_lt _ _ 0%nat [] []) by lia. unfold affine.
    rewrite map_length, seq_length. lia. }
  rewrite Ed. unfold affine at 2. apply map_ext_in. intros q Hq. rewrite in_seq in Hq.
  pose proof (inner_lin (nth q A []) (size (c_basis c)) (fun i => ev (c_basis c) i t)
             (fun i => nth i (c_poles c) [])) as IL.
  rewrite (HA (nth q A [])) in IL by (apply nth_In; lia).
  etransitivity; [|apply f_equal2; [symmetry; exact IL|reflexivity]].
  replace (nth q o 0) with (nth q o 0 * rsum (size (c_basis c)) (fun i => ev (c_basis c) i t)).
  2:{ rewrite (partition_l _ V) by auto. ring. }
  rewrite <- rsum_scal, <- rsum_plus. apply rsum_ext. intros i Hi. unfold pole. cbn [c_poles].
  rewrite (nth_map_lt _ _ i [] []) by lia. unfold affine.
  rewrite nth_map_seq by lia. ring.
Qed.

(** * Surfaces *)
Section SurfaceProofs.
Variable s : surface.
Hypothesis VU : valid_basis (u_basis s).
Hypothesis VV : valid_basis (v_basis s).
Hypothesis NU : length (s_poles s) = size (u_basis s).
Hypothesis NV : forall r, In r (s_poles s) -> length r = size (v_basis s).
Notation ub := (u_basis s).
Notation vb := (v_basis s).

Definition spole (i k j : nat) : R := nth j (nth k (nth i (s_poles s) []) []) 0.

Lemma inner2_value (g : list R -> R) u v iu iv :
  (iu < n_intervals ub)%nat -> (iv < n_intervals vb)%nat ->
  inner2 (map (fun r => ev ub (iu + r) u) (seq 0 (degree ub + 1)))
         (map (fun r => ev vb (iv + r) v) (seq 0 (degree vb + 1)))
         (sub_array iu (degree ub + 1) iv (degree vb + 1) g (s_poles s))
  = rsum (degree vb + 1) (fun q =>
      rsum (degree ub + 1) (fun r =>
        g (nth (iv + q) (nth (iu + r) (s_poles s) []) []) * ev ub (iu + r) u) * ev vb (iv + q) v).
Proof.
  intros Hu Hv. pose proof (len_eq _ VU) as (U1 & U2 & U3). pose proof (len_eq _ VV) as (V1 & V2 & V3).
  unfold inner2. rewrite map_length, seq_length. rewrite inner_seq.
  apply rsum_ext. intros q Hq. rewrite nth_map_seq by auto. f_equal.
  rewrite inner_seq. apply rsum_ext. intros r Hr.
  unfold column, sub_array. rewrite map_map.
  rewrite (nth_map_lt _ _ r 0 []) by (rewrite slice_length; lia).
  rewrite nth_slice by auto.
  rewrite (nth_map_lt g _ q 0 []).
  - rewrite nth_slice by auto. ring.
  - rewrite slice_length; auto. rewrite NV; [lia|]. apply nth_In. lia.
Qed.

Lemma double_window (g : nat -> nat -> R) u v iu iv :
  dom0 ub <= u <= dom1 ub -> dom0 vb <= v <= dom1 vb ->
  find_knot_interval ub u = Some iu -> find_knot_interval vb v = Some iv ->
  rsum (degree vb + 1) (fun q =>
      rsum (degree ub + 1) (fun r => g (iu + r)%nat (iv + q)%nat * ev ub (iu + r) u) * ev vb (iv + q) v)
  = rsum (size vb) (fun k => rsum (size ub) (fun i => g i k * ev ub i u) * ev vb k v).
Proof.
  intros Hu Hv Fu Fv.
  rewrite (sum_window vb VV (fun k => rsum (size ub) (fun i => g i k * ev ub i u)) v iv Hv Fv).
  apply rsum_ext. intros q Hq. f_equal.
  rewrite (sum_window ub VU (fun i => g i (iv + q)%nat) u iu Hu Fu). reflexivity.
Qed.

Lemma surface_eval_l u v : dom0 ub <= u <= dom1 ub -> dom0 vb <= v <= dom1 vb ->
  s_rational s = false ->
  surface_eval s u v = Some (map (fun j =>
     rsum (size vb) (fun k => rsum (size ub) (fun i => spole i k j * ev ub i u) * ev vb k v))
     (seq 0 (s_dim s))).
Proof.
  intros Hu Hv Hr. unfold surface_eval.
  destruct (check_l ub u ltac:(lra)) as (_ & Eu & _). rewrite Eu by auto.
  destruct (check_l vb v ltac:(lra)) as (_ & Ev & _). rewrite Ev by auto.
  destruct (find_spec ub VU u Hu) as (iu & Fu & Au & _). rewrite Fu.
  destruct (find_spec vb VV v Hv) as (iv & Fv & Av & _). rewrite Fv.
  unfold surface_eval_local.
  rewrite (eval_vector_l ub VU u iu Au), (eval_vector_l vb VV v iv Av), Hr.
  f_equal. apply map_ext. intros j. rewrite inner2_value by auto.
  apply (double_window (fun i k => spole i k j)); auto.
Qed.

Lemma surface_aabb_l : exists lo hi, surface_aabb s = Some (lo, hi) /\
  forall i k j, (i < size ub)%nat -> (k < size vb)%nat ->
    (j < length (nth 0 (nth 0 (s_poles s) []) []))%nat ->
    nth j lo 0 <= spole i k j <= nth j hi 0.
Proof.
  pose proof (len_eq _ VU) as (U1 & U2 & U3). pose proof (len_eq _ VV) as (V1 & V2 & V3).
  assert (forall i k, (i < size ub)%nat -> (k < size vb)%nat ->
            In (nth k (nth i (s_poles s) []) []) (concat (s_poles s))) as HIn.
  { intros i k Hi Hk. apply in_concat. exists (nth i (s_poles s) []).
    assert (In (nth i (s_poles s) []) (s_poles s)) as HI by (apply nth_In; lia).
    split; auto. apply nth_In. rewrite NV; auto. }
  assert (forall j, column j (concat (s_poles s)) <> []) as CN.
  { intros j E. apply map_eq_nil in E. specialize (HIn 0%nat 0%nat ltac:(lia) ltac:(lia)).
    rewrite E in HIn. destruct HIn. }
  unfold surface_aabb.
  rewrite (all_some_odef (fun j => amin (column j (concat (s_poles s)))))
    by (intros; apply amin_some; auto).
  rewrite (all_some_odef (fun j => amax (column j (concat (s_poles s)))))
    by (intros; apply amax_some; auto).
  eexists _, _. split; [reflexivity|].
  intros i k j Hi Hk Hj. rewrite !nth_map_seq by auto.
  destruct (amin_some _ (CN j)) as [lo Elo]. destruct (amax_some _ (CN j)) as [hi Ehi].
  rewrite Elo, Ehi. cbn [odef].
  assert (In (spole i k j) (column j (concat (s_poles s)))) as HI.
  { unfold column, spole. apply (in_map (fun p => nth j p 0)). auto. }
  split; [apply (amin_spec _ _ Elo)|apply (amax_spec _ _ Ehi)]; auto.
Qed.

Lemma surface_aabb_tight_l lo hi j : surface_aabb s = Some (lo, hi) ->
  (j < length (nth 0 (nth 0 (s_poles s) []) []))%nat ->
  (exists p, In p (concat (s_poles s)) /\ nth j p 0 = nth j lo 0) /\
  (exists p, In p (concat (s_poles s)) /\ nth j p 0 = nth j hi 0).
Proof.
  clear VU VV NU NV.
  intros H Hj. unfold surface_aabb in H.
  assert (concat (s_poles s) <> []) as CC.
  { intros E. destruct (s_poles s) as [|r l]; [simpl in Hj; lia|].
    destruct r as [|p r]; [simpl in Hj; lia|discriminate]. }
  assert (forall j, column j (concat (s_poles s)) <> []) as CN.
  { intros q. unfold column. destruct (concat (s_poles s)); easy. }
  rewrite (all_some_odef (fun j => amin (column j (concat (s_poles s))))) in H
    by (intros; apply amin_some; auto).
  rewrite (all_some_odef (fun j => amax (column j (concat (s_poles s))))) in H
    by (intros; apply amax_some; auto).
  injection H as <- <-. rewrite !nth_map_seq by auto.
  destruct (amin_some _ (CN j)) as [mn Elo]. destruct (amax_some _ (CN j)) as [mx Ehi].
  rewrite Elo, Ehi. cbn [odef].
  apply amin_in in Elo. apply amax_in in Ehi. unfold column in Elo, Ehi.
  rewrite in_map_iff in Elo, Ehi. destruct Elo as (p & E & I). destruct Ehi as (q & E' & I').
  split; [exists p|exists q]; auto.
Qed.

Lemma surface_hull_l u v : dom0 ub <= u <= dom1 ub -> dom0 vb <= v <= dom1 vb ->
  s_rational s = false ->
  exists p lo hi, surface_eval s u v = Some p /\ surface_aabb s = Some (lo, hi) /\
    length p = s_dim s /\ forall j, (j < s_dim s)%nat -> nth j lo 0 <= nth j p 0 <= nth j hi 0.
Proof.
  intros Hu Hv Hr. destruct surface_aabb_l as (lo & hi & E & B).
  eexists _, lo, hi. split; [apply surface_eval_l; auto|]. split; auto.
  rewrite map_length, seq_length. split; auto. intros j Hj. rewrite nth_map_seq by auto.
  assert (j < length (nth 0 (nth 0 (s_poles s) []) []))%nat as Hj' by (unfold s_dim in Hj; lia).
  rewrite (rsum_ext (size vb) _ (fun k => ev vb k v * rsum (size ub) (fun i => ev ub i u * spole i k j))).
  2:{ intros k Hk. rewrite Rmult_comm. f_equal. apply rsum_ext. intros; ring. }
  apply convex_sum.
  - intros k Hk. apply (nonneg_l vb VV); auto.
  - apply (partition_l vb VV); auto.
  - intros k Hk. apply convex_sum.
    + intros i Hi. apply (nonneg_l ub VU); auto.
    + apply (partition_l ub VU); auto.
    + intros i Hi. apply B; auto.
Qed.

Lemma surface_corner_l (eu ev' : bool) : s_rational s = false ->
  kn (knots ub) (degree ub) < kn (knots ub) (degree ub + 1) ->
  kn (knots vb) (degree vb) < kn (knots vb) (degree vb + 1) ->
  surface_eval s (if eu then dom1 ub else dom0 ub) (if ev' then dom1 vb else dom0 vb)
  = Some (map (fun j => spole (if eu then size ub - 1 else 0) (if ev' then size vb - 1 else 0) j)
              (seq 0 (s_dim s))).
Proof.
  intros Hr Su Sv.
  pose proof (len_eq _ VU) as (U1 & U2 & U3). pose proof (len_eq _ VV) as (V1 & V2 & V3).
  assert (dom0 ub < dom1 ub) as Du.
  { apply Rlt_le_trans with (kn (knots ub) (degree ub + 1)); [exact Su|]. apply (k_le_end _ VU). lia. }
  assert (dom0 vb < dom1 vb) as Dv.
  { apply Rlt_le_trans with (kn (knots vb) (degree vb + 1)); [exact Sv|]. apply (k_le_end _ VV). lia. }
  rewrite surface_eval_l by (auto; first [destruct eu; lra|destruct ev'; lra]).
  f_equal. apply map_ext. intros j.
  assert (forall c, rsum (size ub) (fun i => c i * ev ub i (if eu then dom1 ub else dom0 ub))
            = c (if eu then size ub - 1 else 0)%nat) as Eu.
  { intros c. destruct eu; [apply (sum_end ub VU)|apply (sum_start ub VU Su)]. }
  assert (forall c, rsum (size vb) (fun i => c i * ev vb i (if ev' then dom1 vb else dom0 vb))
            = c (if ev' then size vb - 1 else 0)%nat) as Ev.
  { intros c. destruct ev'; [apply (sum_end vb VV)|apply (sum_start vb VV Sv)]. }
  rewrite (Ev (fun k => rsum (size ub) (fun i => spole i k j * ev ub i (if eu then dom1 ub else dom0 ub)))).
  apply (Eu (fun i => spole i _ j)).
Qed.
End SurfaceProofs.

(** * Patch numbers *)
Lemma patch_l s iu iv id : (0 < n_intervals (v_basis s))%nat ->
  ((iv < n_intervals (v_basis s))%nat -> patch_id2pos s (patch_pos2id s iu iv) = (iu, iv)) /\
  patch_pos2id s (fst (patch_id2pos s id)) (snd (patch_id2pos s id)) = id /\
  (snd (patch_id2pos s id) < n_intervals (v_basis s))%nat /\
  ((id < n_intervals (u_basis s) * n_intervals (v_basis s))%nat <->
     (fst (patch_id2pos s id) < n_intervals (u_basis s))%nat).
Proof.
  intros H. set (n := n_intervals (v_basis s)) in *. set (m := n_intervals (u_basis s)).
  unfold patch_id2pos, patch_pos2id. cbn [fst snd]. fold n.
  pose proof (Nat.div_mod id n ltac:(lia)) as D.
  pose proof (Nat.mod_upper_bound id n ltac:(lia)) as M.
  split; [|split; [|split]].
  - intros Hv. assert ((iu * n + iv) / n = iu)%nat as ->.
    { rewrite Nat.add_comm, Nat.div_add by lia. rewrite Nat.div_small by auto. lia. }
    f_equal. lia.
  - nia.
  - nia.
  - split.
    + intros Hi. apply Nat.div_lt_upper_bound; lia.
    + intros Hi. nia.
Qed.
