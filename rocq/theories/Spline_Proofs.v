(** Proofs for the B-spline basis. *)
From Coq Require Import List Arith Bool Reals Lia Lra.
From Verif Require Import Spline_Model Spline_Spec Spline_Piece.
Import ListNotations.
Open Scope R_scope.

Lemma Rleb_spec a b : reflect (a <= b) (Rleb a b).
Proof. unfold Rleb; destruct (Rle_dec a b); constructor; auto. Qed.
Lemma Rltb_spec a b : reflect (a < b) (Rltb a b).
Proof. unfold Rltb; destruct (Rlt_dec a b); constructor; auto. Qed.
Lemma Reqb_spec a b : reflect (a = b) (Reqb a b).
Proof. unfold Reqb; destruct (Req_EM_T a b); constructor; auto. Qed.
Lemma Reqb_refl a : Reqb a a = true.
Proof. destruct (Reqb_spec a a); auto. Qed.

(** A basis accepted by the constructor, with non-decreasing knots and at least
    one interval. *)
Record valid_basis (b : basis) : Prop := {
  vb_ctor : make_basis (degree b) (knots b) = Some b;
  vb_mono : nondecreasing (knots b);
  vb_len : (2 * degree b + 2 <= length (knots b))%nat }.

Section Basis.
Variable b : basis.
Hypothesis V : valid_basis b.
Notation k := (kn (knots b)).
Notation deg := (degree b).
Notation len := (length (knots b)).

Lemma len_eq : len = (n_intervals b + 2 * deg + 1)%nat /\ (1 <= n_intervals b)%nat /\
  size b = (n_intervals b + deg)%nat.
Proof. pose proof (vb_len b V). unfold n_intervals, size. lia. Qed.

Lemma mono : forall i j, (i <= j)%nat -> (j < len)%nat -> k i <= k j.
Proof. exact (vb_mono b V). Qed.

Lemma ends : forall i, (i < deg)%nat ->
  k i = k (i + 1)%nat /\ k (len - 1 - i)%nat = k (len - 2 - i)%nat.
Proof.
  intros i Hi. pose proof (vb_ctor b V) as H. unfold make_basis in H.
  destruct (free_ends deg (knots b)) eqn:E; [|discriminate].
  unfold free_ends in E. apply andb_prop in E as [_ E].
  rewrite forallb_forall in E. specialize (E i).
  rewrite in_seq in E. specialize (E ltac:(lia)). apply andb_prop in E as [E1 E2].
  destruct (Reqb_spec (k i) (k (i + 1)%nat)); [|discriminate].
  destruct (Reqb_spec (k (len - 1 - i)%nat) (k (len - 2 - i)%nat)); [|discriminate]. auto.
Qed.

Lemma k_start : forall i, (i <= deg)%nat -> k i = dom0 b.
Proof.
  assert (forall i, (i <= deg)%nat -> k i = k 0%nat) as H.
  { induction i; intros Hi; auto. rewrite <- IHi by lia.
    destruct (ends i ltac:(lia)) as [E _]. rewrite E. f_equal; lia. }
  intros i Hi. unfold dom0. rewrite (H i), (H deg) by lia. reflexivity.
Qed.
Lemma k_end : forall i, (size b <= i)%nat -> (i < len)%nat -> k i = dom1 b.
Proof.
  assert (forall i, (i <= deg)%nat -> k (len - 1 - i)%nat = k (len - 1)%nat) as H.
  { induction i; intros Hi; [f_equal; lia|]. rewrite <- IHi by lia.
    destruct (ends i ltac:(lia)) as [_ E]. rewrite E. f_equal; lia. }
  pose proof len_eq as (L & _ & S).
  intros i Hi Hl. unfold dom1.
  replace i with (len - 1 - (len - 1 - i))%nat by lia.
  rewrite H by lia. replace (len - deg - 1)%nat with (len - 1 - deg)%nat by lia.
  rewrite H by lia. reflexivity.
Qed.
Lemma dom1_k : dom1 b = k (size b).
Proof. reflexivity. Qed.

Lemma k_le_end i : (i < len)%nat -> k i <= dom1 b.
Proof.
  intros H. destruct (le_lt_dec (size b) i) as [L|L].
  - rewrite k_end by auto. lra.
  - rewrite dom1_k. apply mono; pose proof len_eq; lia.
Qed.

(** t lies in interval number j (of all knots) on which splines are evaluated. *)
Definition located (j : nat) (t : R) : Prop :=
  (deg <= j)%nat /\ (j < size b)%nat /\ k j < k (j + 1)%nat /\ k j <= t /\
  (t < k (j + 1)%nat \/ (t = dom1 b /\ j + 1 = size b)%nat).

Lemma located_range j t : located j t -> (j + deg + 1 < len)%nat.
Proof. intros (A & B & _). pose proof len_eq. lia. Qed.
Lemma located_le j t : located j t -> t <= k (j + 1)%nat.
Proof.
  intros (A & B & C & D & [E|[E F]]); [lra|]. rewrite F, E, dom1_k. lra.
Qed.

Lemma bas_pc d : forall i j t, (j + 1 < len)%nat ->
  k j <= t -> t < k (j + 1)%nat -> (i + d + 1 < len)%nat ->
  bas (knots b) d i t = pc k j d i t.
Proof.
  induction d; intros i j t Hj H1 H2 Hi; cbn [bas pc].
  - destruct (Nat.eqb_spec i j) as [->|E].
    + destruct (Rleb_spec (k j) t); [|lra].
      destruct (Rltb_spec t (k (j + 1)%nat)); [|lra]. reflexivity.
    + destruct (le_lt_dec j i) as [L|L].
      * pose proof (mono (j + 1) i ltac:(lia) ltac:(lia)).
        destruct (Rleb_spec (k i) t); [lra|]. reflexivity.
      * pose proof (mono (i + 1) j ltac:(lia) ltac:(lia)).
        destruct (Rltb_spec t (k (i + 1)%nat)); [lra|]. rewrite andb_false_r. reflexivity.
  - rewrite (IHd i j t), (IHd (i + 1)%nat j t) by (auto; lia).
    assert (forall a, (a + S d < len)%nat -> k (a + S d)%nat - k a = 0 ->
             pc k j d a t = 0) as Z.
    { intros a Ha E. apply pc_out.
      destruct (le_lt_dec a j) as [L|L]; [|now left].
      destruct (le_lt_dec j (a + d)) as [L'|L']; [|now right]. exfalso.
      pose proof (denom_pos k len mono j a (a + S d) ltac:(lra) L ltac:(lia) ltac:(lia)).
      lra. }
    destruct (Reqb_spec (k (i + S d)%nat - k i) 0) as [E|E]; cbn [negb].
    + rewrite (Z i) by (auto; lia).
      destruct (Reqb_spec (k (i + S d + 1)%nat - k (i + 1)%nat) 0) as [E'|E']; cbn [negb].
      * rewrite (Z (i + 1)%nat); [ring|lia|]. rewrite <- E'. f_equal. f_equal. lia.
      * ring.
    + destruct (Reqb_spec (k (i + S d + 1)%nat - k (i + 1)%nat) 0) as [E'|E']; cbn [negb].
      * rewrite (Z (i + 1)%nat); [ring|lia|]. rewrite <- E'. f_equal. f_equal. lia.
      * ring.
Qed.

(** Outside of the support. *)
Lemma bas_above d : forall i t, (i + d + 1 < len)%nat -> k (i + d + 1)%nat <= t ->
  bas (knots b) d i t = 0.
Proof.
  induction d; intros i t Hi Ht; cbn [bas].
  - replace (i + 0 + 1)%nat with (i + 1)%nat in Ht by lia.
    destruct (Rltb_spec t (k (i + 1)%nat)); [lra|]. rewrite andb_false_r. reflexivity.
  - pose proof (mono (i + d + 1) (i + S d + 1) ltac:(lia) ltac:(lia)).
    rewrite (IHd i) by (try lia; lra).
    rewrite (IHd (i + 1)%nat).
    2: lia.
    2:{ replace (i + 1 + d + 1)%nat with (i + S d + 1)%nat by lia. lra. }
    destruct (negb _), (negb _); ring.
Qed.
Lemma bas_below d : forall i t, (i + d + 1 < len)%nat -> t < k i -> bas (knots b) d i t = 0.
Proof.
  induction d; intros i t Hi Ht; cbn [bas].
  - destruct (Rleb_spec (k i) t); [lra|]. reflexivity.
  - pose proof (mono i (i + 1) ltac:(lia) ltac:(lia)).
    rewrite (IHd i), (IHd (i + 1)%nat) by (try lia; lra).
    destruct (negb _), (negb _); ring.
Qed.

Definition ev (i : nat) (t : R) : R := value_of (eval b i t).

Lemma eval_ev i t : (i < size b)%nat -> eval b i t = Some (ev i t).
Proof.
  intros H. unfold ev, eval. destruct (Nat.ltb_spec i (size b)); [|lia].
  destruct (_ && _); reflexivity.
Qed.
Lemma eval_none i t : (size b <= i)%nat -> eval b i t = None.
Proof. intros H. unfold eval. destruct (Nat.ltb_spec i (size b)); [lia|reflexivity]. Qed.

Lemma ev_end i : (i < size b)%nat -> ev i (dom1 b) = if (i + 1 =? size b)%nat then 1 else 0.
Proof.
  intros H. unfold ev, eval. destruct (Nat.ltb_spec i (size b)); [|lia].
  rewrite Reqb_refl. destruct (Nat.eqb_spec (i + 1) (size b)) as [E|E]; [reflexivity|].
  cbn. pose proof len_eq. apply bas_above; [lia|].
  apply k_le_end; lia.
Qed.

Lemma ev_pc i j t : (i < size b)%nat -> located j t -> ev i t = pc k j deg i t.
Proof.
  intros Hi L. pose proof (located_range _ _ L) as Hr. pose proof len_eq as Le.
  destruct L as (A & B & C & D & [E|[E F]]).
  - unfold ev, eval. destruct (Nat.ltb_spec i (size b)); [|lia].
    destruct (Reqb_spec t (dom1 b)) as [->|N].
    + exfalso. rewrite dom1_k in E.
      pose proof (mono (j + 1) (size b) ltac:(lia) ltac:(lia)). lra.
    + rewrite andb_false_r. cbn. apply bas_pc; auto; lia.
  - subst t. rewrite ev_end by auto.
    rewrite pc_left_end.
    + destruct (Nat.eqb_spec (i + 1) (size b)), (Nat.eqb_spec i j); auto; lia.
    + rewrite F in C. rewrite dom1_k. exact C.
    + intros r Hrr. apply k_end; lia.
Qed.

(** Search. *)
Lemma search_spec l t : nondecreasing l ->
  let c := searchsorted_right l t in
  (c <= length l)%nat /\ (forall i, (i < c)%nat -> nth i l 0 <= t) /\
  (forall i, (c <= i)%nat -> (i < length l)%nat -> t < nth i l 0).
Proof.
  unfold searchsorted_right. induction l as [|a l IH]; intros H; cbn [filter].
  - simpl. repeat split; intros; lia.
  - assert (nondecreasing l) as Hl.
    { intros i j Hij Hj. apply (H (S i) (S j)); simpl; lia. }
    destruct (IH Hl) as (I1 & I2 & I3).
    destruct (Rleb_spec a t) as [L|L].
    + cbn [length]. split; [lia|split].
      * intros [|i] Hi; cbn [nth]; auto. apply I2. lia.
      * intros [|i] Hi Hi'; [lia|]. cbn [nth]. apply I3; lia.
    + assert (filter (fun q => Rleb q t) l = []) as ->.
      { assert (forall x, In x l -> t < x) as G.
        { intros x Hx. apply In_nth with (d := 0) in Hx as (n & Hn & <-).
          specialize (H 0%nat (S n) ltac:(lia)). simpl in H.
          specialize (H ltac:(lia)). lra. }
        clear - G. induction l as [|x l IH]; cbn; auto.
        destruct (Rleb_spec x t); [pose proof (G x (or_introl eq_refl)); lra|].
        apply IH. intros y Hy. apply G. now right. }
      cbn [length]. split; [lia|split].
      * intros; lia.
      * intros i _ Hi. specialize (H 0%nat i ltac:(lia) Hi). simpl in *. lra.
Qed.

Lemma interval_knots_nth i : (i < n_intervals b)%nat -> nth i (interval_knots b) 0 = k (deg + i)%nat.
Proof.
  intros Hi. unfold interval_knots, kn. pose proof len_eq as (L & _).
  assert (forall (l : list R) n j, (j < n)%nat -> nth j (firstn n l) 0 = nth j l 0) as F.
  { induction l; intros [|n] [|j] Hj; simpl; auto; try lia. apply IHl. lia. }
  rewrite F by lia.
  assert (forall n (l : list R), nth i (skipn n l) 0 = nth (n + i) l 0) as G.
  { induction n; intros l; [reflexivity|]. destruct l; cbn; [destruct i; reflexivity|]. apply IHn. }
  apply G.
Qed.
Lemma interval_knots_length : length (interval_knots b) = n_intervals b.
Proof.
  unfold interval_knots. rewrite firstn_length, skipn_length. pose proof len_eq. lia.
Qed.
Lemma interval_knots_mono : nondecreasing (interval_knots b).
Proof.
  intros i j Hij Hj. rewrite interval_knots_length in Hj.
  rewrite !interval_knots_nth by lia. apply mono; pose proof len_eq; lia.
Qed.

Lemma find_spec t : dom0 b <= t <= dom1 b ->
  exists I, find_knot_interval b t = Some I /\ (I < n_intervals b)%nat /\
    k (deg + I)%nat <= t /\
    (t < k (deg + I + 1)%nat \/ (t = dom1 b /\ I + 1 = n_intervals b)%nat).
Proof.
  intros [H0 H1]. unfold find_knot_interval.
  destruct (search_spec (interval_knots b) t interval_knots_mono) as (C1 & C2 & C3).
  rewrite interval_knots_length in C1, C3. pose proof len_eq as (L1 & L2 & L3).
  set (c := searchsorted_right (interval_knots b) t) in *.
  destruct (Nat.eqb_spec c 0) as [E|E].
  - exfalso. specialize (C3 0%nat ltac:(lia) ltac:(lia)).
    rewrite interval_knots_nth in C3 by lia. rewrite Nat.add_0_r in C3.
    unfold dom0 in H0. lra.
  - destruct (Nat.leb_spec (c - 1) (n_intervals b)); [|lia].
    exists (c - 1)%nat. split; [f_equal; lia|]. split; [lia|]. split.
    + rewrite <- interval_knots_nth by lia. apply C2. lia.
    + destruct (Nat.eq_dec c (n_intervals b)) as [F|F].
      * destruct (Req_dec t (dom1 b)) as [->|N]; [right; split; auto; lia|left].
        replace (deg + (c - 1) + 1)%nat with (size b) by lia. rewrite <- dom1_k. lra.
      * left. specialize (C3 c ltac:(lia) ltac:(lia)).
        rewrite interval_knots_nth in C3 by lia.
        replace (deg + (c - 1) + 1)%nat with (deg + c)%nat by lia. exact C3.
Qed.

Lemma find_out t : t < dom0 b -> find_knot_interval b t = None.
Proof.
  intros H. unfold find_knot_interval.
  destruct (search_spec (interval_knots b) t interval_knots_mono) as (C1 & C2 & C3).
  set (c := searchsorted_right (interval_knots b) t) in *. pose proof len_eq as (L1 & L2 & L3).
  rewrite interval_knots_length in C1.
  destruct (Nat.eqb_spec c 0) as [E|E]; auto. exfalso.
  specialize (C2 0%nat ltac:(lia)). rewrite interval_knots_nth in C2 by lia.
  rewrite Nat.add_0_r in C2. unfold dom0 in H. lra.
Qed.

(** Position of a parameter: either in a non-empty interval or at the end of a
    domain whose last interval is empty. *)
Lemma find_located t I : dom0 b <= t <= dom1 b -> find_knot_interval b t = Some I ->
  located (deg + I) t \/ (t = dom1 b /\ (I + 1 = n_intervals b)%nat).
Proof.
  intros H F. destruct (find_spec t H) as (I' & F' & A & B & C). rewrite F in F'.
  injection F' as <-. pose proof len_eq as (L1 & L2 & L3).
  destruct C as [C|C]; [|now right].
  left. unfold located. split; [lia|]. split; [lia|]. split; [lra|]. split; auto.
Qed.

Lemma rsum_window n a w f : (a + w <= n)%nat ->
  (forall i, (i < n)%nat -> (i < a \/ a + w <= i)%nat -> f i = 0) ->
  rsum n f = rsum w (fun r => f (a + r)%nat).
Proof.
  intros H Z. replace n with (a + (w + (n - a - w)))%nat by lia.
  rewrite rsum_app, rsum_app.
  rewrite (rsum_0 a f) by (intros; apply Z; lia).
  rewrite (rsum_0 (n - a - w)) by (intros; apply Z; lia). ring.
Qed.

(** Weighted sums of basis functions over the whole index range, and over the
    window of the interval. *)
Lemma sum_window c t I : dom0 b <= t <= dom1 b -> find_knot_interval b t = Some I ->
  rsum (size b) (fun i => c i * ev i t) = rsum (deg + 1) (fun r => c (I + r)%nat * ev (I + r) t).
Proof.
  intros H F. destruct (find_spec t H) as (I' & F' & A & B & C).
  rewrite F in F'. injection F' as <-. pose proof len_eq as (L1 & L2 & L3).
  rewrite (rsum_window _ I (deg + 1)); [reflexivity|lia|]. intros i Hi O.
  destruct (find_located t I H F) as [L|[-> E]].
  - rewrite (ev_pc i _ t Hi L). rewrite pc_out by lia. ring.
  - rewrite ev_end by auto. destruct (Nat.eqb_spec (i + 1) (size b)); [lia|ring].
Qed.

Lemma sum_W c t j : located j t -> rsum (size b) (fun i => c i * ev i t) = W k j deg c t.
Proof.
  intros L. unfold W. pose proof (located_range _ _ L). pose proof len_eq as (L1 & L2 & L3).
  rewrite (rsum_window _ (j - deg) (deg + 1)).
  - apply rsum_ext. intros r Hr. rewrite (ev_pc _ j t) by (auto; destruct L; lia). reflexivity.
  - destruct L; lia.
  - intros i Hi O. rewrite (ev_pc _ j t) by auto. rewrite pc_out by (destruct L; lia). ring.
Qed.

Lemma sum_end c : rsum (size b) (fun i => c i * ev i (dom1 b)) = c (size b - 1)%nat.
Proof.
  pose proof len_eq as (L1 & L2 & L3).
  rewrite <- (rsum_delta (size b) (size b - 1) c) by lia.
  apply rsum_ext. intros i Hi. rewrite ev_end by auto.
  destruct (Nat.eqb_spec (i + 1) (size b)), (Nat.eqb_spec i (size b - 1)); try lia; ring.
Qed.

Lemma locate t : dom0 b <= t <= dom1 b ->
  (exists j, located j t /\ find_knot_interval b t = Some (j - deg)%nat) \/ t = dom1 b.
Proof.
  intros H. destruct (find_spec t H) as (I & F & _).
  destruct (find_located t I H F) as [L|[-> _]]; auto.
  left. exists (deg + I)%nat. split; auto. rewrite F. f_equal. lia.
Qed.

Lemma partition_l t : dom0 b <= t <= dom1 b -> rsum (size b) (fun i => ev i t) = 1.
Proof.
  intros H. rewrite (rsum_ext _ _ (fun i => 1 * ev i t)) by (intros; ring).
  destruct (locate t H) as [(j & L & _)| ->].
  - rewrite (sum_W (fun _ => 1) t j L). apply (W_one k len mono); destruct L as (A & B & C & _); auto.
    pose proof len_eq. lia.
  - exact (sum_end (fun _ => 1)).
Qed.

Lemma nonneg_l i t : dom0 b <= t <= dom1 b -> (i < size b)%nat -> 0 <= ev i t.
Proof.
  intros H Hi. destruct (locate t H) as [(j & L & _)| ->].
  - rewrite (ev_pc i j t) by auto. pose proof (located_range _ _ L).
    apply (pc_nonneg k len mono); try apply L; [lia|]. apply (located_le j t L).
  - rewrite ev_end by auto. destruct (_ =? _)%nat; lra.
Qed.

Lemma support_l i t I : dom0 b <= t <= dom1 b -> (i < size b)%nat ->
  find_knot_interval b t = Some I -> ev i t <> 0 -> (I <= i <= I + deg)%nat.
Proof.
  intros H Hi F N. pose proof len_eq as (L1 & L2 & L3).
  destruct (find_located t I H F) as [L|[-> E]].
  - rewrite (ev_pc i _ t Hi L) in N.
    destruct (le_lt_dec I i), (le_lt_dec i (I + deg)); auto; exfalso; apply N; apply pc_out; lia.
  - rewrite ev_end in N by auto. destruct (Nat.eqb_spec (i + 1) (size b)); [lia|lra].
Qed.

Lemma supp_interval_l i t : (i < size b)%nat -> ev i t <> 0 ->
  fst (fn_supp b i) <= t <= snd (fn_supp b i).
Proof.
  intros Hi N. unfold fn_supp; cbn. pose proof len_eq as (L1 & L2 & L3).
  unfold ev, eval in N. destruct (Nat.ltb_spec i (size b)); [|lia].
  destruct (Nat.eqb_spec (i + 1) (size b)) as [E|E]; cbn in N.
  - destruct (Reqb_spec t (dom1 b)) as [->|M]; cbn in N.
    + rewrite dom1_k. split; apply mono; lia.
    + split; apply Rnot_lt_le; intros C; apply N; [apply bas_below|apply bas_above]; try lia; lra.
  - split; apply Rnot_lt_le; intros C; apply N; [apply bas_below|apply bas_above]; try lia; lra.
Qed.

(** eval_vector. *)
Lemma all_some_map {A} (f : nat -> option A) g l :
  (forall i, In i l -> f i = Some (g i)) -> all_some (map f l) = Some (map g l).
Proof.
  induction l; cbn; intros H; auto.
  rewrite H by auto. rewrite IHl by auto. reflexivity.
Qed.
Lemma eval_vector_l t I : (I < n_intervals b)%nat ->
  eval_vector b I t = Some (map (fun r => ev (I + r) t) (seq 0 (deg + 1))).
Proof.
  intros H. pose proof len_eq as (L1 & L2 & L3). unfold eval_vector.
  rewrite (all_some_map _ (fun i => ev i t)).
  - f_equal. assert (forall n a, map (fun i => ev i t) (seq (I + a) n)
                     = map (fun r => ev (I + r) t) (seq a n)) as G.
    { induction n; intros a; cbn [seq map]; auto. f_equal.
      replace (S (I + a)) with (I + S a)%nat by lia. apply IHn. }
    rewrite <- G, Nat.add_0_r. reflexivity.
  - intros i Hi. rewrite in_seq in Hi. apply eval_ev. lia.
Qed.
Definition lsum (l : list R) : R := fold_right Rplus 0 l.
Lemma lsum_seq f n : lsum (map f (seq 0 n)) = rsum n f.
Proof.
  assert (forall a, lsum (map f (seq a n)) = rsum n (fun i => f (a + i)%nat)) as H.
  { induction n; intros a; auto. rewrite rsum_shift. cbn. rewrite Nat.add_0_r.
    f_equal. change (lsum (map f (seq (S a) n)) = rsum n (fun i => f (a + S i)%nat)).
    rewrite IHn. apply rsum_ext. intros. f_equal. lia. }
  apply H.
Qed.

(** Derivatives. *)
Definition low_multiplicity : Prop := forall i, (0 < i < size b)%nat -> k i < k (i + deg)%nat.

Lemma ndiv_some a c : c <> 0 -> ndiv a c = Some (a / c).
Proof. intros H. unfold ndiv. destruct (Reqb_spec c 0); [contradiction|reflexivity]. Qed.

Lemma eval_diff_dpc d i j t : deg = S d -> low_multiplicity -> (i < size b)%nat -> located j t ->
  eval_diff b i t = Some (dpc k j d i t).
Proof.
  intros Hd LM Hi L. pose proof len_eq as (L1 & L2 & L3). pose proof (located_range _ _ L) as Lr.
  unfold eval_diff. destruct (Nat.ltb_spec i (size b)); [|lia]. rewrite Hd.
  pose proof L as (A & B & C & D & E).
  assert (forall a, (0 < a < size b)%nat -> k (a + S d)%nat - k a <> 0) as NZ.
  { intros a Ha. specialize (LM a Ha). rewrite Hd in LM. lra. }
  assert (forall a, (a = 0 \/ a = size b)%nat -> pc k j d a t = 0) as Z.
  { intros a [->| ->]; apply pc_out; lia. }
  assert (forall a, pc k j d a (dom1 b) = (if (a =? j)%nat then 1 else 0) \/ t <> dom1 b) as PE.
  { intros a. destruct E as [E|[E F]].
    - right. intros ->. pose proof (mono (j + 1) (size b) ltac:(lia) ltac:(lia)).
      rewrite dom1_k in E. lra.
    - left. apply pc_left_end.
      + rewrite F in C. rewrite dom1_k. exact C.
      + intros r Hr. apply k_end; lia. }
  assert (t = dom1 b -> j = (size b - 1)%nat) as EJ.
  { intros ->. destruct E as [E|[E F]]; [|lia].
    pose proof (mono (j + 1) (size b) ltac:(lia) ltac:(lia)). rewrite dom1_k in E. lra. }
  destruct (Reqb_spec t (dom1 b)) as [Et|Et].
  - specialize (EJ Et). rewrite !andb_true_r. unfold dpc. rewrite Et.
    destruct (PE i) as [->|N]; [|contradiction].
    destruct (PE (i + 1)%nat) as [->|N]; [|contradiction].
    destruct (Nat.eqb_spec (i + 2) (size b)) as [E2|E2].
    + destruct (Nat.eqb_spec i j); [lia|]. destruct (Nat.eqb_spec (i + 1) j); [|lia].
      rewrite ndiv_some.
      * f_equal. unfold Rdiv. ring.
      * replace (i + S d + 1)%nat with (i + 1 + S d)%nat by lia. apply NZ. lia.
    + destruct (Nat.eqb_spec (i + 1) (size b)) as [E1|E1].
      * destruct (Nat.eqb_spec i j); [|lia]. destruct (Nat.eqb_spec (i + 1) j); [lia|].
        rewrite ndiv_some by (apply NZ; lia). f_equal. unfold Rdiv. ring.
      * destruct (Nat.eqb_spec i j); [lia|]. destruct (Nat.eqb_spec (i + 1) j); [lia|].
        rewrite !bas_above by (try lia; apply k_le_end; lia).
        destruct (Nat.ltb_spec (i + 1) (size b)); [|lia].
        destruct (Nat.ltb_spec 0 i) as [P|P].
        -- rewrite !ndiv_some.
           ++ cbn. f_equal.
           ++ replace (i + S d + 1)%nat with (i + 1 + S d)%nat by lia. apply NZ. lia.
           ++ apply NZ. lia.
        -- rewrite !ndiv_some.
           ++ cbn. f_equal. unfold Rdiv. ring.
           ++ replace (i + S d + 1)%nat with (i + 1 + S d)%nat by lia. apply NZ. lia.
  - rewrite !andb_false_r. destruct E as [E|[E F]]; [|contradiction].
    rewrite (bas_pc d i j t), (bas_pc d (i + 1) j t) by (try lia; auto).
    assert ((if (0 <? i)%nat then ndiv (INR (S d) * pc k j d i t) (k (i + S d)%nat - k i) else Some 0)
      = Some (INR (S d) * pc k j d i t / (k (i + S d)%nat - k i))) as ->.
    { destruct (Nat.ltb_spec 0 i) as [P|P].
      - apply ndiv_some. apply NZ. lia.
      - rewrite (Z i) by lia. f_equal. unfold Rdiv. ring. }
    assert ((if (i + 1 <? size b)%nat
             then ndiv (INR (S d) * pc k j d (i + 1) t) (k (i + S d + 1)%nat - k (i + 1)%nat)
             else Some 0)
      = Some (INR (S d) * pc k j d (i + 1) t / (k (i + S d + 1)%nat - k (i + 1)%nat))) as ->.
    { destruct (Nat.ltb_spec (i + 1) (size b)) as [P|P].
      - apply ndiv_some. replace (i + S d + 1)%nat with (i + 1 + S d)%nat by lia. apply NZ. lia.
      - rewrite (Z (i + 1)%nat) by lia. f_equal. unfold Rdiv. ring. }
    reflexivity.
Qed.

Lemma deriv_within_agree (D : R -> Prop) f g x d :
  derivable_pt_lim g x d -> f x = g x -> (exists r, 0 < r /\
    forall y, D y -> Rabs (y - x) < r -> f y = g y) -> deriv_within D f x d.
Proof.
  intros H E (r & Hr & A) eps He. destruct (H eps He) as [del Hdel].
  exists (Rmin (pos del) r). split.
  - apply Rmin_glb_lt; [apply cond_pos|auto].
  - intros y Dy Ny Hy. pose proof (Rmin_l (pos del) r). pose proof (Rmin_r (pos del) r).
    rewrite E, (A y) by (auto; lra).
    specialize (Hdel (y - x) ltac:(lra) ltac:(lra)).
    replace (x + (y - x)) with y in Hdel by ring. exact Hdel.
Qed.

Lemma diff_right_l d i j t : deg = S d -> low_multiplicity -> (i < size b)%nat -> located j t ->
  t < k (j + 1)%nat ->
  deriv_within (fun y => t <= y) (ev i) t (dpc k j d i t).
Proof.
  intros Hd LM Hi L Ht. pose proof (located_range _ _ L).
  apply (deriv_within_agree _ _ (pc k j deg i)).
  - rewrite Hd. apply (pc_deriv k len mono); [apply L|]. lia.
  - apply ev_pc; auto.
  - exists (k (j + 1)%nat - t). split; [lra|]. intros y Hy Hr.
    apply ev_pc; auto. destruct L as (A & B & C & D & E).
    unfold located. split; auto. split; auto. split; auto. split; [lra|]. left.
    apply Rabs_def2 in Hr. lra.
Qed.

Lemma diff_left_end_l d i : deg = S d -> low_multiplicity -> (i < size b)%nat ->
  exists j, located j (dom1 b) /\
  deriv_within (fun y => y <= dom1 b) (ev i) (dom1 b) (dpc k j d i (dom1 b)).
Proof.
  intros Hd LM Hi. pose proof len_eq as (L1 & L2 & L3).
  assert (k (size b - 1)%nat < dom1 b) as P.
  { specialize (LM (size b - 1)%nat ltac:(lia)).
    replace (k (size b - 1 + deg)%nat) with (dom1 b) in LM; auto.
    symmetry. apply k_end; lia. }
  assert (located (size b - 1) (dom1 b)) as L.
  { unfold located. replace (size b - 1 + 1)%nat with (size b) by lia.
    split; [lia|]. split; [lia|]. split; [rewrite <- dom1_k; lra|]. split; [lra|].
    right. auto. }
  exists (size b - 1)%nat. split; auto.
  pose proof (located_range _ _ L).
  apply (deriv_within_agree _ _ (pc k (size b - 1) deg i)).
  - rewrite Hd. apply (pc_deriv k len mono); [apply L|]. lia.
  - apply ev_pc; auto.
  - exists (dom1 b - k (size b - 1)%nat). split; [lra|]. intros y Hy Hr.
    apply Rabs_def2 in Hr.
    destruct (Req_dec y (dom1 b)) as [->|N]; [apply ev_pc; auto|].
    apply ev_pc; auto. destruct L as (A & B & C & D & E).
    unfold located. split; auto. split; auto. split; auto. split; [lra|]. left.
    replace (size b - 1 + 1)%nat with (size b) by lia. rewrite <- dom1_k. lra.
Qed.

(** The knots equal to t form the index range (p, j]. *)
Lemma left_interval t j : located j t -> dom0 b < t -> t < k (j + 1)%nat ->
  exists p, (p <= j)%nat /\ (deg <= p)%nat /\ k p < t /\ t <= k (p + 1)%nat /\
            forall i, (p < i <= j)%nat -> k i = t.
Proof.
  intros L H0 H1. pose proof (located_range _ _ L) as Lr.
  destruct L as (A & B & C & D & _).
  assert (forall n, (n <= j - deg)%nat -> (forall i, (j - n < i <= j)%nat -> k i = t) ->
     exists p, (p <= j)%nat /\ (deg <= p)%nat /\ k p < t /\ t <= k (p + 1)%nat /\
            forall i, (p < i <= j)%nat -> k i = t) as K.
  { intros n Hn. remember (j - deg - n)%nat as q. revert n Hn Heqq.
    induction q; intros n Hn Hq Hall.
    - exists (j - n)%nat. assert (j - n = deg)%nat as E by lia.
      split; [lia|]. split; [lia|]. split; [rewrite E; exact H0|]. split; [|exact Hall].
      destruct (Nat.eq_dec n 0) as [->|Nn].
      + replace (j - 0 + 1)%nat with (j + 1)%nat by lia. lra.
      + rewrite Hall by lia. lra.
    - destruct (Rlt_le_dec (k (j - n)%nat) t) as [Hl|Hl].
      + exists (j - n)%nat. split; [lia|]. split; [lia|]. split; auto. split; auto.
        destruct (Nat.eq_dec n 0) as [->|Nn].
        * replace (j - 0 + 1)%nat with (j + 1)%nat by lia. lra.
        * rewrite Hall by lia. lra.
      + apply (IHq (S n)); try lia. intros i Hi.
        destruct (Nat.eq_dec i (j - n)) as [->|Ni]; [|apply Hall; lia].
        pose proof (mono (j - n) j ltac:(lia) ltac:(lia)). lra. }
  apply (K 0%nat); [lia|]. intros; lia.
Qed.

Lemma count_segment (l : list R) t a n : (a + n <= length l)%nat ->
  (forall i, (a <= i < a + n)%nat -> nth i l 0 = t) -> (n <= multiplicity l t)%nat.
Proof.
  unfold multiplicity. revert a n. induction l as [|x l IH]; intros a n H E; cbn [count_occ].
  - simpl in H. lia.
  - simpl in H. destruct a as [|a].
    + destruct n as [|n]; [lia|].
      assert (n <= count_occ Req_EM_T l t)%nat.
      { apply (IH 0%nat n); [lia|]. intros i Hi. apply (E (S i)). lia. }
      specialize (E 0%nat ltac:(lia)). simpl in E. destruct (Req_EM_T x t); [lia|contradiction].
    + assert (n <= count_occ Req_EM_T l t)%nat.
      { apply (IH a n); [lia|]. intros i Hi. apply (E (S i)). lia. }
      destruct (Req_EM_T x t); lia.
Qed.

Lemma diff_full_l d i j t : deg = S d -> low_multiplicity -> (i < size b)%nat -> located j t ->
  dom0 b < t < dom1 b -> (multiplicity (knots b) t < deg)%nat ->
  derivable_pt_lim (ev i) t (dpc k j d i t).
Proof.
  intros Hd LM Hi L [H0 H1] M. pose proof (located_range _ _ L) as Lr.
  pose proof len_eq as (L1 & L2 & L3).
  assert (t < k (j + 1)%nat) as Ht.
  { destruct L as (_ & _ & _ & _ & [E|[E _]]); lra. }
  destruct (left_interval t j L H0 Ht) as (p & P1 & P2 & P3 & P4 & P5).
  assert (j - p <= d)%nat as Mu.
  { assert (j - p <= multiplicity (knots b) t)%nat; [|lia].
    apply (count_segment (knots b) t (p + 1) (j - p)); [lia|]. intros q Hq. apply P5. lia. }
  assert (deriv_within (fun y => y <= t) (ev i) t (dpc k j d i t)) as DL.
  { destruct (Nat.eq_dec p j) as [->|Np].
    - apply (deriv_within_agree _ _ (pc k j deg i)).
      + rewrite Hd. apply (pc_deriv k len mono); [apply L|]. lia.
      + apply ev_pc; auto.
      + exists (t - k j). split; [lra|]. intros y Hy Hr. apply Rabs_def2 in Hr.
        apply ev_pc; auto. destruct L as (A & B & C & D & E).
        unfold located. split; auto. split; auto. split; auto. split; [lra|]. left. lra.
    - assert (k (p + 1)%nat = t) as Kp by (apply P5; lia).
      assert (dpc k j d i t = dpc k p d i t) as ->.
      { unfold dpc. rewrite !(pc_cont k len p j d t) by (auto; try lia). reflexivity. }
      apply (deriv_within_agree _ _ (pc k p deg i)).
      + rewrite Hd. apply (pc_deriv k len mono); [lra|]. lia.
      + rewrite (ev_pc i j) by auto. symmetry.
        apply (pc_cont k len); auto; destruct L; lia.
      + exists (t - k p). split; [lra|]. intros y Hy Hr. apply Rabs_def2 in Hr.
        destruct (Req_dec y t) as [->|Ny].
        * rewrite (ev_pc i j) by auto. symmetry.
          apply (pc_cont k len); auto; destruct L; lia.
        * apply ev_pc; auto. destruct L as (A & B & C & D & E). unfold located.
          split; auto. split; [lia|]. split; [lra|]. split; [lra|]. left. lra. }
  pose proof (diff_right_l d i j t Hd LM Hi L Ht) as DR.
  intros eps He. destruct (DL eps He) as (d1 & Hd1 & A1). destruct (DR eps He) as (d2 & Hd2 & A2).
  assert (0 < Rmin d1 d2) as Hm by (apply Rmin_glb_lt; auto).
  exists (mkposreal _ Hm). cbn. intros h Hh Hb.
  pose proof (Rmin_l d1 d2). pose proof (Rmin_r d1 d2).
  destruct (Rle_dec h 0).
  - specialize (A1 (t + h) ltac:(lra) ltac:(lra)). replace (t + h - t) with h in A1 by ring.
    apply A1. lra.
  - specialize (A2 (t + h) ltac:(lra) ltac:(lra)). replace (t + h - t) with h in A2 by ring.
    apply A2. lra.
Qed.

Lemma diff_sum_l d t : deg = S d -> low_multiplicity -> dom0 b <= t <= dom1 b ->
  rsum (size b) (fun i => value_of (eval_diff b i t)) = 0.
Proof.
  intros Hd LM H. pose proof len_eq as (L1 & L2 & L3).
  assert (exists j, located j t) as [j L].
  { destruct (locate t H) as [(j & L & _)| ->]; eauto.
    destruct (diff_left_end_l d 0 Hd LM ltac:(lia)) as (j & L & _). eauto. }
  rewrite (rsum_ext _ _ (fun i => dpc k j d i t)).
  2:{ intros i Hi. rewrite (eval_diff_dpc d i j t); auto. }
  pose proof (located_range _ _ L) as Lr. pose proof L as (A & B & C & _).
  rewrite (rsum_window _ (j - S d) (S d + 1)).
  - apply (dpc_sum k len); auto; lia.
  - lia.
  - intros i Hi O. unfold dpc. rewrite !(pc_out k j d) by lia. unfold Rdiv. ring.
Qed.

(** Linear poles. *)
Lemma last_nth_l (l : list R) : forall m, length l = S m -> last l 0 = nth m l 0.
Proof.
  induction l as [|x l IH]; intros m Hm; [discriminate|].
  destruct l as [|y l].
  - simpl in Hm. injection Hm as <-. reflexivity.
  - destruct m; [discriminate|]. cbn [last nth]. apply IH. simpl in *. lia.
Qed.
Lemma linear_poles_l n : deg <> 0%nat ->
  length (linear_poles_loop b n) = S n /\
  (forall i, (i <= n)%nat -> nth i (linear_poles_loop b n) 0
     = (ksum k deg i - ksum k deg 0) / INR deg).
Proof.
  intros Hd. assert (INR deg <> 0) as Hd' by (apply not_0_INR; auto).
  induction n.
  - cbn [linear_poles_loop]. split; [reflexivity|]. intros i Hi. replace i with 0%nat by lia.
    cbn [nth]. field. auto.
  - destruct IHn as [I1 I2]. cbn [linear_poles_loop]. split.
    + rewrite app_length, I1. simpl. lia.
    + intros i Hi. destruct (Nat.eq_dec i (S n)) as [->|N].
      * rewrite app_nth2 by lia. rewrite I1, Nat.sub_diag. cbn [nth].
        assert (last (linear_poles_loop b n) 0 = nth n (linear_poles_loop b n) 0) as ->.
        { apply last_nth_l. exact I1. }
        rewrite I2 by lia.
        assert (ksum k deg (S n) = ksum k deg n + (k (n + deg + 1)%nat - k (n + 1)%nat)) as ->.
        { pose proof (ksum_shift k deg n) as E.
          change (ksum k (S deg) n) with (ksum k deg n + k (n + S deg)%nat) in E.
          replace (S n) with (n + 1)%nat by lia.
          replace (n + deg + 1)%nat with (n + S deg)%nat by lia. lra. }
        field. auto.
      * rewrite app_nth1 by lia. apply I2. lia.
Qed.
Lemma ksum_0 : ksum k deg 0 = INR deg * dom0 b.
Proof.
  assert (forall d, (d <= deg)%nat -> ksum k d 0 = INR d * dom0 b) as H.
  { induction d; intros H; [cbn; ring|].
    change (ksum k (S d) 0) with (ksum k d 0 + k (0 + S d)%nat).
    rewrite IHd, k_start, S_INR by lia. ring. }
  apply H; lia.
Qed.

Lemma linear_precision_l t p : deg <> 0%nat -> dom0 b <= t <= dom1 b ->
  make_linear_poles b = Some p ->
  length p = size b /\ rsum (size b) (fun i => nth i p 0 * ev i t) = t - dom0 b.
Proof.
  intros Hd H Hp. pose proof len_eq as (L1 & L2 & L3).
  assert (INR deg <> 0) as Hd' by (apply not_0_INR; auto).
  unfold make_linear_poles in Hp. destruct (Nat.eqb_spec deg 0); [contradiction|].
  cbn in Hp. injection Hp as <-.
  destruct (linear_poles_l (size b - 1) Hd) as [P1 P2]. split; [lia|].
  rewrite (rsum_ext _ _ (fun i => / INR deg * (ksum k deg i * ev i t) + - dom0 b * (1 * ev i t))).
  2:{ intros i Hi. rewrite P2 by lia. rewrite ksum_0. field. auto. }
  rewrite rsum_plus, !rsum_scal.
  rewrite partition_l by auto.
  assert (rsum (size b) (fun i => ksum k deg i * ev i t) = INR deg * t) as ->.
  { destruct (locate t H) as [(j & L & _)| ->].
    - rewrite (sum_W _ t j L). pose proof (located_range _ _ L).
      apply (W_linear k len mono); try apply L. lia.
    - rewrite sum_end.
      assert (forall d, (d <= deg)%nat -> ksum k d (size b - 1) = INR d * dom1 b) as K.
      { induction d; intros Hdd; [cbn; ring|].
        change (ksum k (S d) (size b - 1)) with (ksum k d (size b - 1) + k (size b - 1 + S d)%nat).
        rewrite IHd, k_end, S_INR by lia. ring. }
      apply K; lia. }
  field. auto.
Qed.

(** Degree 2. *)
Lemma deg2_pc j t : k j < k (j + 1)%nat -> (2 <= j)%nat -> (j + 2 < len)%nat ->
  let k1 := k (j - 1)%nat in let k2 := k j in let k3 := k (j + 1)%nat in let k4 := k (j + 2)%nat in
  pc k j 2 (j - 2) t = (k3 - t) * (k3 - t) / ((k3 - k1) * (k3 - k2)) /\
  pc k j 2 (j - 1) t = (t - k1) * (k3 - t) / ((k3 - k1) * (k3 - k2))
                     + (t - k2) * (k4 - t) / ((k4 - k2) * (k3 - k2)) /\
  pc k j 2 j t = (t - k2) * (t - k2) / ((k4 - k2) * (k3 - k2)).
Proof.
  intros Hj H2 Hm.
  pose proof (denom_pos k len mono j (j - 1) (j + 1) Hj ltac:(lia) ltac:(lia) ltac:(lia)) as P1.
  pose proof (denom_pos k len mono j j (j + 2) Hj ltac:(lia) ltac:(lia) ltac:(lia)) as P2.
  assert (pc k j 1 (j - 1) t = (k (j + 1)%nat - t) / (k (j + 1)%nat - k j)) as Q1.
  { cbn [pc]. destruct (Nat.eqb_spec (j - 1) j); [lia|].
    destruct (Nat.eqb_spec (j - 1 + 1) j); [|lia].
    replace (j - 1 + 1 + 1)%nat with (j + 1)%nat by lia.
    replace (j - 1 + 1)%nat with j by lia. ring. }
  assert (pc k j 1 j t = (t - k j) / (k (j + 1)%nat - k j)) as Q2.
  { cbn [pc]. rewrite Nat.eqb_refl. destruct (Nat.eqb_spec (j + 1) j); [lia|]. ring. }
  assert (pc k j 1 (j - 2) t = 0) as Q0 by (apply pc_out; lia).
  assert (pc k j 1 (j + 1) t = 0) as Q3 by (apply pc_out; lia).
  assert (forall i, pc k j 2 i t = (t - k i) / (k (i + 2)%nat - k i) * pc k j 1 i t
            + (k (i + 2 + 1)%nat - t) / (k (i + 2 + 1)%nat - k (i + 1)%nat)
              * pc k j 1 (i + 1) t) as U by (intros; reflexivity).
  cbv zeta. rewrite !U.
  replace (j - 2 + 2 + 1)%nat with (j + 1)%nat by lia.
  replace (j - 2 + 1)%nat with (j - 1)%nat by lia.
  replace (j - 1 + 2 + 1)%nat with (j + 2)%nat by lia.
  replace (j - 1 + 2)%nat with (j + 1)%nat by lia.
  replace (j - 1 + 1)%nat with j by lia.
  rewrite Q0, Q1, Q2, Q3. split; [|split]; unfold Rdiv; rewrite ?Rmult_0_r, ?Rplus_0_l, ?Rplus_0_r;
  field; repeat split; lra.
Qed.

Lemma fast_eval_l t I : deg = 2%nat -> dom0 b <= t <= dom1 b -> find_knot_interval b t = Some I ->
  k (I + 2)%nat < k (I + 3)%nat ->
  eval_vector_deg_2 b I t = eval_vector b I t.
Proof.
  intros Hd H F NE. pose proof len_eq as (L1 & L2 & L3).
  destruct (find_spec t H) as (I' & F' & A & B & C). rewrite F in F'. injection F' as <-.
  assert (located (deg + I) t) as L.
  { unfold located. rewrite Hd in *.
    replace (2 + I + 1)%nat with (I + 3)%nat in * by lia.
    replace (2 + I)%nat with (I + 2)%nat in * by lia.
    split; [lia|]. split; [lia|]. split; auto. split; auto.
    destruct C as [C|[C D]]; [left; auto|right; split; auto; lia]. }
  rewrite eval_vector_l by auto. rewrite Hd. cbn [seq map Nat.add].
  rewrite !(ev_pc _ (deg + I) t) by (auto; lia). rewrite Hd.
  destruct (deg2_pc (I + 2) t) as (E0 & E1 & E2).
  { replace (I + 2 + 1)%nat with (I + 3)%nat by lia. auto. } { lia. } { lia. }
  replace (2 + I)%nat with (I + 2)%nat by lia.
  replace (I + 2 - 2)%nat with (I + 0)%nat in E0 by lia.
  replace (I + 2 - 1)%nat with (I + 1)%nat in E0, E1 by lia.
  replace (I + 2 + 1)%nat with (I + 3)%nat in * by lia.
  replace (I + 2 + 2)%nat with (I + 4)%nat in * by lia.
  rewrite E0, E1, E2. unfold eval_vector_deg_2.
  destruct (Nat.leb_spec (I + 5) len); [|lia].
  pose proof (mono (I + 1) (I + 2) ltac:(lia) ltac:(lia)).
  pose proof (mono (I + 3) (I + 4) ltac:(lia) ltac:(lia)).
  assert ((k (I + 3)%nat - k (I + 1)%nat) * (k (I + 3)%nat - k (I + 2)%nat) <> 0).
  { apply Rmult_integral_contrapositive; split; lra. }
  assert ((k (I + 4)%nat - k (I + 2)%nat) * (k (I + 3)%nat - k (I + 2)%nat) <> 0).
  { apply Rmult_integral_contrapositive; split; lra. }
  cbv zeta. rewrite !ndiv_some by auto. reflexivity.
Qed.

Lemma fast_diff_l t I : deg = 2%nat -> low_multiplicity -> dom0 b <= t <= dom1 b ->
  find_knot_interval b t = Some I -> k (I + 2)%nat < k (I + 3)%nat ->
  eval_diff_vector_deg_2 b I t = eval_diff_vector b I t.
Proof.
  intros Hd LM H F NE. pose proof len_eq as (L1 & L2 & L3).
  destruct (find_spec t H) as (I' & F' & A & B & C). rewrite F in F'. injection F' as <-.
  assert (located (I + 2) t) as L.
  { unfold located. rewrite Hd in *.
    replace (2 + I + 1)%nat with (I + 3)%nat in * by lia.
    replace (2 + I)%nat with (I + 2)%nat in * by lia.
    replace (I + 2 + 1)%nat with (I + 3)%nat in * by lia.
    split; [lia|]. split; [lia|]. split; auto. split; auto.
    destruct C as [C|[C D]]; [left; auto|right; split; auto; lia]. }
  unfold eval_diff_vector. rewrite Hd. cbn [seq map Nat.add].
  rewrite !(eval_diff_dpc 1 _ (I + 2) t) by (auto; lia).
  pose proof (mono (I + 1) (I + 2) ltac:(lia) ltac:(lia)).
  pose proof (mono (I + 3) (I + 4) ltac:(lia) ltac:(lia)).
  assert (pc k (I + 2) 1 (I + 1) t = (k (I + 3)%nat - t) / (k (I + 3)%nat - k (I + 2)%nat)) as Q1.
  { cbn [pc]. destruct (Nat.eqb_spec (I + 1) (I + 2)); [lia|].
    destruct (Nat.eqb_spec (I + 1 + 1) (I + 2)); [|lia].
    replace (I + 1 + 1 + 1)%nat with (I + 3)%nat by lia.
    replace (I + 1 + 1)%nat with (I + 2)%nat by lia. ring. }
  assert (pc k (I + 2) 1 (I + 2) t = (t - k (I + 2)%nat) / (k (I + 3)%nat - k (I + 2)%nat)) as Q2.
  { cbn [pc]. rewrite Nat.eqb_refl. destruct (Nat.eqb_spec (I + 2 + 1) (I + 2)); [lia|].
    replace (I + 2 + 1)%nat with (I + 3)%nat by lia. ring. }
  assert (pc k (I + 2) 1 I t = 0) as Q0 by (apply pc_out; lia).
  assert (pc k (I + 2) 1 (I + 3) t = 0) as Q3 by (apply pc_out; lia).
  unfold dpc.
  replace (S I + 1)%nat with (I + 2)%nat by lia.
  replace (S (S I) + 1)%nat with (I + 3)%nat by lia.
  replace (S I) with (I + 1)%nat by lia. replace (S (I + 1)) with (I + 2)%nat by lia.
  replace (I + 2 + 1)%nat with (I + 3)%nat by lia.
  replace (I + 1 + 2 + 1)%nat with (I + 4)%nat by lia.
  replace (I + 1 + 2)%nat with (I + 3)%nat by lia.
  replace (I + 2 + 2)%nat with (I + 4)%nat by lia.
  rewrite Q0, Q1, Q2, Q3. unfold eval_diff_vector_deg_2.
  destruct (Nat.leb_spec (I + 5) len); [|lia].
  assert ((k (I + 3)%nat - k (I + 1)%nat) * (k (I + 3)%nat - k (I + 2)%nat) <> 0).
  { apply Rmult_integral_contrapositive; split; lra. }
  assert ((k (I + 4)%nat - k (I + 2)%nat) * (k (I + 3)%nat - k (I + 2)%nat) <> 0).
  { apply Rmult_integral_contrapositive; split; lra. }
  cbv zeta. rewrite !ndiv_some by auto. cbn [oplus all_some].
  replace (INR 2) with 2 by reflexivity.
  unfold Rdiv. rewrite ?Rmult_0_r, ?Rmult_0_l.
  f_equal. f_equal; [|f_equal; [|f_equal]]; field; repeat split; lra.
Qed.
End Basis.
