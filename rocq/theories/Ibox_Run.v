(** Boxes of pieces and patches. *)
From Coq Require Import List Arith Lia Bool Reals Lra.
From Verif Require Import Spline_Model Spline_Spec Spline_Piece Spline_Proofs Spline_Curve Isec_Model Isec_Spec Isec_Basis Isec_Run Ibox_Model.
Import ListNotations.
Local Open Scope R_scope.

Lemma all_some_nth {A} (l : list (option A)) : (forall i x, nth_error l i = Some x -> x <> None) -> exists l', all_some l = Some l' /\ length l' = length l /\ forall i x, nth_error l' i = Some x <-> nth_error l i = Some (Some x).
Proof.
  induction l as [|a l IH]; intros H; cbn [all_some].
  - exists []. split; [reflexivity|]. split; [reflexivity|]. intros [|i] x; split; discriminate.
  - destruct a as [a|]; [|exfalso; now apply (H 0%nat None)]. destruct IH as (l' & -> & L & X); [intros i x E; now apply (H (S i) x)|]. eexists. split; [reflexivity|]. split; [cbn; now rewrite L|].
    intros [|i] x; cbn [nth_error]; [split; intros [= ->]; reflexivity|apply X].
Qed.
Lemma nth_error_grid {A} (g : nat -> nat -> A) n : forall m a i k, (i < m)%nat -> (k < n)%nat -> nth_error (flat_map (fun p => map (g p) (seq 0 n)) (seq a m)) (i * n + k) = Some (g (a + i)%nat k).
Proof.
  induction m as [|m IH]; intros a i k I K; [lia|]. cbn [seq flat_map]. destruct i as [|i].
  - rewrite nth_error_app1 by (rewrite map_length, seq_length; cbn; lia). cbn [Nat.mul Nat.add]. rewrite Nat.add_0_r. rewrite nth_error_map. rewrite (nth_error_nth' _ 0%nat) by (rewrite seq_length; lia). rewrite seq_nth by lia. reflexivity.
  - rewrite nth_error_app2 by (rewrite map_length, seq_length; cbn; lia). rewrite map_length, seq_length. replace (S i * n + k - n)%nat with (i * n + k)%nat by (cbn; lia). rewrite IH by lia. f_equal. f_equal. lia.
Qed.
Lemma grid_length {A} (g : nat -> nat -> A) n m a : length (flat_map (fun p => map (g p) (seq 0 n)) (seq a m)) = (m * n)%nat.
Proof. revert a. induction m as [|m IH]; intros a; [reflexivity|]. cbn [seq flat_map]. rewrite app_length, map_length, seq_length, IH. reflexivity. Qed.

Lemma some_eq {A} (x y : A) : Some x = Some y -> x = y.
Proof. congruence. Qed.
(** The smallest box around points. *)
Definition around (d : nat) (ps : list (list R)) (lo hi : list R) : Prop := forall j, (j < d)%nat ->
  (forall p, In p ps -> nth j lo 0 <= nth j p 0 <= nth j hi 0) /\ (exists p, In p ps /\ nth j p 0 = nth j lo 0) /\ (exists p, In p ps /\ nth j p 0 = nth j hi 0).
Lemma point_box_l d ps : ps <> [] -> exists lo hi, point_box d ps = Some (lo, hi) /\ around d ps lo hi.
Proof.
  intros NE. assert (CN : forall j, column j ps <> []) by (intros j; unfold column; destruct ps; easy). unfold point_box.
  rewrite (all_some_odef (fun j => amin (column j ps))) by (intros; apply amin_some; auto). rewrite (all_some_odef (fun j => amax (column j ps))) by (intros; apply amax_some; auto).
  eexists _, _. split; [reflexivity|]. intros j J. rewrite !nth_map_seq by exact J. destruct (amin_some _ (CN j)) as [lo Elo]. destruct (amax_some _ (CN j)) as [hi Ehi]. rewrite Elo, Ehi. cbn [odef]. split; [|split].
  - intros p P. assert (HI : In (nth j p 0) (column j ps)) by (apply (in_map (fun p => nth j p 0)); exact P). split; [apply (amin_spec _ _ Elo)|apply (amax_spec _ _ Ehi)]; exact HI.
  - assert (X := amin_in _ _ Elo). apply in_map_iff in X as (p & E & P). now exists p.
  - assert (X := amax_in _ _ Ehi). apply in_map_iff in X as (p & E & P). now exists p.
Qed.
Lemma in_slice {A} (l : list A) i n d0 x : (i + n <= length l)%nat -> In x (slice i n l) <-> exists r, (r < n)%nat /\ x = nth (i + r) l d0.
Proof.
  intros L. split.
  - intros H. apply (In_nth _ _ d0) in H as (r & R & E). rewrite slice_length in R by exact L. exists r. split; [exact R|]. now rewrite nth_slice in E.
  - intros (r & R & ->). rewrite <- (nth_slice i n) by exact R. apply nth_In. now rewrite slice_length.
Qed.
(** Weights of a closed interval. *)
Lemma cell_weights b I t : cells_basis b -> in_cell b I t -> (forall r, (r < 3)%nat -> 0 <= ev b (I + r) t) /\ rsum 3 (fun r => ev b (I + r) t) = 1.
Proof.
  intros E C. destruct (csizes b E) as (A & _ & _). assert (L := proj1 C). assert (D := cell_dom b E I t C). split.
  - intros r H. apply (nonneg_l b (cb_valid b E)); [exact D|lia].
  - assert (W := cwindow b E (fun _ => 1) I t C). rewrite <- (partition_l b (cb_valid b E) t D). rewrite (rsum_ext 3 _ (fun r => 1 * ev b (I + r) t)) by (intros; ring). rewrite W. apply rsum_ext. intros; ring.
Qed.

Section CurveBox.
Variables (c : curve) (d : nat).
Hypothesis P : plain_curve c d.
Notation b := (c_basis c).
Let E := proj1 P.
Let SH := proj2 (proj2 P).
Lemma curve_boxes_l : exists bs, curve_boxes c = Some bs /\ length bs = n_intervals b /\ forall it lo hi, nth_error bs it = Some (lo, hi) ->
  (it < n_intervals b)%nat /\ around d (slice it 3 (c_poles c)) lo hi.
Proof.
  destruct (csizes b E) as (A & _ & B). unfold curve_boxes. rewrite (ccols_d c d P).
  assert (G : forall it, (it < n_intervals b)%nat -> exists lo hi, point_box d (slice it 3 (c_poles c)) = Some (lo, hi) /\ around d (slice it 3 (c_poles c)) lo hi).
  { intros it L. apply point_box_l. intros X. assert (Y := slice_length it 3 (c_poles c)). rewrite (proj1 SH), X in Y. cbn in Y. lia. }
  destruct (all_some_nth (map (fun it => point_box d (slice it 3 (c_poles c))) (seq 0 (n_intervals b)))) as (bs & -> & L & X).
  - intros i x N. rewrite nth_error_map in N. destruct (nth_error (seq 0 (n_intervals b)) i) as [q|] eqn:Q; [|discriminate]. apply nth_error_In, in_seq in Q. injection N as <-. destruct (G q ltac:(lia)) as (lo & hi & -> & _). discriminate.
  - exists bs. split; [reflexivity|]. split; [rewrite L, map_length, seq_length; reflexivity|]. intros it lo hi N. apply X in N. rewrite nth_error_map in N. destruct (nth_error (seq 0 (n_intervals b)) it) as [q|] eqn:Q; [|discriminate].
    assert (IT : (it < n_intervals b)%nat). { assert (Z : nth_error (seq 0 (n_intervals b)) it <> None) by congruence. apply nth_error_Some in Z. now rewrite seq_length in Z. }
    rewrite (nth_error_nth' _ 0%nat) in Q by (rewrite seq_length; exact IT). rewrite seq_nth in Q by exact IT. cbn in Q. injection Q as <-. split; [exact IT|]. destruct (G it IT) as (lo' & hi' & EQ & AR). cbn [option_map] in N. rewrite EQ in N. injection N as <- <-. exact AR.
Qed.
Lemma curve_inside it t lo hi x j : in_cell b it t -> around d (slice it 3 (c_poles c)) lo hi -> curve_eval c t = Some x -> (j < d)%nat -> nth j lo 0 <= nth j x 0 <= nth j hi 0.
Proof.
  intros C AR EX J. destruct (csizes b E) as (A & _ & _). assert (L := proj1 C). rewrite (eval_CC c d P t (cell_dom b E it t C)) in EX. injection EX as <-. rewrite nth_map_seq by exact J. unfold CC. rewrite <- (cwindow b E (fun i => pole c i j) it t C).
  rewrite (rsum_ext 3 _ (fun r => ev b (it + r) t * pole c (it + r) j)) by (intros; ring). destruct (cell_weights b it t E C) as [W1 W2]. apply convex_sum; [exact W1|exact W2|].
  intros r R. apply (AR j J). apply (in_slice _ it 3 []); [rewrite (proj1 SH); lia|]. now exists r.
Qed.
End CurveBox.

Section SurfaceBox.
Variable s : surface.
Hypothesis P : plain s 3.
Notation ub := (u_basis s).
Notation vb := (v_basis s).
Let EU := proj1 P.
Let EV := proj1 (proj2 P).
Let SH := proj2 (proj2 (proj2 P)).
Lemma in_patch iu iv p : (iu < n_intervals ub)%nat -> (iv < n_intervals vb)%nat -> In p (patch_poles s iu iv) <-> exists i k, (i < 3)%nat /\ (k < 3)%nat /\ p = nth (iv + k) (nth (iu + i) (s_poles s) []) [].
Proof.
  intros U W. destruct (csizes ub EU) as (A & _ & _). destruct (csizes vb EV) as (B & _ & _). unfold patch_poles. rewrite in_concat. split.
  - intros (l & L & H). apply in_map_iff in L as (row & <- & R). apply (in_slice _ iu 3 []) in R as (i & I & ->); [|rewrite (proj1 SH); lia]. apply (in_slice _ iv 3 []) in H as (k & K & ->); [|rewrite (pole_row s 3 P); lia]. now exists i, k.
  - intros (i & k & I & K & ->). exists (slice iv 3 (nth (iu + i) (s_poles s) [])). split; [apply (in_map (fun row => slice iv 3 row)); apply (in_slice _ iu 3 []); [rewrite (proj1 SH); lia|now exists i]|].
    apply (in_slice _ iv 3 []); [rewrite (pole_row s 3 P); lia|now exists k].
Qed.
Lemma surface_boxes_l : exists bs, surface_boxes s = Some bs /\ length bs = (n_intervals ub * n_intervals vb)%nat /\
  forall iu iv, (iu < n_intervals ub)%nat -> (iv < n_intervals vb)%nat -> exists lo hi, nth_error bs (patch_pos2id s iu iv) = Some (lo, hi) /\ around 3 (patch_poles s iu iv) lo hi.
Proof.
  unfold surface_boxes. rewrite (cols_d s 3 P). cbn [Nat.eqb].
  assert (G : forall iu iv, (iu < n_intervals ub)%nat -> (iv < n_intervals vb)%nat -> exists lo hi, point_box 3 (patch_poles s iu iv) = Some (lo, hi) /\ around 3 (patch_poles s iu iv) lo hi).
  { intros iu iv U W. apply point_box_l. intros X. assert (Y := proj2 (in_patch iu iv _ U W) (ex_intro _ 0%nat (ex_intro _ 0%nat (conj (Nat.lt_0_succ 2) (conj (Nat.lt_0_succ 2) eq_refl))))). rewrite X in Y. destruct Y. }
  destruct (all_some_nth (flat_map (fun iu => map (fun iv => point_box 3 (patch_poles s iu iv)) (seq 0 (n_intervals vb))) (seq 0 (n_intervals ub)))) as (bs & -> & L & X).
  - intros i x N. apply nth_error_In, in_flat_map in N as (iu & U & N). apply in_map_iff in N as (iv & <- & W). apply in_seq in U, W. destruct (G iu iv ltac:(lia) ltac:(lia)) as (lo & hi & -> & _). discriminate.
  - exists bs. split; [reflexivity|]. rewrite (grid_length (fun iu iv => point_box 3 (patch_poles s iu iv))) in L. split; [exact L|]. intros iu iv U W. destruct (G iu iv U W) as (lo & hi & EQ & AR). exists lo, hi. split; [|exact AR].
    apply X. unfold patch_pos2id. rewrite (nth_error_grid (fun iu iv => point_box 3 (patch_poles s iu iv))) by assumption. cbn [Nat.add]. now rewrite EQ.
Qed.
Lemma patch_inside iu iv u v lo hi x j : in_cell ub iu u -> in_cell vb iv v -> around 3 (patch_poles s iu iv) lo hi -> surface_eval s u v = Some x -> (j < 3)%nat -> nth j lo 0 <= nth j x 0 <= nth j hi 0.
Proof.
  intros CU CV AR EX J. assert (LU := proj1 CU). assert (LV := proj1 CV). rewrite (eval_SS s 3 P u v (cell_dom ub EU iu u CU) (cell_dom vb EV iv v CV)) in EX. apply some_eq in EX. subst x. rewrite nth_map_seq by exact J. unfold SS.
  rewrite <- (cwindow vb EV (fun k => rsum (size ub) (fun i => spole s i k j * ev ub i u)) iv v CV).
  rewrite (rsum_ext 3 _ (fun q => ev vb (iv + q) v * rsum (size ub) (fun i => spole s i (iv + q) j * ev ub i u))) by (intros; ring). destruct (cell_weights vb iv v EV CV) as [W1 W2]. apply convex_sum; [exact W1|exact W2|]. intros k K.
  rewrite <- (cwindow ub EU (fun i => spole s i (iv + k) j) iu u CU). rewrite (rsum_ext 3 _ (fun r => ev ub (iu + r) u * spole s (iu + r) (iv + k) j)) by (intros; ring). destruct (cell_weights ub iu u EU CU) as [W3 W4]. apply convex_sum; [exact W3|exact W4|]. intros i I.
  apply (AR j J). apply (in_patch iu iv _ LU LV). now exists i, k.
Qed.
End SurfaceBox.
