(** The calls of SurfaceApprox put together. *)
From Coq Require Import List Arith ZArith QArith Lia Bool Reals Qreals Lra Psatz Sorted.
From Verif Require Import Spline_Model Spline_Spec Spline_Piece Spline_Proofs Spline_Curve ZSurf_Spec ZSurf_Model ZSurf_Proofs ZSurf_Grid Rect_Model Rect_Spec Quad_Model Quad_Spec Quad_Props
  Fit_Model Fit_Spec Fit_Proofs Fit_Basis Fit_Matrix Fit_Reg Fit_Integral Fit_Rough Fit_Solve.
From Verif Require Aabb_Model.
Import ListNotations.
Local Open Scope R_scope.

Lemma nearest_range x y : nearest_unit x y -> 0 <= y <= 1.
Proof. intros [H _]. exact H. Qed.
Lemma points_ok q xy z w : area (q0 q) (q1 q) (q2 q) <> 0 -> length z = length xy -> (forall l, w = Some l -> length l = length xy) ->
  exists js uv, chosen (near uv_eps (q0 q) (q1 q) (q2 q)) xy (0, 0) js /\
    compute_uv_points q xy z w = Some (uv, rows 0 z js, option_map (fun l => rows 0 l js) w) /\ length uv = length js /\
    forall k, (k < length js)%nat -> exists u v, nth (nth k js 0%nat) xy (0, 0) = place (q0 q) (q1 q) (q2 q) u v /\
      nearest_unit u (fst (nth k uv (0, 0))) /\ nearest_unit v (snd (nth k uv (0, 0))).
Proof.
  intros A LZ LW. destruct (uv_points q A xy z w LZ LW) as (m & js & _ & H & C & E). exists js. eexists. split; [exact C|]. split; [exact E|]. split; [now rewrite map_length|].
  intros k K. rewrite (nth_map_lt _ _ k (0, 0) 0%nat) by exact K. destruct (point_uv q m (nth (nth k js 0%nat) xy (0, 0))) as [u v] eqn:P. exists u, v. split; [now apply H|]. unfold snap. cbn [fst snd]. split; apply snap_unit.
Qed.
Lemma points_none q xy z w : area (q0 q) (q1 q) (q2 q) = 0 -> compute_uv_points q xy z w = None.
Proof.
  intros A. unfold compute_uv_points, mat_xy_to_uv, inv. destruct (Reqb_spec (det (column_stack (psub (q2 q) (q1 q)) (psub (q0 q) (q1 q)))) 0) as [E|E]; [reflexivity|exfalso]. apply E.
  unfold area, crossr, subr in A. unfold det, column_stack, psub. cbn in *. lra.
Qed.
(** Facts about the points found, whatever the quad is. *)
Lemma points_facts q xy z uv g w : length z = length xy -> compute_uv_points q xy z None = Some (uv, g, w) ->
  area (q0 q) (q1 q) (q2 q) <> 0 /\ length g = length uv /\ w = None /\ forall p, In p uv -> 0 <= fst p <= 1 /\ 0 <= snd p <= 1.
Proof.
  intros LZ E. assert (A : area (q0 q) (q1 q) (q2 q) <> 0) by (intros A; rewrite (points_none q xy z None A) in E; discriminate E). split; [exact A|].
  destruct (points_ok q xy z None A LZ ltac:(intros l X; discriminate X)) as (js & uv' & _ & E' & L & H). rewrite E in E'. injection E' as -> -> ->. split; [unfold rows; rewrite map_length; now symmetry|]. split; [reflexivity|].
  intros p P. apply (In_nth _ _ (0, 0)) in P as (k & K & <-). assert (K' : (k < length js)%nat) by (rewrite <- L; exact K). destruct (H k K') as (u & v & _ & U & V). split; [exact (nearest_range _ _ U)|exact (nearest_range _ _ V)].
Qed.
Lemma equal_exists n : (0 < n)%nat -> exists b, make_equidistant 2 n 0 1 = Some b /\ equal_basis b n.
Proof. intros N. destruct (make_equidistant_l 2 n 0 1 N ltac:(lra)) as (b & E & _). exists b. split; [exact E|]. now apply make_equal in E. Qed.

(** What a call that returns has done. *)
Lemma approx_inv la h q nu nv weight xy z h1 error : length z = length xy -> approximate la h q nu nv weight xy z = Some (h1, error) -> exists uv g ub vb bm am zv s,
  compute_uv_points q xy z None = Some (uv, g, None) /\ make_equidistant 2 nu 0 1 = Some ub /\ make_equidistant 2 nv 0 1 = Some vb /\ ls_matrix ub vb uv = Some bm /\ reg_matrix ub vb = Some am /\
  spsolve la (size ub * size vb) (system bm am (length uv) (weight * (bb_norm la / a_norm la))) (right_side bm g) = Some zv /\
  amax (diff bm zv g) = Some error /\ make_surface ub vb (poles_of ub vb zv) false = Some s /\ znew h [q0 q; q1 q; q2 q] s = Some h1.
Proof.
  intros LZ. unfold approximate. destruct (compute_uv_points q xy z None) as [[[uv g] w]|] eqn:EU; [|discriminate]. destruct (points_facts q xy z uv g w LZ EU) as (_ & _ & -> & _).
  destruct (make_equidistant 2 nu 0 1) as [ub|] eqn:E1; [|discriminate]. destruct (make_equidistant 2 nv 0 1) as [vb|] eqn:E2; [|discriminate].
  destruct (ls_matrix ub vb uv) as [bm|] eqn:E3; [|discriminate]. destruct (reg_matrix ub vb) as [am|] eqn:E4; [|discriminate].
  unfold ndiv. destruct (Reqb (a_norm la) 0); [discriminate|]. cbv zeta.
  destruct (spsolve la _ _ _) as [zv|] eqn:E5; [|discriminate]. destruct (amax _) as [er|] eqn:E6; [|discriminate]. destruct (make_surface _ _ _ _) as [s|] eqn:E7; [|discriminate].
  destruct (znew h _ s) as [h'|] eqn:E8; [|discriminate]. intros X. injection X as <- <-. exists uv, g, ub, vb, bm, am, zv, s. repeat split; assumption.
Qed.
Lemma approx_go la h q nu nv weight xy z uv g ub vb bm am zv : length z = length xy -> a_norm la <> 0 -> uv <> [] ->
  compute_uv_points q xy z None = Some (uv, g, None) -> make_equidistant 2 nu 0 1 = Some ub -> make_equidistant 2 nv 0 1 = Some vb -> ls_matrix ub vb uv = Some bm -> reg_matrix ub vb = Some am ->
  spsolve la (size ub * size vb) (system bm am (length uv) (weight * (bb_norm la / a_norm la))) (right_side bm g) = Some zv ->
  exists h1 error, approximate la h q nu nv weight xy z = Some (h1, error) /\ amax (diff bm zv g) = Some error.
Proof.
  intros LZ NA NE EP E1 E2 E3 E4 E5. destruct (points_facts q xy z uv g None LZ EP) as (A & LG & _ & UV). destruct (make_equal nu ub E1) as [NU EU]. destruct (make_equal nv vb E2) as [NV EV].
  unfold approximate. rewrite EP, E1, E2, E3, E4. unfold ndiv. destruct (Reqb_spec (a_norm la) 0) as [X|_]; [contradiction|]. cbv zeta. rewrite E5.
  destruct (amax_some (diff bm zv g)) as (error & E6). { unfold diff. rewrite LG. destruct uv; [contradiction|discriminate]. } rewrite E6.
  destruct (make_poles ub vb nu nv NU NV EU EV zv) as (s & E7 & _ & D & _). rewrite E7.
  destruct (znew_three h (q0 q) (q1 q) (q2 q) s D) as (o & m & im & E8 & _). { unfold area, crossr, subr in A. unfold cross, psub. cbn in *. intros X; apply A; lra. }
  rewrite E8. now exists (h ++ [o]), error.
Qed.
(** The heights of the new surface. *)
Lemma heights la h q nu nv weight xy z h1 error : length z = length xy -> approximate la h q nu nv weight xy z = Some (h1, error) -> exists uv g ub vb bm am zv,
  area (q0 q) (q1 q) (q2 q) <> 0 /\ length g = length uv /\ (forall p, In p uv -> 0 <= fst p <= 1 /\ 0 <= snd p <= 1) /\ (0 < nu)%nat /\ (0 < nv)%nat /\ equal_basis ub nu /\ equal_basis vb nv /\
  compute_uv_points q xy z None = Some (uv, g, None) /\ make_equidistant 2 nu 0 1 = Some ub /\ make_equidistant 2 nv 0 1 = Some vb /\ ls_matrix ub vb uv = Some bm /\ reg_matrix ub vb = Some am /\
  spsolve la (size ub * size vb) (system bm am (length uv) (weight * (bb_norm la / a_norm la))) (right_side bm g) = Some zv /\ amax (diff bm zv g) = Some error /\
  forall u v, unit_range u -> unit_range v -> z_eval h1 (length h) (u, v) = Some (vz ub vb (fun c => nth c zv 0) u v) /\
    z_eval_xy h1 (length h) (place (q0 q) (q1 q) (q2 q) u v) = Some (vz ub vb (fun c => nth c zv 0) u v).
Proof.
  intros LZ E. destruct (approx_inv _ _ _ _ _ _ _ _ _ _ LZ E) as (uv & g & ub & vb & bm & am & zv & s & EP & E1 & E2 & E3 & E4 & E5 & E6 & E7 & E8).
  destruct (points_facts q xy z uv g None LZ EP) as (A & LG & _ & UV). destruct (make_equal nu ub E1) as [NU EU]. destruct (make_equal nv vb E2) as [NV EV].
  exists uv, g, ub, vb, bm, am, zv. do 14 (split; [assumption|]). destruct (make_poles ub vb nu nv NU NV EU EV zv) as (s' & E7' & _ & D & F). rewrite E7 in E7'. injection E7' as <-.
  intros u v U V. assert (H : z_eval h1 (length h) (u, v) = Some (vz ub vb (fun c => nth c zv 0) u v)) by (rewrite (znew_height h _ s h1 E8 u v), (F u v U V); reflexivity).
  split; [exact H|]. destruct (znew_three h (q0 q) (q1 q) (q2 q) s D) as (o & m & im & E8' & _ & _ & XY & _). { unfold area, crossr, subr in A. unfold cross, psub. cbn in *. intros X; apply A; lra. }
  rewrite E8 in E8'. injection E8' as ->. unfold z_eval_xy. specialize (XY (u, v)). unfold on_parallelogram in XY. cbn [fst snd] in XY. unfold place. rewrite XY. exact H.
Qed.
Lemma diff_value la h q nu nv weight xy z h1 error : length z = length xy -> solver la -> approximate la h q nu nv weight xy z = Some (h1, error) -> exists uv g f,
  compute_uv_points q xy z None = Some (uv, g, None) /\ (forall u v, unit_range u -> unit_range v -> z_eval h1 (length h) (u, v) = Some (f u v)) /\ length g = length uv /\
  amax (map (fun k => f (fst (nth k uv (0, 0))) (snd (nth k uv (0, 0))) - nth k g 0) (seq 0 (length uv))) = Some error.
Proof.
  intros LZ S E. destruct (heights _ _ _ _ _ _ _ _ _ _ LZ E) as (uv & g & ub & vb & bm & am & zv & A & LG & UV & NU & NV & EU & EV & EP & E1 & E2 & E3 & E4 & E5 & E6 & H).
  exists uv, g, (vz ub vb (fun c => nth c zv 0)). split; [exact EP|]. split; [intros u v U V; exact (proj1 (H u v U V))|]. split; [exact LG|]. rewrite <- E6. f_equal. unfold diff. rewrite LG. apply map_ext_in. intros k K. apply in_seq in K. f_equal.
  rewrite sum_to_rsum, (proj1 (S _ _ _ _ E5)). symmetry. apply (b_value ub vb nu nv uv bm NU NV EU EV UV E3). exact (proj2 K).
Qed.
(** The system can be solved. *)
Lemma solvable la weight ub vb nu nv uv g bm am : (0 < nu)%nat -> (0 < nv)%nat -> equal_basis ub nu -> equal_basis vb nv -> (forall p, In p uv -> 0 <= fst p <= 1 /\ 0 <= snd p <= 1) ->
  ls_matrix ub vb uv = Some bm -> reg_matrix ub vb = Some am -> 0 < weight -> 0 < bb_norm la -> 0 < a_norm la -> uv <> [] -> complete la ->
  exists zv, spsolve la (size ub * size vb) (system bm am (length uv) (weight * (bb_norm la / a_norm la))) (right_side bm g) = Some zv.
Proof.
  intros NU NV EU EV UV E3 E4 WP BP AP NE C. apply C. intros x X. set (lam := weight * (bb_norm la / a_norm la)) in *.
  assert (LP : 0 < lam) by (apply Rmult_lt_0_compat; [exact WP|now apply Rdiv_lt_0_compat]).
  set (g0 := repeat 0 (length uv)). assert (LG0 : length g0 = length uv) by apply repeat_length. assert (G0 : forall k, nth k g0 0 = 0) by (intros k; apply nth_repeat).
  assert (S0 : forall y, (forall i, (i < size ub * size vb)%nat -> rsum (size ub * size vb) (fun c => system bm am (length uv) lam i c * y c) = 0) -> solves (length uv) (size ub * size vb) (entry bm) (entry am) lam (fun k => nth k g0 0) y).
  { intros y Y r R. rewrite (rsum_0 _ (fun k => entry bm k r * nth k g0 0)) by (intros k _; rewrite G0; ring). rewrite <- (Y r R). reflexivity. }
  assert (Z := strict la weight ub vb nu nv uv g0 bm am NU NV EU EV UV LG0 E3 E4).
  assert (X1 := S0 x X). assert (X2 := S0 (fun _ => 0) ltac:(intros; apply rsum_0; intros; ring)).
  assert (CE : cost (length uv) (size ub * size vb) (entry bm) (entry am) lam (fun k => nth k g0 0) (fun _ => 0) <= cost (length uv) (size ub * size vb) (entry bm) (entry am) lam (fun k => nth k g0 0) x)
    by (apply (least la weight ub vb nu nv uv g0 bm am NU NV EU EV E4 (Rlt_le _ _ WP) (Rlt_le _ _ BP) AP); assumption).
  assert (CE2 : cost (length uv) (size ub * size vb) (entry bm) (entry am) lam (fun k => nth k g0 0) x <= cost (length uv) (size ub * size vb) (entry bm) (entry am) lam (fun k => nth k g0 0) (fun _ => 0))
    by (apply (least la weight ub vb nu nv uv g0 bm am NU NV EU EV E4 (Rlt_le _ _ WP) (Rlt_le _ _ BP) AP); assumption).
  apply (independent ub vb nu nv NU NV EU EV x). intros u v U V. assert (Z1 := Z (fun _ => 0) x LP NE X2 CE2 u v U V). rewrite Z1. apply (constant_value ub vb nu nv EU EV); assumption.
Qed.
