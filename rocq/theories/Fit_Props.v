(** Properties C88-C93 of SurfaceApprox. *)
From Coq Require Import List Arith ZArith QArith Lia Bool Reals Qreals Lra Psatz Sorted.
From Verif Require Import Spline_Model Spline_Spec Spline_Piece Spline_Proofs Spline_Curve ZSurf_Spec ZSurf_Model ZSurf_Proofs ZSurf_Grid Rect_Model Rect_Spec Quad_Model Quad_Spec Quad_Props
  Fit_Model Fit_Spec Fit_Proofs Fit_Basis Fit_Matrix Fit_Reg Fit_Integral Fit_Rough Fit_Solve Fit_Run.
From Verif Require Aabb_Model.
Import ListNotations.
Local Open Scope R_scope.

(** C88. The points used are exactly those in the quad up to 1e-15, in order; their u and v are the coordinates in the quad, cut to [0, 1]. *)
Theorem C88_points q xy z w : area (q0 q) (q1 q) (q2 q) <> 0 -> length z = length xy -> (forall l, w = Some l -> length l = length xy) ->
  exists js uv, chosen (near (/ 10 ^ 15) (q0 q) (q1 q) (q2 q)) xy (0, 0) js /\
    compute_uv_points q xy z w = Some (uv, rows 0 z js, option_map (fun l => rows 0 l js) w) /\ length uv = length js /\
    forall k, (k < length js)%nat -> exists u v, nth (nth k js 0%nat) xy (0, 0) = place (q0 q) (q1 q) (q2 q) u v /\
      nearest_unit u (fst (nth k uv (0, 0))) /\ nearest_unit v (snd (nth k uv (0, 0))).
Proof. exact (points_ok q xy z w). Qed.
Theorem C88_flat q xy z w : area (q0 q) (q1 q) (q2 q) = 0 -> compute_uv_points q xy z w = None.
Proof. exact (points_none q xy z w). Qed.
Example C88_case : area (0, 3) (0, 0) (2, 0) <> 0 /\ near (/ 10 ^ 15) (0, 3) (0, 0) (2, 0) (1, 3) /\ ~ near (/ 10 ^ 15) (0, 3) (0, 0) (2, 0) (1, 4).
Proof.
  assert (E : 0 < / 10 ^ 15 < 1 / 10). { split; [apply Rinv_0_lt_compat, pow_lt; lra|]. apply Rmult_lt_reg_r with (10 ^ 15); [apply pow_lt; lra|]. rewrite Rinv_l by (apply pow_nonzero; lra). lra. }
  split; [unfold area, crossr, subr; cbn; lra|]. split.
  - exists (1 / 2), 1. unfold place, about_unit. cbn [fst snd]. split; [f_equal; lra|]. lra.
  - intros (u & v & P & U & V). unfold place in P. cbn [fst snd] in P. injection P as _ P. unfold about_unit in V. lra.
Qed.
(** With the default quad and three points not on a line no point is lost, and all get their exact place. *)
Lemma sorted_all n : forall s js, StronglySorted lt js -> (forall j, In j js <-> (s <= j < s + n)%nat) -> js = seq s n.
Proof.
  induction n as [|n IH]; intros s js S H.
  - destruct js as [|j js]; [reflexivity|]. exfalso. assert (X := proj1 (H j) (or_introl eq_refl)). lia.
  - destruct js as [|j js]; [exfalso; exact (proj2 (H s) ltac:(lia))|]. apply StronglySorted_inv in S as [S F]. rewrite Forall_forall in F.
    assert (J : j = s). { destruct (proj2 (H s) ltac:(lia)) as [X|X]; [exact X|]. specialize (F s X). assert (Y := proj1 (H j) (or_introl eq_refl)). lia. }
    subst j. cbn [seq]. f_equal. apply IH; [exact S|]. intros j. split.
    + intros I. assert (Y := proj1 (H j) (or_intror I)). specialize (F j I). lia.
    + intros I. destruct (proj2 (H j) ltac:(lia)) as [X|X]; [lia|exact X].
Qed.
Lemma nearest_self x y : 0 <= x <= 1 -> nearest_unit x y -> y = x.
Proof. intros X [_ N]. specialize (N x X). replace (x - x) with 0 in N by ring. rewrite Rabs_R0 in N. assert (A := Rabs_pos (x - y)). assert (Z : Rabs (x - y) = 0) by lra. destruct (Req_dec (x - y) 0) as [E|E]; [lra|]. apply Rabs_no_R0 in E. contradiction. Qed.
Lemma place_unique c0 c1 c2 u v u' v' : area c0 c1 c2 <> 0 -> place c0 c1 c2 u v = place c0 c1 c2 u' v' -> u = u' /\ v = v'.
Proof.
  unfold area, crossr, subr, place. destruct c0 as [ax ay], c1 as [bx b_y], c2 as [cx cy]. cbn. intros A E. injection E as E1 E2. set (D := (cx - bx) * (ay - b_y) - (cy - b_y) * (ax - bx)) in *.
  assert (F1 : (u - u') * (cx - bx) + (v - v') * (ax - bx) = 0) by lra. assert (F2 : (u - u') * (cy - b_y) + (v - v') * (ay - b_y) = 0) by lra.
  assert (P : D * (u - u') = 0). { unfold D. transitivity ((ay - b_y) * ((u - u') * (cx - bx) + (v - v') * (ax - bx)) - (ax - bx) * ((u - u') * (cy - b_y) + (v - v') * (ay - b_y))); [ring|rewrite F1, F2; ring]. }
  assert (Q : D * (v - v') = 0). { unfold D. transitivity ((cx - bx) * ((u - u') * (cy - b_y) + (v - v') * (ay - b_y)) - (cy - b_y) * ((u - u') * (cx - bx) + (v - v') * (ax - bx))); [ring|rewrite F1, F2; ring]. }
  apply Rmult_integral in P as [P|P]; [contradiction|]. apply Rmult_integral in Q as [Q|Q]; [contradiction|]. lra.
Qed.
Lemma inside_place c0 c1 c2 c3 p : inside c0 c1 c2 c3 p -> exists u v, unit_range u /\ unit_range v /\ p = place c0 c1 c2 u v.
Proof. intros (s & t & S & T & X & Y). exists s, t. split; [exact S|]. split; [exact T|]. destruct p as [x y]. unfold place. cbn in *. now rewrite X, Y. Qed.
Lemma spread_x (a b c : Aabb_Model.pt) : crossr (subr (at_real b) (at_real a)) (subr (at_real c) (at_real a)) <> 0 -> (~ (fst a == fst b)%Q) \/ ~ (fst a == fst c)%Q.
Proof.
  intros C. destruct (Qeq_dec (fst a) (fst b)) as [E|E]; [right|now left]. intros E'. apply C. apply Qeq_eqR in E, E'. unfold crossr, subr, at_real. cbn. rewrite E, <- E', E. ring.
Qed.
Lemma rect_line c0 c1 c2 c3 a b c : rectangle c0 c1 c2 c3 -> inside c0 c1 c2 c3 a -> inside c0 c1 c2 c3 b -> inside c0 c1 c2 c3 c -> area c0 c1 c2 = 0 -> crossr (subr b a) (subr c a) = 0.
Proof.
  intros R (s1 & t1 & _ & _ & X1 & Y1) (s2 & t2 & _ & _ & X2 & Y2) (s3 & t3 & _ & _ & X3 & Y3) A. unfold area in A. unfold crossr, subr in *. cbn in *. rewrite X1, X2, X3, Y1, Y2, Y3.
  transitivity (((s2 - s1) * (t3 - t1) - (t2 - t1) * (s3 - s1)) * ((fst c2 - fst c1) * (snd c0 - snd c1) - (snd c2 - snd c1) * (fst c0 - fst c1))); [ring|rewrite A; ring].
Qed.
Lemma default_area (sample : list Aabb_Model.pt) a b c : (2 < length sample)%nat -> In a sample -> In b sample -> In c sample -> crossr (subr (at_real b) (at_real a)) (subr (at_real c) (at_real a)) <> 0 ->
  exists c0 c1 c2 c3, default_quad sample = Some (c0, c1, c2, c3) /\ 0 < area c0 c1 c2 /\ forall p, In p sample -> inside c0 c1 c2 c3 (at_real p).
Proof.
  intros L A B C N. assert (Q : exists c0 c1 c2 c3, default_quad sample = Some (c0, c1, c2, c3) /\ rectangle c0 c1 c2 c3 /\ forall p, In p sample -> inside c0 c1 c2 c3 (at_real p)).
  { destruct (spread_x a b c N) as [D|D]; [destruct (C87_quad sample a b L A B D) as (c0 & c1 & c2 & c3 & E & R & I & _)|destruct (C87_quad sample a c L A C D) as (c0 & c1 & c2 & c3 & E & R & I & _)]; exists c0, c1, c2, c3; auto. }
  destruct Q as (c0 & c1 & c2 & c3 & E & R & I). exists c0, c1, c2, c3. split; [exact E|]. split; [|exact I]. destruct (Rlt_dec 0 (area c0 c1 c2)) as [P|P]; [exact P|exfalso].
  assert (R2 := proj1 (proj2 R)). unfold area in P. apply N. apply (rect_line c0 c1 c2 c3); auto. unfold area. lra.
Qed.
Theorem C88_default (sample : list Aabb_Model.pt) z a b c : (2 < length sample)%nat -> length z = length sample -> In a sample -> In b sample -> In c sample ->
  crossr (subr (at_real b) (at_real a)) (subr (at_real c) (at_real a)) <> 0 ->
  exists c0 c1 c2 c3 uv, default_quad sample = Some (c0, c1, c2, c3) /\ compute_uv_points (Quad c0 c1 c2 c3) (map at_real sample) z None = Some (uv, z, None) /\ length uv = length sample /\
    forall k, (k < length sample)%nat -> unit_range (fst (nth k uv (0, 0))) /\ unit_range (snd (nth k uv (0, 0))) /\ place c0 c1 c2 (fst (nth k uv (0, 0))) (snd (nth k uv (0, 0))) = at_real (nth k sample (0, 0)%Q).
Proof.
  intros L LZ A B C N. destruct (default_area sample a b c L A B C N) as (c0 & c1 & c2 & c3 & E & AR & I). exists c0, c1, c2, c3.
  assert (AN : area (q0 (Quad c0 c1 c2 c3)) (q1 (Quad c0 c1 c2 c3)) (q2 (Quad c0 c1 c2 c3)) <> 0) by (cbn [q0 q1 q2]; lra).
  destruct (points_ok (Quad c0 c1 c2 c3) (map at_real sample) z None AN ltac:(now rewrite map_length) ltac:(intros l X; discriminate X)) as (js & uv & (S & CH) & P & LU & F). cbn [q0 q1 q2] in *. rewrite map_length in CH.
  assert (NT : forall j, (j < length sample)%nat -> nth j (map at_real sample) (0, 0) = at_real (nth j sample (0, 0)%Q)).
  { intros j J. rewrite (nth_map_lt _ _ j (0, 0) (0, 0)%Q) by exact J. reflexivity. }
  assert (JS : js = seq 0 (length sample)).
  { apply sorted_all; [exact S|]. intros j. rewrite CH. split; [intros [X _]; split; [apply Nat.le_0_l|exact X]|]. intros [_ X]. split; [exact X|]. rewrite NT by exact X. apply (near_inside uv_eps (Quad c0 c1 c2 c3) _ c3); [unfold uv_eps; apply Rinv_0_lt_compat, pow_lt; lra|]. cbn [q0 q1 q2]. apply I, nth_In. exact X. }
  subst js. rewrite seq_length in *. assert (RZ : rows 0 z (seq 0 (length sample)) = z).
  { rewrite <- LZ. unfold rows. clear. induction z as [|x z IH]; [reflexivity|]. cbn [length seq map nth]. f_equal. rewrite <- seq_shift, map_map. exact IH. }
  rewrite RZ in P. cbn [option_map] in P. exists uv. split; [exact E|]. split; [exact P|]. split; [exact LU|]. intros k K. destruct (F k K) as (u & v & PL & U & V). rewrite seq_nth in PL by exact K. cbn [Nat.add] in PL. rewrite NT in PL by exact K.
  destruct (inside_place _ _ _ _ _ (I _ (nth_In sample (0, 0)%Q K))) as (u' & v' & U' & V' & PL'). rewrite PL in PL'. destruct (place_unique c0 c1 c2 u v u' v' ltac:(lra) PL') as [-> ->].
  rewrite (nearest_self u' _ U' U), (nearest_self v' _ V' V). split; [exact U'|]. split; [exact V'|]. now symmetry.
Qed.
Example C88_default_case : let s := [(0, 0); (4, 0); (0, 3); (1, 1)]%Q in (2 < length s)%nat /\ crossr (subr (at_real (4, 0)%Q) (at_real (0, 0)%Q)) (subr (at_real (0, 3)%Q) (at_real (0, 0)%Q)) <> 0.
Proof. split; [cbn; lia|]. unfold crossr, subr, at_real, Q2R. cbn. lra. Qed.
(** Points on a line cannot be approximated with the default quad. *)
Lemma line_bound (sample : list Aabb_Model.pt) (p d : R * R) : (forall z, In z sample -> exists t, at_real z = (fst p + t * fst d, snd p + t * snd d)) ->
  exists T, 0 < T /\ forall z, In z sample -> exists t, - T <= t <= T /\ at_real z = (fst p + t * fst d, snd p + t * snd d).
Proof.
  induction sample as [|x l IH]; intros H; [exists 1; split; [lra|intros z []]|]. destruct (IH (fun z I => H z (or_intror I))) as (T & TP & HT). destruct (H x (or_introl eq_refl)) as (t & E).
  exists (T + Rabs t). assert (A := Rabs_pos t). split; [lra|]. intros z [<- |I].
  - exists t. split; [|exact E]. assert (B := Rle_abs t). assert (C := Rle_abs (- t)). rewrite Rabs_Ropp in C. lra.
  - destruct (HT z I) as (t' & B & E'). exists t'. split; [lra|exact E'].
Qed.
Lemma default_flat (sample : list Aabb_Model.pt) : (2 < length sample)%nat -> (forall a b c, In a sample -> In b sample -> In c sample -> crossr (subr (at_real b) (at_real a)) (subr (at_real c) (at_real a)) = 0) ->
  exists c0 c1 c2 c3, default_quad sample = Some (c0, c1, c2, c3) /\ area c0 c1 c2 = 0.
Proof.
  intros L H. destruct sample as [|a l]; [cbn in L; lia|]. assert (D : (exists b, In b l /\ ~ (fst a == fst b)%Q) \/ forall b, In b l -> (fst b == fst a)%Q).
  { clear L H. induction l as [|x l IH]; [right; intros b []|]. destruct (Qeq_dec (fst a) (fst x)) as [E|E]; [|left; exists x; split; [now left|exact E]]. destruct IH as [(b & B & N)|IH]; [left; exists b; split; [now right|exact N]|].
    right. intros b [<- |B]; [now symmetry|now apply IH]. }
  destruct D as [(b & B & N)|V].
  - destruct (C87_quad (a :: l) a b L (or_introl eq_refl) (or_intror B) N) as (c0 & c1 & c2 & c3 & E & R & I & M). exists c0, c1, c2, c3. split; [exact E|].
    set (d := subr (at_real b) (at_real a)). assert (DX : fst d <> 0). { unfold d, subr, at_real. cbn. intros X. apply N. apply eqR_Qeq. lra. }
    destruct (line_bound (a :: l) (at_real a) d) as (T & TP & HT).
    { intros z Z. assert (X := H a b z (or_introl eq_refl) (or_intror B) Z). exists ((fst (at_real z) - fst (at_real a)) / fst d). destruct (at_real z) as [zx zy]. unfold crossr, subr in X. cbn [fst snd] in *. f_equal; [field; exact DX|].
      unfold d, subr in *. cbn [fst snd] in *. apply (Rmult_eq_reg_l (fst (at_real b) - fst (at_real a))); [|exact DX]. transitivity ((fst (at_real b) - fst (at_real a)) * snd (at_real a) + (zx - fst (at_real a)) * (snd (at_real b) - snd (at_real a))); [lra|field; exact DX]. }
    set (e1 := (fst (at_real a) - T * fst d, snd (at_real a) - T * snd d)). set (e2 := (fst (at_real a) + T * fst d, snd (at_real a) + T * snd d)).
    assert (LE : area c0 c1 c2 <= area e1 e1 e2).
    { apply (M e1 e1 e2 e2).
      - unfold rectangle, dotr, crossr, subr. cbn [fst snd]. split; [ring|]. split; [apply Req_le; ring|reflexivity].
      - intros z Z. destruct (HT z Z) as (t & TB & ->). exists ((t + T) / (2 * T)), 0. unfold e1, e2. cbn [fst snd]. repeat split; try lra; [apply Rmult_le_pos; [lra|apply Rlt_le, Rinv_0_lt_compat; lra]|apply Rmult_le_reg_r with (2 * T); [lra|unfold Rdiv; rewrite Rmult_assoc, Rinv_l by lra; lra]|field; lra|field; lra]. }
    assert (Z0 : area e1 e1 e2 = 0) by (unfold area, crossr, subr; cbn [fst snd]; ring). assert (R2 := proj1 (proj2 R)). unfold area in *. lra.
  - exists (at_real a), (at_real a), (at_real a), (at_real a). split; [apply C87_vertical; [cbn in L; lia|exact V]|]. unfold area, crossr, subr. cbn. ring.
Qed.
Theorem C88_line la h (points : list (Aabb_Model.pt * R)) nuv weight : (2 < length points)%nat ->
  (forall a b c, In a (map fst points) -> In b (map fst points) -> In c (map fst points) -> crossr (subr (at_real b) (at_real a)) (subr (at_real c) (at_real a)) = 0) ->
  compute_approximation la h points None nuv weight = None.
Proof.
  intros L H. destruct (default_flat (map fst points) ltac:(now rewrite map_length) H) as (c0 & c1 & c2 & c3 & E & A). unfold compute_approximation. cbv zeta. rewrite E.
  assert (P : forall xy z, compute_uv_points (Quad c0 c1 c2 c3) xy z None = None) by (intros; now apply points_none). rewrite P. destruct nuv as [[nu nv]|]; [|reflexivity]. unfold approximate. rewrite P. reflexivity.
Qed.
Example C88_line_case : let s := [(0, 0); (1, 2); (2, 4)]%Q in (2 < length s)%nat /\ forall a b c, In a s -> In b s -> In c s -> crossr (subr (at_real b) (at_real a)) (subr (at_real c) (at_real a)) = 0.
Proof.
  split; [cbn; lia|]. intros a b c [<- |[<- |[<- |[]]]] [<- |[<- |[<- |[]]]] [<- |[<- |[<- |[]]]]; unfold crossr, subr, at_real, Q2R; cbn; lra.
Qed.
Print Assumptions C88_points.
Print Assumptions C88_flat.
Print Assumptions C88_default.
Print Assumptions C88_line.

(** C89. The rows of the first matrix give the values of the surface with the poles z in the points. *)
Theorem C89_values nu nv ub vb uv : make_equidistant 2 nu 0 1 = Some ub -> make_equidistant 2 nv 0 1 = Some vb -> (forall p, In p uv -> unit_range (fst p) /\ unit_range (snd p)) ->
  exists b, ls_matrix ub vb uv = Some b /\ forall z, exists s, make_surface ub vb (poles_of ub vb z) false = Some s /\
    forall k, (k < length uv)%nat -> surface_eval s (fst (nth k uv (0, 0))) (snd (nth k uv (0, 0))) = Some [rsum (size ub * size vb) (fun c => entry b k c * nth c z 0)].
Proof.
  intros E1 E2 UV. destruct (make_equal nu ub E1) as [NU EU]. destruct (make_equal nv vb E2) as [NV EV]. destruct (ls_matrix_ok ub vb nu nv NU NV EU EV uv UV) as (b & E & _ & F). exists b. split; [exact E|].
  intros z. destruct (make_poles ub vb nu nv NU NV EU EV z) as (s & S & _ & _ & H). exists s. split; [exact S|]. intros k K. destruct (UV _ (nth_In uv (0, 0) K)) as [U V]. rewrite (H _ _ U V). f_equal. f_equal. symmetry. exact (F (fun c => nth c z 0) k K).
Qed.
(** The quadratic form of the second matrix is 4 times the integral of the squared gradient. *)
Theorem C89_roughness nu nv ub vb : make_equidistant 2 nu 0 1 = Some ub -> make_equidistant 2 nv 0 1 = Some vb ->
  exists a, reg_matrix ub vb = Some a /\ forall z, exists s f, make_surface ub vb (poles_of ub vb z) false = Some s /\ (forall u v, unit_range u -> unit_range v -> surface_eval s u v = Some [f u v]) /\
    forall r, roughness f r <-> rsum (size ub * size vb) (fun i => rsum (size ub * size vb) (fun j => entry a i j * nth i z 0 * nth j z 0)) = 4 * r.
Proof.
  intros E1 E2. destruct (make_equal nu ub E1) as [NU EU]. destruct (make_equal nv vb E2) as [NV EV]. destruct (reg_matrix_ok ub vb nu nv NU NV EU EV) as (a & E & W & F). exists a. split; [exact E|].
  intros z. destruct (make_poles ub vb nu nv NU NV EU EV z) as (s & S & _ & _ & H). exists s, (vz ub vb (fun c => nth c z 0)). split; [exact S|]. split; [exact H|].
  assert (R := rough_total ub vb nu nv NU NV EU EV (fun c => nth c z 0)). set (x := fun c => nth c z 0) in *. assert (P : rsum (size ub * size vb) (fun i => rsum (size ub * size vb) (fun j => entry a i j * x i * x j)) = total ub vb nu nv x x) by (rewrite (entry_form a _ _ x x W); apply F).
  intros r. unfold x in P at 1 2. rewrite P. split.
  - intros Q. rewrite (rough_unique _ _ _ _ (fun _ _ _ _ => eq_refl) Q R). field.
  - intros Q. replace r with (total ub vb nu nv x x / 4) by lra. exact R.
Qed.
Example C89_case : exists b, make_equidistant 2 3 0 1 = Some b /\ size b = 5%nat.
Proof. destruct (equal_exists 3 ltac:(lia)) as (b & E & EB). exists b. split; [exact E|]. exact (proj1 (sizes b 3 ltac:(lia) EB)). Qed.
Print Assumptions C89_values.
Print Assumptions C89_roughness.

(** C90. No surface over the same bases has a smaller sum of squares plus roughness. *)
Theorem C90_least la h q nu nv weight xy z h1 error : solver la -> 0 <= weight -> 0 <= bb_norm la -> 0 < a_norm la -> length z = length xy ->
  approximate la h q nu nv weight xy z = Some (h1, error) ->
  let lam := 4 * (weight * (bb_norm la / a_norm la)) in
  exists uv g f x, compute_uv_points q xy z None = Some (uv, g, None) /\
    (forall u v, unit_range u -> unit_range v -> z_eval h1 (length h) (u, v) = Some (f u v) /\ z_eval_xy h1 (length h) (place (q0 q) (q1 q) (q2 q) u v) = Some (f u v)) /\
    penalised lam uv g f x /\ (forall x', penalised lam uv g f x' -> x' = x) /\
    forall ub vb s f', make_equidistant 2 nu 0 1 = Some ub -> make_equidistant 2 nv 0 1 = Some vb -> make_surface ub vb (s_poles s) false = Some s -> s_dim s = 1%nat ->
      (forall u v, unit_range u -> unit_range v -> surface_eval s u v = Some [f' u v]) -> (exists x', penalised lam uv g f' x') /\ forall x', penalised lam uv g f' x' -> x <= x'.
Proof.
  intros S WP BP AP LZ E lam. destruct (heights _ _ _ _ _ _ _ _ _ _ LZ E) as (uv & g & ub & vb & bm & am & zv & A & LG & UV & NU & NV & EU & EV & EP & E1 & E2 & E3 & E4 & E5 & E6 & H).
  destruct (solution la weight ub vb uv g bm am LG zv S E5) as [LV SV]. assert (PC := penalised_cost la weight ub vb nu nv uv g bm am NU NV EU EV UV LG E3 E4).
  exists uv, g, (vz ub vb (fun c => nth c zv 0)). eexists. split; [exact EP|]. split; [exact H|]. split; [exact (PC (fun c => nth c zv 0))|]. split.
  - intros x' P. exact (penalised_unique la weight uv g UV _ _ _ _ (fun _ _ _ _ => eq_refl) P (PC _)).
  - intros ub' vb' s f' E1' E2' MS SD F. rewrite E1 in E1'. rewrite E2 in E2'. injection E1' as <-. injection E2' as <-. destruct (competitor ub vb nu nv NU NV EU EV s f' MS SD F) as (y & Y).
    assert (PY := penalised_ext la weight uv g UV (vz ub vb y) f' _ (fun u v U V => eq_sym (Y u v U V)) (PC y)). split; [eexists; exact PY|]. intros x' P.
    rewrite (penalised_unique la weight uv g UV f' f' _ _ (fun _ _ _ _ => eq_refl) P PY). exact (least la weight ub vb nu nv uv g bm am NU NV EU EV E4 WP BP AP _ y SV).
Qed.
Print Assumptions C90_least.

(** C91. The attribute error is the largest difference of height and data; the differences below the data do not count. *)
Theorem C91_error la h q nu nv weight xy z h1 error : solver la -> length z = length xy -> approximate la h q nu nv weight xy z = Some (h1, error) ->
  exists uv g f, compute_uv_points q xy z None = Some (uv, g, None) /\ (forall u v, unit_range u -> unit_range v -> z_eval h1 (length h) (u, v) = Some (f u v)) /\
    (forall k, (k < length uv)%nat -> f (fst (nth k uv (0, 0))) (snd (nth k uv (0, 0))) - nth k g 0 <= error) /\
    exists k, (k < length uv)%nat /\ error = f (fst (nth k uv (0, 0))) (snd (nth k uv (0, 0))) - nth k g 0.
Proof.
  intros S LZ E. destruct (diff_value _ _ _ _ _ _ _ _ _ _ LZ S E) as (uv & g & f & EP & H & LG & M). exists uv, g, f. split; [exact EP|]. split; [exact H|]. split.
  - intros k K. apply (amax_spec _ _ M). apply in_map_iff. exists k. split; [reflexivity|]. apply in_seq. lia.
  - apply amax_in in M. apply in_map_iff in M as (k & <- & K). apply in_seq in K. exists k. split; [exact (proj2 K)|reflexivity].
Qed.
Lemma constant_slope ub vb nu nv : (0 < nu)%nat -> (0 < nv)%nat -> equal_basis ub nu -> equal_basis vb nv -> forall c u v, unit_range u -> unit_range v -> vdu ub vb (fun _ => c) u v = 0 /\ vdv ub vb (fun _ => c) u v = 0.
Proof.
  intros NU NV EU EV c u v U V. destruct (vz_gradient ub vb nu nv NU NV EU EV (fun _ => c) u v U V) as [G1 G2].
  assert (K : forall t, unit_range t -> deriv_within unit_range (fun _ => c) t 0). { intros t T eps P. exists 1. split; [lra|]. intros y Y NY _. replace ((c - c) / (y - t) - 0) with 0 by (field; intros Z; apply NY; lra). rewrite Rabs_R0. exact P. }
  split.
  - apply (deriv_unique (fun t => vz ub vb (fun _ => c) t v) u _ 0 U G1). apply (deriv_ext unit_range (fun _ => c)); [exact U|intros y Y; symmetry; now apply (constant_value ub vb nu nv EU EV)|now apply K].
  - apply (deriv_unique (fun t => vz ub vb (fun _ => c) u t) v _ 0 V G2). apply (deriv_ext unit_range (fun _ => c)); [exact V|intros y Y; symmetry; now apply (constant_value ub vb nu nv EU EV)|now apply K].
Qed.
(** A solver that knows one solution: all numbers 1. *)
Definition ones : linalg := LinAlg 1 1 (fun n M r => if forallb (fun i => Reqb (rsum n (fun c => M i c * 1)) (r i)) (seq 0 n) then Some (repeat 1 n) else None).
Lemma nth_ones n c : (c < n)%nat -> nth c (repeat 1 n) 0 = 1.
Proof. intros L. rewrite (nth_indep _ 0 1) by (rewrite repeat_length; exact L). apply nth_repeat. Qed.
Lemma ones_solver : solver ones.
Proof.
  intros n M r x. cbn [ones spsolve]. destruct (forallb _ _) eqn:F; [|discriminate]. intros X. injection X as <-. split; [apply repeat_length|]. intros i I. rewrite forallb_forall in F.
  specialize (F i ltac:(apply in_seq; lia)). destruct (Reqb_spec (rsum n (fun c => M i c * 1)) (r i)) as [Q|Q]; [|discriminate]. rewrite <- Q. apply rsum_ext. intros c C. now rewrite nth_ones.
Qed.
Definition unit_square : quad := Quad (0, 1) (0, 0) (1, 0) (1, 1).
(** Three heights above one point: 0, 0 and 3. *)
Lemma three_heights : exists h1, approximate ones [] unit_square 1 1 1 [(1 / 2, 1 / 2); (1 / 2, 1 / 2); (1 / 2, 1 / 2)] [0; 0; 3] = Some (h1, 1).
Proof.
  set (p := (1 / 2, 1 / 2)). set (xy := [p; p; p]). assert (AR : area (q0 unit_square) (q1 unit_square) (q2 unit_square) <> 0) by (unfold area, crossr, subr; cbn; lra).
  assert (EP : compute_uv_points unit_square xy [0; 0; 3] None = Some (xy, [0; 0; 3], None)).
  { destruct (inv_some unit_square AR) as (m & M & HM). unfold compute_uv_points. rewrite M. assert (PU : point_uv unit_square m p = p) by (apply HM; unfold place, unit_square, p; cbn; f_equal; lra).
    assert (EPS : 0 < uv_eps) by (unfold uv_eps; apply Rinv_0_lt_compat, pow_lt; lra).
    assert (IC : in_cut p = true) by (unfold in_cut, p; cbn [fst snd]; destruct (Rltb_spec (- uv_eps) (1 / 2)), (Rleb_spec (1 / 2) (1 + uv_eps)); try lra; reflexivity).
    assert (SN : snap p = p) by (unfold snap, p; cbn [fst snd]; rewrite Rmax_left, Rmin_left by lra; reflexivity).
    unfold xy. cbn [map mask option_map]. rewrite PU, IC. cbn [map]. rewrite SN. reflexivity. }
  destruct (equal_exists 1 ltac:(lia)) as (b & E1 & EB). assert (N1 : (0 < 1)%nat) by lia. set (n := (size b * size b)%nat).
  assert (UV : forall r, In r xy -> 0 <= fst r <= 1 /\ 0 <= snd r <= 1) by (intros r [<- |[<- |[<- |[]]]]; unfold p; cbn; lra).
  destruct (ls_matrix_ok b b 1 1 N1 N1 EB EB xy UV) as (bm & E3 & _ & FB). destruct (reg_matrix_ok b b 1 1 N1 N1 EB EB) as (am & E4 & WA & FA).
  assert (V1 : forall k, (k < 3)%nat -> rsum n (fun c => entry bm k c * 1) = 1).
  { intros k K. unfold n. rewrite (FB (fun _ => 1) k K). destruct (UV (nth k xy (0, 0)) (nth_In xy (0, 0) K)) as [U V]. now apply (constant_value b b 1 1 EB EB). }
  assert (AZ : forall i, (i < n)%nat -> rsum n (fun c => entry am i c * 1) = 0).
  { intros i I. rewrite (row_form am n n i (fun _ => 1) WA I). rewrite FA. cbn [rsum]. unfold block_sum.
    assert (D := constant_slope b b 1 1 N1 N1 EB EB 1).
    rewrite (rsum_0 4); [ring|]. intros r _. apply rsum_0. intros q _. unfold both.
    destruct (D (node b 0 r) (node b 0 q) (cell_unit b 1 N1 EB 0 _ (node_cell b 1 0 r N1 EB N1)) (cell_unit b 1 N1 EB 0 _ (node_cell b 1 0 q N1 EB N1))) as [D1 D2]. rewrite D1, D2. ring. }
  assert (SP : spsolve ones n (system bm am (length xy) (1 * (bb_norm ones / a_norm ones))) (right_side bm [0; 0; 3]) = Some (repeat 1 n)).
  { cbn [ones spsolve bb_norm a_norm]. replace (forallb _ _) with true; [reflexivity|]. symmetry. apply forallb_forall. intros i I. apply in_seq in I.
    destruct (Reqb_spec (rsum n (fun c => system bm am (length xy) (1 * (1 / 1)) i c * 1)) (right_side bm [0; 0; 3] i)) as [Q|Q]; [reflexivity|exfalso]. apply Q. unfold system, right_side, xy. cbn [length sum_to nth].
    rewrite (rsum_ext n _ (fun c => entry bm 0 i * (entry bm 0 c * 1) + (entry bm 1 i * (entry bm 1 c * 1) + (entry bm 2 i * (entry bm 2 c * 1) + (1 * (1 / 1)) * (entry am i c * 1))))) by (intros; ring).
    rewrite !rsum_plus, !rsum_scal, !V1, AZ by lia.
    assert (SAME : forall k, (k < 3)%nat -> entry bm k i = entry bm 2 i).
    { intros k K. assert (X1 := FB (unit_at i) k K). assert (X2 := FB (unit_at i) 2%nat ltac:(unfold xy; cbn; lia)).
      assert (NK : nth k xy (0, 0) = nth 2 xy (0, 0)) by (destruct k as [|[|[|k]]]; [reflexivity|reflexivity|reflexivity|lia]). rewrite NK, <- X2 in X1.
      assert (DL : forall k', rsum (size b * size b) (fun c => entry bm k' c * unit_at i c) = entry bm k' i). { intros k'. rewrite <- (rsum_delta (size b * size b) i (fun c => entry bm k' c) ltac:(fold n; lia)). apply rsum_ext. intros c _. unfold unit_at. destruct (c =? i)%nat; ring. }
      rewrite !DL in X1. exact X1. }
    rewrite (SAME 0%nat), (SAME 1%nat) by lia. ring. }
  destruct (approx_go ones [] unit_square 1 1 1 xy [0; 0; 3] xy [0; 0; 3] b b bm am (repeat 1 n) eq_refl ltac:(cbn; lra) ltac:(discriminate) EP E1 E1 E3 E4 SP) as (h1 & er & E & M).
  exists h1. replace 1 with er at 2; [exact E|]. assert (DF : diff bm (repeat 1 n) [0; 0; 3] = [1; 1; -2]).
  { unfold diff. cbn [length seq map nth]. rewrite repeat_length, !sum_to_rsum. assert (X : forall k, (k < 3)%nat -> rsum n (fun c => entry bm k c * nth c (repeat 1 n) 0) = 1). { intros k K. transitivity (rsum n (fun c => entry bm k c * 1)); [|exact (V1 k K)]. apply rsum_ext. intros c C. now rewrite nth_ones. }
    rewrite !X by lia. f_equal; [lra|]. f_equal; [lra|]. f_equal. lra. }
  rewrite DF in M. assert (I := amax_in _ _ M). assert (MX := amax_spec _ _ M 1 ltac:(now left)). destruct I as [<- |[<- |[<- |[]]]]; lra.
Qed.
Theorem C91_largest_deviation_refuted : exists la h q nu nv weight xy z h1 error uv g f k, solver la /\ approximate la h q nu nv weight xy z = Some (h1, error) /\
  compute_uv_points q xy z None = Some (uv, g, None) /\ (forall u v, unit_range u -> unit_range v -> z_eval h1 (length h) (u, v) = Some (f u v)) /\ (k < length uv)%nat /\
  error < Rabs (f (fst (nth k uv (0, 0))) (snd (nth k uv (0, 0))) - nth k g 0).
Proof.
  destruct three_heights as (h1 & E). set (xy := [(1 / 2, 1 / 2); (1 / 2, 1 / 2); (1 / 2, 1 / 2)]) in *.
  destruct (C91_error ones [] unit_square 1 1 1 xy [0; 0; 3] h1 1 ones_solver eq_refl E) as (uv & g & f & EP & H & U & (k0 & K0 & AT)).
  assert (AR : area (q0 unit_square) (q1 unit_square) (q2 unit_square) <> 0) by (unfold area, crossr, subr; cbn; lra).
  destruct (points_ok unit_square xy [0; 0; 3] None AR eq_refl ltac:(intros l X; discriminate X)) as (js & uv' & (S & CH) & EP' & LU & F). rewrite EP in EP'. injection EP' as <- ->.
  assert (JS : js = seq 0 3).
  { apply sorted_all; [exact S|]. intros j. rewrite CH. unfold xy. cbn [length]. split; [intros [X _]; lia|]. intros X. split; [lia|]. assert (P : nth j [(1 / 2, 1 / 2); (1 / 2, 1 / 2); (1 / 2, 1 / 2)] (0, 0) = (1 / 2, 1 / 2)) by (destruct j as [|[|[|j]]]; [reflexivity|reflexivity|reflexivity|lia]). rewrite P.
    assert (EPS : 0 < uv_eps) by (unfold uv_eps; apply Rinv_0_lt_compat, pow_lt; lra). exists (1 / 2), (1 / 2). unfold place, about_unit, unit_square. cbn [q0 q1 q2 fst snd]. split; [f_equal; lra|]. lra. }
  subst js. rewrite seq_length in *. assert (UVN : forall k, (k < 3)%nat -> nth k uv (0, 0) = (1 / 2, 1 / 2)).
  { intros k K. destruct (F k K) as (u & v & P & UN & VN). assert (NP : nth (nth k (seq 0 3) 0%nat) xy (0, 0) = (1 / 2, 1 / 2)) by (destruct k as [|[|[|k]]]; [reflexivity|reflexivity|reflexivity|lia]). rewrite NP in P. unfold place, unit_square in P. cbn [q0 q1 q2 fst snd] in P. injection P as P1 P2.
    assert (u = 1 / 2) by lra. assert (v = 1 / 2) by lra. subst u v. rewrite (surjective_pairing (nth k uv (0, 0))). f_equal; apply nearest_self; auto; lra. }
  assert (V : f (1 / 2) (1 / 2) = 1).
  { assert (U0 := U 0%nat ltac:(rewrite LU; lia)). rewrite (UVN 0%nat ltac:(lia)) in U0. cbn in U0. assert (K3 : (k0 < 3)%nat) by (rewrite <- LU; exact K0). rewrite (UVN k0 K3) in AT. unfold rows in AT. cbn [fst snd seq map nth] in AT.
    destruct k0 as [|[|[|k0]]]; cbn in AT; try lra; try lia. }
  exists ones, (@nil zsurf), unit_square, 1%nat, 1%nat, 1, xy, [0; 0; 3], h1, 1, uv, (rows 0 [0; 0; 3] (seq 0 3)), f, 2%nat. split; [exact ones_solver|]. split; [exact E|]. split; [exact EP|]. split; [exact H|]. split; [rewrite LU; lia|].
  rewrite (UVN 2%nat ltac:(lia)). unfold rows. cbn [fst snd seq map nth]. rewrite V. replace (1 - 3) with (- (2)) by ring. rewrite Rabs_Ropp, Rabs_right by lra. lra.
Qed.
Example C90_case : solver ones /\ 0 <= 1 /\ 0 <= bb_norm ones /\ 0 < a_norm ones /\ exists h1, approximate ones [] unit_square 1 1 1 [(1 / 2, 1 / 2); (1 / 2, 1 / 2); (1 / 2, 1 / 2)] [0; 0; 3] = Some (h1, 1).
Proof. split; [exact ones_solver|]. split; [lra|]. split; [cbn; lra|]. split; [cbn; lra|]. exact three_heights. Qed.
Example C91_case : solver ones /\ exists h1, approximate ones [] unit_square 1 1 1 [(1 / 2, 1 / 2); (1 / 2, 1 / 2); (1 / 2, 1 / 2)] [0; 0; 3] = Some (h1, 1).
Proof. split; [exact ones_solver|exact three_heights]. Qed.
Print Assumptions C91_error.
Print Assumptions C91_largest_deviation_refuted.

(** C92. With a regularization the heights are the only ones with the least sum. *)
Theorem C92_unique la h q nu nv weight xy z h1 error : solver la -> 0 < weight -> 0 < bb_norm la -> 0 < a_norm la -> length z = length xy ->
  approximate la h q nu nv weight xy z = Some (h1, error) ->
  let lam := 4 * (weight * (bb_norm la / a_norm la)) in
  exists uv g f x, compute_uv_points q xy z None = Some (uv, g, None) /\ (forall u v, unit_range u -> unit_range v -> z_eval h1 (length h) (u, v) = Some (f u v)) /\ penalised lam uv g f x /\
    forall ub vb s f' x', make_equidistant 2 nu 0 1 = Some ub -> make_equidistant 2 nv 0 1 = Some vb -> make_surface ub vb (s_poles s) false = Some s -> s_dim s = 1%nat ->
      (forall u v, unit_range u -> unit_range v -> surface_eval s u v = Some [f' u v]) -> penalised lam uv g f' x' -> x' <= x -> forall u v, unit_range u -> unit_range v -> f' u v = f u v.
Proof.
  intros S WP BP AP LZ E lam. destruct (heights _ _ _ _ _ _ _ _ _ _ LZ E) as (uv & g & ub & vb & bm & am & zv & A & LG & UV & NU & NV & EU & EV & EP & E1 & E2 & E3 & E4 & E5 & E6 & H).
  destruct (solution la weight ub vb uv g bm am LG zv S E5) as [LV SV]. assert (PC := penalised_cost la weight ub vb nu nv uv g bm am NU NV EU EV UV LG E3 E4).
  assert (NE : uv <> []). { intros ->. destruct g; [|discriminate LG]. discriminate E6. } assert (LP : 0 < weight * (bb_norm la / a_norm la)) by (apply Rmult_lt_0_compat; [exact WP|now apply Rdiv_lt_0_compat]).
  exists uv, g, (vz ub vb (fun c => nth c zv 0)). eexists. split; [exact EP|]. split; [intros u v U V; exact (proj1 (H u v U V))|]. split; [exact (PC (fun c => nth c zv 0))|].
  intros ub' vb' s f' x' E1' E2' MS SD F P LE u v U V. rewrite E1 in E1'. rewrite E2 in E2'. injection E1' as <-. injection E2' as <-. destruct (competitor ub vb nu nv NU NV EU EV s f' MS SD F) as (y & Y).
  assert (PY := penalised_ext la weight uv g UV (vz ub vb y) f' _ (fun u v U V => eq_sym (Y u v U V)) (PC y)). rewrite (penalised_unique la weight uv g UV f' f' _ _ (fun _ _ _ _ => eq_refl) P PY) in LE.
  rewrite (Y u v U V). exact (strict la weight ub vb nu nv uv g bm am NU NV EU EV UV LG E3 E4 _ y LP NE SV LE u v U V).
Qed.
(** Equal heights give a flat surface and error 0. *)
Theorem C92_constant la h q nu nv weight xy z h1 error uv g c : solver la -> 0 < weight -> 0 < bb_norm la -> 0 < a_norm la -> length z = length xy ->
  approximate la h q nu nv weight xy z = Some (h1, error) -> compute_uv_points q xy z None = Some (uv, g, None) -> (forall x, In x g -> x = c) ->
  error = 0 /\ forall u v, unit_range u -> unit_range v -> z_eval h1 (length h) (u, v) = Some c.
Proof.
  intros S WP BP AP LZ E EP0 G. destruct (heights _ _ _ _ _ _ _ _ _ _ LZ E) as (uv' & g' & ub & vb & bm & am & zv & A & LG & UV & NU & NV & EU & EV & EP & E1 & E2 & E3 & E4 & E5 & E6 & H). rewrite EP0 in EP. injection EP as <- <-.
  destruct (solution la weight ub vb uv g bm am LG zv S E5) as [LV SV]. assert (NE : uv <> []). { intros ->. destruct g; [|discriminate LG]. discriminate E6. } assert (LP : 0 < weight * (bb_norm la / a_norm la)) by (apply Rmult_lt_0_compat; [exact WP|now apply Rdiv_lt_0_compat]).
  assert (GK : forall k, (k < length uv)%nat -> nth k g 0 = c) by (intros k K; apply G, nth_In; rewrite LG; exact K).
  assert (UK : forall k, (k < length uv)%nat -> unit_range (fst (nth k uv (0, 0))) /\ unit_range (snd (nth k uv (0, 0)))) by (intros k K; exact (UV _ (nth_In uv (0, 0) K))).
  assert (C0 : cost (length uv) (size ub * size vb) (entry bm) (entry am) (weight * (bb_norm la / a_norm la)) (fun k => nth k g 0) (fun _ => c) = 0).
  { unfold cost. rewrite (a_value ub vb nu nv am NU NV EU EV E4). rewrite rsum_0.
    - assert (T : total ub vb nu nv (fun _ => c) (fun _ => c) = 0); [|rewrite T; ring]. unfold total. apply rsum_0. intros iv IV. apply rsum_0. intros iu IU. unfold block_sum. rewrite rsum_0; [ring|]. intros p _. apply rsum_0. intros r _. unfold both.
      destruct (constant_slope ub vb nu nv NU NV EU EV c (node ub iu p) (node vb iv r) (cell_unit ub nu NU EU iu _ (node_cell ub nu iu p NU EU IU)) (cell_unit vb nv NV EV iv _ (node_cell vb nv iv r NV EV IV))) as [D1 D2]. rewrite D1, D2. ring.
    - intros k K. rewrite (b_value ub vb nu nv uv bm NU NV EU EV UV E3 _ k K), GK by exact K. destruct (UK k K) as [U V]. rewrite (constant_value ub vb nu nv EU EV c _ _ U V). ring. }
  assert (CP : 0 <= cost (length uv) (size ub * size vb) (entry bm) (entry am) (weight * (bb_norm la / a_norm la)) (fun k => nth k g 0) (fun k => nth k zv 0)).
  { unfold cost. apply Rplus_le_le_0_compat; [apply rsum_nonneg; intros; apply Rle_0_sqr|]. apply Rmult_le_pos; [lra|]. rewrite (a_value ub vb nu nv am NU NV EU EV E4). now apply total_nonneg. }
  assert (Z : forall u v, unit_range u -> unit_range v -> vz ub vb (fun k => nth k zv 0) u v = c).
  { intros u v U V. rewrite <- (strict la weight ub vb nu nv uv g bm am NU NV EU EV UV LG E3 E4 _ (fun _ => c) LP NE SV ltac:(rewrite C0; exact CP) u v U V). now apply (constant_value ub vb nu nv EU EV). }
  split.
  - apply amax_in in E6. unfold diff in E6. apply in_map_iff in E6 as (k & <- & K). apply in_seq in K. rewrite LG in K. destruct K as [_ K]. rewrite sum_to_rsum, LV, (GK k K). destruct (UK k K) as [U V]. rewrite <- (Z _ _ U V). rewrite <- (b_value ub vb nu nv uv bm NU NV EU EV UV E3 _ k K). apply Rminus_diag_eq. reflexivity.
  - intros u v U V. rewrite (proj1 (H u v U V)). now rewrite Z.
Qed.
(** One point in the quad is enough for a result. *)
Theorem C92_succeeds la h q nu nv weight xy z p : complete la -> 0 < weight -> 0 < bb_norm la -> 0 < a_norm la -> length z = length xy -> (0 < nu)%nat -> (0 < nv)%nat ->
  area (q0 q) (q1 q) (q2 q) <> 0 -> In p xy -> near (/ 10 ^ 15) (q0 q) (q1 q) (q2 q) p -> exists h1 error, approximate la h q nu nv weight xy z = Some (h1, error).
Proof.
  intros C WP BP AP LZ NU NV A P N. destruct (points_ok q xy z None A LZ ltac:(intros l X; discriminate X)) as (js & uv & (_ & CH) & EP & LU & _). cbn [option_map] in EP.
  assert (NE : uv <> []). { apply (In_nth _ _ (0, 0)) in P as (j & J & EJ). assert (JJ : In j js) by (apply CH; split; [exact J|rewrite EJ; exact N]). intros ->. destruct js; [contradiction|discriminate LU]. }
  destruct (points_facts q xy z uv _ None LZ EP) as (_ & _ & _ & UV). destruct (equal_exists nu NU) as (ub & E1 & EU). destruct (equal_exists nv NV) as (vb & E2 & EV).
  destruct (ls_matrix_ok ub vb nu nv NU NV EU EV uv UV) as (bm & E3 & _). destruct (reg_matrix_ok ub vb nu nv NU NV EU EV) as (am & E4 & _).
  destruct (solvable la weight ub vb nu nv uv (rows 0 z js) bm am NU NV EU EV UV E3 E4 WP BP AP NE C) as (zv & E5).
  destruct (approx_go la h q nu nv weight xy z uv _ ub vb bm am zv LZ ltac:(lra) NE EP E1 E2 E3 E4 E5) as (h1 & er & E & _). now exists h1, er.
Qed.

(** C93. The default nuv. *)
Lemma clamp_bounds x : (1 <= clamp_n x)%nat /\ INR (clamp_n x) + 2 <= Rmax 3 (x / 3) /\ x / 3 - 1 < INR (clamp_n x) + 2.
Proof.
  unfold clamp_n. set (m := Int_part (x / 3)). destruct (base_Int_part (x / 3)) as [B1 B2]. fold m in B1, B2. split; [lia|]. rewrite INR_IZR_INZ, Z2Nat.id by lia. destruct (Z.max_spec 1 (m - 2)) as [[L ->]|[L ->]].
  - rewrite minus_IZR. split; [apply Rle_trans with (x / 3); [lra|apply Rmax_r]|lra].
  - apply IZR_le in L. rewrite minus_IZR in L. split; [apply Rle_trans with 3; [lra|apply Rmax_l]|lra].
Qed.
Lemma side_pos (a b : R * R) : a <> b -> 0 < sqrt (dotr (subr a b) (subr a b)).
Proof.
  intros N. apply sqrt_lt_R0. unfold dotr, subr. cbn. assert (X := Rle_0_sqr (fst a - fst b)). assert (Y := Rle_0_sqr (snd a - snd b)). unfold Rsqr in X, Y.
  destruct (Req_dec (fst a - fst b) 0) as [E|E].
  - destruct (Req_dec (snd a - snd b) 0) as [F|F]; [exfalso; apply N; destruct a, b; cbn in *; f_equal; lra|]. assert (Z := Rsqr_pos_lt _ F). unfold Rsqr in Z. lra.
  - assert (Z := Rsqr_pos_lt _ E). unfold Rsqr in Z. lra.
Qed.
Lemma area_sides c0 c1 c2 : area c0 c1 c2 <> 0 -> c0 <> c1 /\ c2 <> c1.
Proof. intros A. split; intros ->; apply A; unfold area, crossr, subr; cbn; ring. Qed.
Lemma nuv_value q n : area (q0 q) (q1 q) (q2 q) <> 0 -> let dv := sqrt (dotr (subr (q0 q) (q1 q)) (subr (q0 q) (q1 q))) in let du := sqrt (dotr (subr (q2 q) (q1 q)) (subr (q2 q) (q1 q))) in
  0 < dv /\ 0 < du /\ default_nuv q n = Some (clamp_n (sqrt (INR n * dv / du) * du / dv), clamp_n (sqrt (INR n * dv / du))).
Proof.
  intros A dv du. destruct (area_sides _ _ _ A) as [N0 N2]. assert (DV : 0 < dv) by now apply side_pos. assert (DU : 0 < du) by now apply side_pos. split; [exact DV|]. split; [exact DU|].
  unfold default_nuv. change (norm (psub (q0 q) (q1 q))) with dv. change (norm (psub (q2 q) (q1 q))) with du. cbv zeta. unfold ndiv. destruct (Reqb_spec du 0) as [X|_]; [lra|]. destruct (Reqb_spec dv 0) as [X|_]; [lra|].
  replace ((clamp_n (sqrt (INR n * dv / du) * du / dv) <? 1)%nat || (clamp_n (sqrt (INR n * dv / du)) <? 1)%nat) with false; [reflexivity|]. symmetry.
  apply orb_false_iff. split; apply Nat.ltb_ge; apply clamp_bounds.
Qed.
(** It never raises the exception of too few points. *)
Theorem C93_nuv q n : area (q0 q) (q1 q) (q2 q) <> 0 -> exists nu nv, default_nuv q n = Some (nu, nv) /\ (1 <= nu)%nat /\ (1 <= nv)%nat.
Proof. intros A. destruct (nuv_value q n A) as (_ & _ & E). eexists. eexists. split; [exact E|]. split; apply clamp_bounds. Qed.
(** The longer side of the quad gets at least as many intervals as the other one. *)
Lemma clamp_mono x y : x <= y -> (clamp_n x <= clamp_n y)%nat.
Proof.
  intros H. unfold clamp_n. apply Z2Nat.inj_le; [lia|lia|]. destruct (base_Int_part (x / 3)) as [A1 A2]. destruct (base_Int_part (y / 3)) as [B1 B2].
  assert (L : (Int_part (x / 3) < Int_part (y / 3) + 1)%Z) by (apply lt_IZR; rewrite plus_IZR; lra). lia.
Qed.
Theorem C93_shape q n nu nv : area (q0 q) (q1 q) (q2 q) <> 0 -> let dv := sqrt (dotr (subr (q0 q) (q1 q)) (subr (q0 q) (q1 q))) in let du := sqrt (dotr (subr (q2 q) (q1 q)) (subr (q2 q) (q1 q))) in
  default_nuv q n = Some (nu, nv) -> (du <= dv -> (nu <= nv)%nat) /\ (dv <= du -> (nv <= nu)%nat).
Proof.
  intros A dv du. destruct (nuv_value q n A) as (DV & DU & E). fold dv in DV, E. fold du in DU, E. rewrite E. intros X. injection X as <- <-. set (y := sqrt (INR n * dv / du)).
  assert (YP : 0 <= y) by apply sqrt_pos. split; intros H; apply clamp_mono.
  - apply Rmult_le_reg_r with dv; [exact DV|]. replace (y * du / dv * dv) with (y * du) by (field; lra). apply Rmult_le_compat_l; [exact YP|exact H].
  - apply Rmult_le_reg_r with dv; [exact DV|]. replace (y * du / dv * dv) with (y * du) by (field; lra). apply Rmult_le_compat_l; [exact YP|exact H].
Qed.
(** For a quad that is not too long the unknowns are at most a ninth of the points. *)
Theorem C93_unknowns q n nu nv : area (q0 q) (q1 q) (q2 q) <> 0 -> let dv := sqrt (dotr (subr (q0 q) (q1 q)) (subr (q0 q) (q1 q))) in let du := sqrt (dotr (subr (q2 q) (q1 q)) (subr (q2 q) (q1 q))) in
  81 * du <= INR n * dv -> 81 * dv <= INR n * du -> default_nuv q n = Some (nu, nv) -> (9 * ((nu + 2) * (nv + 2)) <= n)%nat.
Proof.
  intros A dv du H1 H2. destruct (nuv_value q n A) as (DV & DU & E). fold dv in DV, E. fold du in DU, E. rewrite E. intros X. injection X as <- <-.
  set (y := sqrt (INR n * dv / du)) in *. set (x := y * du / dv) in *. assert (NP := pos_INR n). assert (Y2 : y * y = INR n * dv / du). { apply sqrt_sqrt. apply Rmult_le_pos; [apply Rmult_le_pos; lra|apply Rlt_le, Rinv_0_lt_compat, DU]. }
  assert (XY : x * y = INR n). { unfold x. transitivity (y * y * du / dv); [field; lra|]. rewrite Y2. field. lra. }
  assert (YP : 0 <= y) by apply sqrt_pos. assert (XP : 0 <= x). { unfold x. apply Rmult_le_pos; [apply Rmult_le_pos; lra|apply Rlt_le, Rinv_0_lt_compat, DV]. }
  assert (NINE : forall t, 0 <= t -> 81 <= t * t -> 9 <= t) by (intros t T T2; nra).
  assert (Y9 : 9 <= y). { apply NINE; [exact YP|]. rewrite Y2. apply Rmult_le_reg_r with du; [exact DU|]. unfold Rdiv. rewrite Rmult_assoc, Rinv_l by lra. lra. }
  assert (X9 : 9 <= x). { apply NINE; [exact XP|]. assert (X2 : x * x = INR n * du / dv). { unfold x. transitivity (y * y * du * du / dv / dv); [field; lra|]. rewrite Y2. field. lra. } rewrite X2. apply Rmult_le_reg_r with dv; [exact DV|]. unfold Rdiv. rewrite Rmult_assoc, Rinv_l by lra. lra. }
  destruct (clamp_bounds x) as (_ & BX & _). destruct (clamp_bounds y) as (_ & BY & _). rewrite Rmax_right in BX, BY by lra. apply INR_le. rewrite !mult_INR, !plus_INR. rewrite <- XY. replace (INR 9) with 9 by (cbn; lra). replace (INR 2) with 2 by (cbn; lra).
  assert (PX := pos_INR (clamp_n x)). assert (PY := pos_INR (clamp_n y)). assert (M := Rmult_le_compat (INR (clamp_n x) + 2) (x / 3) (INR (clamp_n y) + 2) (y / 3) ltac:(lra) ltac:(lra) BX BY). apply Rle_trans with (9 * (x / 3 * (y / 3))); [lra|apply Req_le; field].
Qed.
(** For every number of points there is a quad with more unknowns than points. *)
Theorem C93_unknowns_refuted n : exists q nu nv, area (q0 q) (q1 q) (q2 q) <> 0 /\ default_nuv q n = Some (nu, nv) /\ (n < (nu + 2) * (nv + 2))%nat.
Proof.
  set (L := 100 * INR n + 1). assert (NP := pos_INR n). set (q := Quad (0, L) (0, 0) (1, 0) (1, L)). assert (A : area (q0 q) (q1 q) (q2 q) <> 0) by (unfold area, crossr, subr, q, L; cbn [q0 q1 q2 fst snd]; lra).
  destruct (nuv_value q n A) as (_ & _ & E). exists q. eexists. eexists. split; [exact A|]. split; [exact E|]. clear E.
  assert (DV : sqrt (dotr (subr (q0 q) (q1 q)) (subr (q0 q) (q1 q))) = L). { unfold dotr, subr, q. cbn [q0 q1 fst snd]. replace ((0 - 0) * (0 - 0) + (L - 0) * (L - 0)) with (L * L) by ring. apply sqrt_square. unfold L. lra. }
  assert (DU : sqrt (dotr (subr (q2 q) (q1 q)) (subr (q2 q) (q1 q))) = 1). { unfold dotr, subr, q. cbn [q2 q1 fst snd]. replace ((1 - 0) * (1 - 0) + (0 - 0) * (0 - 0)) with (1 * 1) by ring. apply sqrt_square. lra. }
  rewrite DV, DU. set (y := sqrt (INR n * L / 1)). set (x := y * 1 / L). assert (Y : 10 * INR n <= y).
  { unfold y. replace (10 * INR n) with (sqrt (10 * INR n * (10 * INR n))) by (apply sqrt_square; lra). apply sqrt_le_1_alt. unfold L. nra. }
  destruct (clamp_bounds x) as (X1 & _). destruct (clamp_bounds y) as (Y1 & _ & Y2). destruct (Nat.lt_ge_cases n 9) as [S|S]; [nia|]. assert (N9 : 9 <= INR n) by (replace 9 with (INR 9) by (cbn; lra); apply le_INR; exact S).
  assert (K : (n < 3 * (clamp_n y + 2))%nat). { apply INR_lt. rewrite mult_INR, plus_INR. replace (INR 3) with 3 by (cbn; lra). replace (INR 2) with 2 by (cbn; lra). lra. } nia.
Qed.
Example C93_case : let q := Quad (0, 1) (0, 0) (1, 0) (1, 1) in area (q0 q) (q1 q) (q2 q) <> 0 /\ 81 * sqrt (dotr (subr (q2 q) (q1 q)) (subr (q2 q) (q1 q))) <= INR 100 * sqrt (dotr (subr (q0 q) (q1 q)) (subr (q0 q) (q1 q))).
Proof.
  cbn [q0 q1 q2]. split; [unfold area, crossr, subr; cbn; lra|]. unfold dotr, subr. cbn [fst snd]. replace ((1 - 0) * (1 - 0) + (0 - 0) * (0 - 0)) with 1 by ring. replace ((0 - 0) * (0 - 0) + (1 - 0) * (1 - 0)) with 1 by ring. rewrite sqrt_1. replace (INR 100) with 100 by (rewrite INR_IZR_INZ; reflexivity). lra.
Qed.
(** With no quad and no nuv given, three points not on a line are enough. *)
Theorem C92_default la h (points : list (Aabb_Model.pt * R)) weight a b c : complete la -> 0 < weight -> 0 < bb_norm la -> 0 < a_norm la -> (2 < length points)%nat ->
  In a (map fst points) -> In b (map fst points) -> In c (map fst points) -> crossr (subr (at_real b) (at_real a)) (subr (at_real c) (at_real a)) <> 0 ->
  exists h1 error, compute_approximation la h points None None weight = Some (h1, error).
Proof.
  intros C WP BP AP L A B CC N. assert (LS : (2 < length (map fst points))%nat) by now rewrite map_length. destruct (default_area (map fst points) a b c LS A B CC N) as (c0 & c1 & c2 & c3 & E & AR & I).
  assert (LZ : length (map snd points) = length (map (fun p : Aabb_Model.pt * R => real_point (fst p)) points)) by now rewrite !map_length.
  unfold compute_approximation. cbv zeta. rewrite E. assert (AN : area (q0 (Quad c0 c1 c2 c3)) (q1 (Quad c0 c1 c2 c3)) (q2 (Quad c0 c1 c2 c3)) <> 0) by (cbn [q0 q1 q2]; lra).
  destruct (points_ok (Quad c0 c1 c2 c3) (map (fun p => real_point (fst p)) points) (map snd points) None AN LZ ltac:(intros l X; discriminate X)) as (js & uv & _ & EP & _). rewrite EP.
  destruct (C93_nuv (Quad c0 c1 c2 c3) (length (rows 0 (map snd points) js)) AN) as (nu & nv & -> & NU & NV).
  apply (C92_succeeds la h _ nu nv weight _ _ (at_real a) C WP BP AP LZ NU NV AN).
  - rewrite <- (map_map fst real_point). change real_point with at_real. exact (in_map at_real _ _ A).
  - apply (near_inside _ (Quad c0 c1 c2 c3) _ c3); [apply Rinv_0_lt_compat, pow_lt; lra|]. cbn [q0 q1 q2]. apply I, A.
Qed.
Example C92_case : solver ones /\ 0 < 1 /\ 0 < bb_norm ones /\ 0 < a_norm ones /\ exists h1, approximate ones [] unit_square 1 1 1 [(1 / 2, 1 / 2); (1 / 2, 1 / 2); (1 / 2, 1 / 2)] [0; 0; 3] = Some (h1, 1).
Proof. split; [exact ones_solver|]. split; [lra|]. split; [cbn; lra|]. split; [cbn; lra|]. exact three_heights. Qed.
(** Hypotheses of the last two: some solution is returned, in the middle of the unit square there is a point. *)
Example C92_succeeds_case : complete (LinAlg 1 1 (fun n _ _ => Some (repeat 0 n))) /\ area (q0 unit_square) (q1 unit_square) (q2 unit_square) <> 0 /\ near (/ 10 ^ 15) (q0 unit_square) (q1 unit_square) (q2 unit_square) (1 / 2, 1 / 2).
Proof.
  split; [intros n M r _; eexists; reflexivity|]. split; [unfold area, crossr, subr; cbn; lra|]. exists (1 / 2), (1 / 2). assert (E : 0 < / 10 ^ 15) by (apply Rinv_0_lt_compat, pow_lt; lra). unfold place, about_unit, unit_square. cbn [q0 q1 q2 fst snd]. split; [f_equal; lra|]. lra.
Qed.
Print Assumptions C92_unique.
Print Assumptions C92_constant.
Print Assumptions C92_succeeds.
Print Assumptions C92_default.
Print Assumptions C93_nuv.
Print Assumptions C93_unknowns.
Print Assumptions C93_shape.
Print Assumptions C93_unknowns_refuted.
