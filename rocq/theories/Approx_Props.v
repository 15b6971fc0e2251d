(** Properties C39 (lines, planes, bilinear surfaces) and C59 (BREP records of
    splines). *)
From Coq Require Import List Arith Bool Reals Lra Lia.
From Verif Require Import Spline_Model Spline_Spec Spline_Piece Spline_Proofs Spline_Curve Spline_Props
  Approx_Model Approx_Spec Approx_Proofs.
Import ListNotations.
Open Scope R_scope.

(** C39 *)
Theorem C39_line : forall ints a c o t d, length a = d -> length c = d -> 0 <= o ->
  (0 < o -> ints = false) -> - o <= t <= 1 + o ->
  exists cv q, line ints [a; c] o = Some cv /\ curve_eval cv t = Some q /\
    is_point d (fun j => coord a j + t * (coord c j - coord a j)) q.
Proof. exact line_l. Qed.
Print Assumptions C39_line.

Example C39_line_case : exists cv q, line false [[1; 2]; [3; 10]] (1/2) = Some cv /\
  curve_eval cv (5/4) = Some q /\ is_point 2 (fun j => nth j [7/2; 12] 0) q.
Proof.
  destruct (C39_line false [1; 2] [3; 10] (1/2) (5/4) 2) as (cv & q & A & B & C); auto; try lra.
  exists cv, q. split; auto. split; auto. eapply point_ext; [exact C|].
  intros j Hj. destruct j as [|[|]]; [| |lia]; cbn; lra.
Qed.

Theorem C39_plane : forall ints v0 v1 v2 o u v d, length v0 = d -> length v1 = d -> length v2 = d ->
  0 <= o -> (0 < o -> ints = false) -> - o <= u <= 1 + o -> - o <= v <= 1 + o ->
  exists s q, plane_surface ints [v0; v1; v2] o = Some s /\ surface_eval s u v = Some q /\
    is_point d (fun j => coord v0 j + u * (coord v1 j - coord v0 j) + v * (coord v2 j - coord v0 j)) q.
Proof. exact plane_l. Qed.
Print Assumptions C39_plane.

Example C39_plane_case : exists s q, plane_surface false [[0; 0; 1]; [2; 0; 1]; [0; 3; 5]] 1 = Some s /\
  surface_eval s 2 (-1) = Some q /\ is_point 3 (fun j => nth j [4; -3; -3] 0) q.
Proof.
  destruct (C39_plane false [0; 0; 1] [2; 0; 1] [0; 3; 5] 1 2 (-1) 3) as (s & q & A & B & C); auto; try lra.
  exists s, q. split; auto. split; auto. eapply point_ext; [exact C|].
  intros j Hj. destruct j as [|[|[|]]]; [| | |lia]; cbn; lra.
Qed.

(** The surface with an overhang o differs from the bilinear one by a multiple of
    the twist v0 - v1 + v2 - v3. *)
Theorem C39_bilinear_overhang : forall ints v0 v1 v2 v3 o u v d, length v0 = d -> length v1 = d ->
  length v2 = d -> length v3 = d -> 0 <= o -> (0 < o -> ints = false) ->
  - o <= u <= 1 + o -> - o <= v <= 1 + o ->
  exists s q, bilinear_surface ints [v0; v1; v2; v3] o = Some s /\ surface_eval s u v = Some q /\
    is_point d (fun j => bilin v0 v1 v2 v3 u v j -
      twist v0 v1 v2 v3 j * (o * o) * ((1 - 2 * u) * (1 - 2 * v)) / ((1 + 2 * o) * (1 + 2 * o))) q.
Proof. exact bilinear_l. Qed.
Print Assumptions C39_bilinear_overhang.

Theorem C39_bilinear : forall ints v0 v1 v2 v3 o u v d, length v0 = d -> length v1 = d ->
  length v2 = d -> length v3 = d -> 0 <= o -> (0 < o -> ints = false) ->
  (o = 0 \/ forall j, (j < d)%nat -> coord v0 j - coord v1 j + coord v2 j - coord v3 j = 0) ->
  - o <= u <= 1 + o -> - o <= v <= 1 + o ->
  exists s q, bilinear_surface ints [v0; v1; v2; v3] o = Some s /\ surface_eval s u v = Some q /\
    is_point d (bilin v0 v1 v2 v3 u v) q.
Proof.
  intros ints v0 v1 v2 v3 o u v d L0 L1 L2 L3 Ho Hi T Hu Hv.
  destruct (bilinear_l ints v0 v1 v2 v3 o u v d L0 L1 L2 L3 Ho Hi Hu Hv) as (s & q & A & B & C).
  exists s, q. split; auto. split; auto. eapply point_ext; [exact C|]. intros j Hj. cbn beta.
  destruct T as [-> | T].
  - field.
  - unfold twist. rewrite T by auto. field. lra.
Qed.
Print Assumptions C39_bilinear.

Example C39_bilinear_case : exists s q,
  bilinear_surface false [[0; 0; 0]; [1; 0; 0]; [1; 1; 4]; [0; 1; 0]] 0 = Some s /\
  surface_eval s (1/2) (1/4) = Some q /\ is_point 3 (fun j => nth j [1/2; 1/4; 1/2] 0) q.
Proof.
  destruct (C39_bilinear false [0; 0; 0] [1; 0; 0] [1; 1; 4] [0; 1; 0] 0 (1/2) (1/4) 3)
    as (s & q & A & B & C); auto; try lra.
  exists s, q. split; auto. split; auto. eapply point_ext; [exact C|].
  intros j Hj. unfold bilin, coord. destruct j as [|[|[|]]]; [| | |lia]; cbn [nth]; lra.
Qed.

(** With an overhang the surface does not go through the given corners unless they
    form a parallelogram. *)
Theorem C39_bilinear_overhang_refuted : exists s q,
  bilinear_surface false [[0; 0; 0]; [1; 0; 0]; [1; 1; 4]; [0; 1; 0]] 1 = Some s /\
  surface_eval s 0 0 = Some q /\ coord q 2 = - 4 / 9.
Proof.
  destruct (C39_bilinear_overhang false [0; 0; 0] [1; 0; 0] [1; 1; 4] [0; 1; 0] 1 0 0 3)
    as (s & q & A & B & C & D); auto; try lra.
  exists s, q. split; auto. split; auto. rewrite D by lia. unfold bilin, twist, coord. cbn [nth]. field.
Qed.
Print Assumptions C39_bilinear_overhang_refuted.

(** Integer coordinates with an overhang raise an exception. *)
Theorem C39_integer_overhang_refuted : forall o, 0 < o ->
  (forall l, line true l o = None) /\ (forall l, bilinear_surface true l o = None) /\
  (forall l, plane_surface true l o = None).
Proof.
  intros o H.
  assert (forall l, bilinear_surface true l o = None) as B.
  { intros l. unfold bilinear_surface. destruct l as [|a [|c [|e [|f [|]]]]]; try reflexivity.
    destruct (negb (rect _)); [reflexivity|]. destruct (Rltb_spec 0 o); [reflexivity|contradiction]. }
  split; [|split; [exact B|]].
  - intros l. unfold line. destruct l as [|a [|c [|]]]; try reflexivity.
    destruct (negb (rect _)); [reflexivity|]. destruct (Rltb_spec 0 o); [reflexivity|contradiction].
  - intros l. unfold plane_surface. destruct l as [|a [|c [|e [|]]]]; try reflexivity.
    destruct (negb (rect _)); [reflexivity|]. apply B.
Qed.
Print Assumptions C39_integer_overhang_refuted.

(** A negative overhang changes the parametrisation and leaves the points. *)
Theorem C39_negative_overhang_refuted : exists cv q,
  line false [[0]; [4]] (- (1/4)) = Some cv /\ curve_eval cv (1/4) = Some q /\ coord q 0 = 0.
Proof.
  destruct (bez_curve_l [0] [4] (1/4) (3/4) (1/4) 1 eq_refl eq_refl ltac:(lra) ltac:(lra)) as (q & A & _ & B).
  exists (Curve (bez (1/4) (3/4)) [[0]; mean [[0]; [4]]; [4]] false), q. split.
  - unfold line. cbn [rect forallb length nth Nat.eqb andb negb]. rewrite overhang_basis_l.
    destruct (Rltb_spec 0 (- (1/4))); [exfalso; lra|]. cbn [andb].
    replace (0 - - (1 / 4)) with (1/4) by lra. replace (1 + - (1 / 4)) with (3/4) by lra. reflexivity.
  - split; auto. rewrite B by lia. unfold on_line, coord. cbn. lra.
Qed.
Print Assumptions C39_negative_overhang_refuted.

(** The same for the records made by brep_writer.Approx. *)
Theorem C39_brep_line : forall d a c t, length a = d -> length c = d -> 0 <= t <= 1 ->
  exists bc cv q, approx_line d [a; c] = Some bc /\ spline_of bc = Some cv /\ curve_eval cv t = Some q /\
    is_point d (fun j => coord a j + t * (coord c j - coord a j)) q.
Proof. exact approx_line_l. Qed.
Print Assumptions C39_brep_line.

Theorem C39_brep_bilinear : forall v0 v1 v2 v3 u v, length v0 = 3%nat -> length v1 = 3%nat ->
  length v2 = 3%nat -> length v3 = 3%nat -> 0 <= u <= 1 -> 0 <= v <= 1 ->
  exists bs s q, approx_bilinear [v0; v1; v2; v3] = Some (bs, [(0, 0); (1, 0); (1, 1); (0, 1)]) /\
    surface_of bs = Some s /\ surface_eval s u v = Some q /\ is_point 3 (bilin v0 v1 v2 v3 u v) q.
Proof. exact approx_bilinear_l. Qed.
Print Assumptions C39_brep_bilinear.

(** plane: also the returned parameters belong to the given points, and the list of
    the caller gets a fourth point. *)
Theorem C39_brep_plane : forall v0 v1 v2 u v, length v0 = 3%nat -> length v1 = 3%nat ->
  length v2 = 3%nat -> 0 <= u <= 1 -> 0 <= v <= 1 ->
  exists bs s q, approx_plane [v0; v1; v2] = (Some (bs, [(0, 0); (1, 0); (0, 1)]), [v0; v1; v2; [0; 0; 0]]) /\
    surface_of bs = Some s /\ surface_eval s u v = Some q /\
    is_point 3 (fun j => coord v0 j + u * (coord v1 j - coord v0 j) + v * (coord v2 j - coord v0 j)) q.
Proof. exact approx_plane_l. Qed.
Print Assumptions C39_brep_plane.

Theorem C39_brep_uv_of_points : forall vs bs uvs l, length vs = 3%nat ->
  (forall p, In p vs -> length p = 3%nat) -> approx_plane vs = (Some (bs, uvs), l) ->
  forall k, (k < 3)%nat -> exists s, surface_of bs = Some s /\
    surface_eval s (fst (nth k uvs (0, 0))) (snd (nth k uvs (0, 0))) = Some (nth k vs []).
Proof.
  intros vs bs uvs l L P E k Hk. destruct vs as [|v0 [|v1 [|v2 [|]]]]; cbn in L; try lia.
  assert (length v0 = 3%nat) as L0 by (apply P; cbn; auto).
  assert (length v1 = 3%nat) as L1 by (apply P; cbn; auto).
  assert (length v2 = 3%nat) as L2 by (apply P; cbn; auto).
  assert (forall p q : list R, length p = 3%nat -> length q = 3%nat ->
    (forall j, (j < 3)%nat -> coord p j = coord q j) -> p = q) as Ext.
  { intros p q A B H. apply (nth_ext p q 0 0); [congruence|]. intros n Hn. apply H. lia. }
  set (u := if (k =? 1)%nat then 1 else 0). set (v := if (k =? 2)%nat then 1 else 0).
  assert (0 <= u <= 1 /\ 0 <= v <= 1) as [Hu Hv].
  { unfold u, v. destruct (k =? 1)%nat, (k =? 2)%nat; lra. }
  destruct (approx_plane_l v0 v1 v2 u v L0 L1 L2 Hu Hv) as (bs' & s & q & A & B & C & D & F).
  rewrite A in E. injection E as <- <- <-. exists s. split; auto.
  destruct k as [|[|[|k]]]; [| | |lia]; cbn in u, v |- *; unfold u, v in *; rewrite C; f_equal;
    apply Ext; auto; intros j Hj; rewrite F by auto; ring.
Qed.
Print Assumptions C39_brep_uv_of_points.

(** Calling it again with the same list fails. *)
Theorem C39_brep_plane_twice_refuted : forall vs r l, approx_plane vs = (Some r, l) ->
  fst (approx_plane l) = None.
Proof.
  intros vs r l. unfold approx_plane at 1. destruct vs as [|v0 [|v1 [|v2 [|]]]]; try discriminate.
  destruct (negb _); [discriminate|]. intros [= _ <-]. reflexivity.
Qed.
Print Assumptions C39_brep_plane_twice_refuted.

Example C39_brep_case : exists bs, approx_plane [[0; 0; 1]; [2; 0; 1]; [0; 3; 5]]
  = (Some (bs, [(0, 0); (1, 0); (0, 1)]), [[0; 0; 1]; [2; 0; 1]; [0; 3; 5]; [0; 0; 0]]) /\
  exists s q, surface_of bs = Some s /\ surface_eval s 1 (1/2) = Some q /\ is_point 3 (fun j => nth j [2; 3/2; 3] 0) q.
Proof.
  destruct (C39_brep_plane [0; 0; 1] [2; 0; 1] [0; 3; 5] 1 (1/2)) as (bs & s & q & A & B & C & D); auto; try lra.
  exists bs. split; auto. exists s, q. split; auto. split; auto. eapply point_ext; [exact D|].
  intros j Hj. destruct j as [|[|[|]]]; [| | |lia]; cbn; lra.
Qed.

(** C59 *)
Theorem C59_curve_record : forall c, valid_basis (c_basis c) ->
  length (c_poles c) = size (c_basis c) -> (c_dim c = 2 \/ c_dim c = 3)%nat ->
  (forall p, In p (c_poles c) -> length p = c_dim c + rat_cols (c_rational c))%nat ->
  exists bc, curve_from_bs c = Some bc /\ spline_of bc = Some c.
Proof. exact curve_from_bs_l. Qed.
Print Assumptions C59_curve_record.

Theorem C59_surface_record : forall s, valid_basis (u_basis s) -> valid_basis (v_basis s) ->
  length (s_poles s) = size (u_basis s) -> (forall r, In r (s_poles s) -> length r = size (v_basis s)) ->
  (forall r p, In r (s_poles s) -> In p r -> length p = 3 + rat_cols (s_rational s))%nat ->
  exists bs, surface_from_bs s = Some bs /\ surface_of bs = Some s.
Proof. exact surface_from_bs_l. Qed.
Print Assumptions C59_surface_record.

Example C59_case : exists bc, curve_from_bs scr = Some bc /\ spline_of bc = Some scr /\
  bc_knots bc = [(2, 3%nat); (3, 1%nat); (5, 3%nat)].
Proof.
  destruct (C59_curve_record scr) as (bc & A & B).
  - exact sb_valid.
  - reflexivity.
  - left. reflexivity.
  - intros p Hp. cbn in Hp. destruct Hp as [<-|[<-|[<-|[<-|[]]]]]; reflexivity.
  - exists bc. split; auto. split; auto. revert A. unfold curve_from_bs.
    replace (pack_knots (c_basis scr)) with (Some [(2, 3%nat); (3, 1%nat); (5, 3%nat)])
      by (unfold pack_knots; cbn; rcmp; reflexivity).
    destruct (_ || _); [|discriminate]. unfold make_bcurve. destruct (_ && _); [|discriminate].
    intros [= <-]. reflexivity.
Qed.
