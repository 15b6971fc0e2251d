(** Property C86: the rectangle of min_bounding_rect. *)
From Coq Require Import List Reals Lra Psatz.
From Verif Require Import Rect_Model Rect_Spec Rect_Proofs.
Import ListNotations.
Local Open Scope R_scope.

(** Corners of the answer. *)
Lemma rect_box (hull : list rpt) : (2 <= length hull)%nat -> exists b, tight hull b /\
  min_bounding_rect hull = Some (rot_back (b_angle b) (min_x b, max_y b), rot_back (b_angle b) (min_x b, min_y b), rot_back (b_angle b) (max_x b, min_y b), rot_back (b_angle b) (max_x b, max_y b)) /\
  forall a, In a (edge_angles hull) -> area_le (b_area b) (b_area (at_angle hull a)).
Proof.
  intros L. assert (N : hull <> []) by (intros ->; cbn in L; inversion L).
  destruct (tries_ok hull (edge_angles hull) N (BBox 0 None 0 0 0 0)) as (b & E & K & _ & M). exists b. split; [|unfold min_bounding_rect; rewrite E; auto].
  destruct K as [[-> K]|K]; [|exact K]. exfalso. cbn in K. specialize (K eq_refl).
  destruct hull as [|p [|q l]]; [contradiction|cbn in L; inversion L as [|? L']; inversion L'|].
  assert (I : In (Rabs (fmod (arctan2 (snd q - snd p) (fst q - fst p)) (PI / 2))) (edge_angles (p :: q :: l))) by (apply unique_in; now left).
  rewrite K in I. exact I.
Qed.
Lemma back_area a x0 x1 y0 y1 : area (rot_back a (x0, y1)) (rot_back a (x0, y0)) (rot_back a (x1, y0)) = (x1 - x0) * (y1 - y0).
Proof. unfold area, crossr, subr. rewrite !rot_back_ok. cbn. transitivity ((x1 - x0) * (y1 - y0) * (cos a * cos a + sin a * sin a)); [ring|]. rewrite (unit a). ring. Qed.

(** The answer is a rectangle with its corners counter-clockwise; it has all points inside and a point on every side. *)
Theorem C86_contains (hull : list rpt) : (2 <= length hull)%nat -> exists c0 c1 c2 c3, min_bounding_rect hull = Some (c0, c1, c2, c3) /\
  rectangle c0 c1 c2 c3 /\ (forall p, In p hull -> inside c0 c1 c2 c3 p) /\
  (exists p, In p hull /\ on_side c0 c1 p) /\ (exists p, In p hull /\ on_side c1 c2 p) /\ (exists p, In p hull /\ on_side c2 c3 p) /\ (exists p, In p hull /\ on_side c3 c0 p).
Proof.
  intros L. destruct (rect_box hull L) as (b & T & E & _). do 4 eexists. split; [exact E|]. destruct T as ((p0 & P0 & X0) & (p1 & P1 & X1) & (q0 & Q0 & Y0) & (q1 & Q1 & Y1) & B & _).
  assert (BX : min_x b <= max_x b) by (specialize (B p0 P0); lra). assert (BY : min_y b <= max_y b) by (specialize (B p0 P0); lra).
  set (a := b_angle b) in *. set (x0 := min_x b) in *. set (x1 := max_x b) in *. set (y0 := min_y b) in *. set (y1 := max_y b) in *. clearbody a x0 x1 y0 y1.
  assert (U := unit a).
  assert (BACK : forall p, p = (fst (rot a p) * cos a - snd (rot a p) * sin a, fst (rot a p) * sin a + snd (rot a p) * cos a)).
  { intros [px py]. rewrite rot_ok. cbn. f_equal; [transitivity (px * (cos a * cos a + sin a * sin a))|transitivity (py * (cos a * cos a + sin a * sin a))]; try (rewrite U; ring); ring. }
  assert (Q : forall z0 z1 z, z0 <= z <= z1 -> exists s, 0 <= s <= 1 /\ z = z0 + s * (z1 - z0)).
  { intros z0 z1 z Z. destruct (Req_dec z0 z1) as [-> |D]; [exists 0; lra|]. exists ((z - z0) / (z1 - z0)). split; [|field; lra]. split; [apply Rmult_le_pos; [lra|left; apply Rinv_0_lt_compat; lra]|].
    apply Rmult_le_reg_r with (z1 - z0); [lra|]. unfold Rdiv. rewrite Rmult_assoc, Rinv_l; lra. }
  split; [split; [|split]|split; [|split; [|split; [|split]]]].
  - unfold dotr, subr. rewrite !rot_back_ok. cbn. ring.
  - change (0 <= area (rot_back a (x0, y1)) (rot_back a (x0, y0)) (rot_back a (x1, y0))). rewrite back_area. nra.
  - unfold subr. rewrite !rot_back_ok. cbn. f_equal; ring.
  - intros p P. destruct (B p P) as [A1 A2]. destruct (Q _ _ _ A1) as (s & S1 & S2). destruct (Q _ _ _ A2) as (t & T1 & T2).
    exists s, t. split; [exact S1|]. split; [exact T1|]. rewrite !rot_back_ok. cbn. rewrite (BACK p). cbn [fst snd]. rewrite S2, T2. split; ring.
  - exists p0. split; [exact P0|]. destruct (Q _ _ _ (proj2 (B p0 P0))) as (t & T1 & T2). exists (1 - t). split; [lra|]. rewrite !rot_back_ok. cbn [fst snd]. rewrite (BACK p0). cbn [fst snd]. rewrite T2, <- X0. split; ring.
  - exists q0. split; [exact Q0|]. destruct (Q _ _ _ (proj1 (B q0 Q0))) as (t & T1 & T2). exists t. split; [lra|]. rewrite !rot_back_ok. cbn [fst snd]. rewrite (BACK q0). cbn [fst snd]. rewrite T2, <- Y0. split; ring.
  - exists p1. split; [exact P1|]. destruct (Q _ _ _ (proj2 (B p1 P1))) as (t & T1 & T2). exists t. split; [lra|]. rewrite !rot_back_ok. cbn [fst snd]. rewrite (BACK p1). cbn [fst snd]. rewrite T2, <- X1. split; ring.
  - exists q1. split; [exact Q1|]. destruct (Q _ _ _ (proj1 (B q1 Q1))) as (t & T1 & T2). exists (1 - t). split; [lra|]. rewrite !rot_back_ok. cbn [fst snd]. rewrite (BACK q1). cbn [fst snd]. rewrite T2, <- Y1. split; ring.
Qed.
(** Width of the points along a unit vector, in a rectangle. *)
Lemma width c a b p q s t s' t' : 0 <= s <= 1 -> 0 <= t <= 1 -> 0 <= s' <= 1 -> 0 <= t' <= 1 -> dotr c b = 0 -> dotr c p - dotr c q = s * dotr c a + t * dotr c b - (s' * dotr c a + t' * dotr c b) ->
  dotr c p - dotr c q <= Rabs (dotr c a).
Proof.
  intros S T S' T' B E. rewrite E, B. replace (s * dotr c a + t * 0 - (s' * dotr c a + t' * 0)) with ((s - s') * dotr c a) by ring.
  eapply Rle_trans; [apply Rle_abs|]. rewrite Rabs_mult. rewrite <- (Rmult_1_l (Rabs (dotr c a))) at 2. apply Rmult_le_compat_r; [apply Rabs_pos|]. apply Rabs_le. lra.
Qed.
(** Its area is smallest among the rectangles around the points with a side along an edge of the hull. *)
Theorem C86_smallest (hull : list rpt) c0 c1 c2 c3 d0 d1 d2 d3 e : (2 <= length hull)%nat -> min_bounding_rect hull = Some (c0, c1, c2, c3) ->
  rectangle d0 d1 d2 d3 -> (forall p, In p hull -> inside d0 d1 d2 d3 p) -> edge_dir hull e ->
  (subr d2 d1 <> (0, 0) /\ crossr e (subr d2 d1) = 0) \/ (subr d0 d1 <> (0, 0) /\ crossr e (subr d0 d1) = 0) -> area c0 c1 c2 <= area d0 d1 d2.
Proof.
  intros L E (R1 & R2 & _) IN ED PA. destruct (rect_box hull L) as (b & T & E' & M). rewrite E in E'. injection E' as -> -> -> ->. rewrite back_area.
  assert (N : hull <> []) by (intros ->; cbn in L; inversion L).
  destruct (angle_of hull e ED) as (a & A & F). specialize (M a A). destruct T as (_ & _ & _ & _ & _ & TA). rewrite TA in M.
  destruct (at_tight hull a N) as [(P1 & P2 & P3 & P4 & B & XA) AN]. rewrite XA in M. cbn in M. eapply Rle_trans; [exact M|]. clear M TA b E XA.
  rewrite AN in *. destruct P1 as (p0 & P0 & Z0), P2 as (p1 & P1 & Z1), P3 as (q0 & Q0 & Z2), P4 as (q1 & Q1 & Z3). rewrite Z0, Z1, Z2, Z3 in *. clear Z0 Z1 Z2 Z3.
  destruct (IN _ P0) as (s0 & t0 & S0 & T0 & X0 & Y0), (IN _ P1) as (s1 & t1 & S1 & T1 & X1 & Y1), (IN _ Q0) as (s2 & t2 & S2 & T2 & X2 & Y2), (IN _ Q1) as (s3 & t3 & S3 & T3 & X3 & Y3).
  unfold area. set (va := subr d2 d1) in *. set (vb := subr d0 d1) in *.
  assert (U := unit a). set (c := (cos a, sin a)). set (n := (- sin a, cos a)).
  assert (FE : crossr c e = 0 \/ dotr c e = 0) by (unfold c, crossr, dotr; cbn; destruct F as [F|F]; [left|right]; lra).
  assert (NE : e <> (0, 0)) by (destruct ED as (? & ? & ? & ? & _ & _ & ED); exact ED).
  assert (PAR : forall x y : R * R, y <> (0, 0) -> crossr x y = 0 -> forall z, (crossr z y = 0 -> crossr z x = 0) /\ (dotr z y = 0 -> dotr z x = 0)).
  { intros [x1' x2'] [y1' y2'] Y C [z1 z2]. unfold crossr, dotr in *. cbn in *. assert (Z : y1' <> 0 \/ y2' <> 0). { destruct (Req_dec y1' 0) as [-> |]; [|now left]. destruct (Req_dec y2' 0) as [-> |]; [|now right]. contradiction. }
    assert (YY : 0 < y1' * y1' + y2' * y2') by (destruct Z; nra).
    split; intros H; apply Rmult_eq_reg_l with (y1' * y1' + y2' * y2'); try lra; rewrite Rmult_0_r.
    - replace ((y1' * y1' + y2' * y2') * (z1 * x2' - z2 * x1')) with ((z1 * y2' - z2 * y1') * (x1' * y1' + x2' * y2') - (x1' * y2' - x2' * y1') * (z1 * y1' + z2 * y2')) by ring. rewrite H, C. ring.
    - replace ((y1' * y1' + y2' * y2') * (z1 * x1' + z2 * x2')) with ((z1 * y1' + z2 * y2') * (x1' * y1' + x2' * y2') + (x1' * y2' - x2' * y1') * (z1 * y2' - z2 * y1')) by ring. rewrite H, C. ring. }
  assert (SW : forall x y, crossr x y = - crossr y x) by (intros; unfold crossr; ring). assert (SD : forall x y, dotr x y = dotr y x) by (intros; unfold dotr; ring).
  assert (PER : forall x y : R * R, y <> (0, 0) -> dotr x y = 0 -> forall z, (crossr z y = 0 -> dotr z x = 0) /\ (dotr z y = 0 -> crossr z x = 0)).
  { intros x y Y D z. destruct (PAR (- snd x, fst x) y Y) with (z := z) as [A1 A2]; [unfold crossr, dotr in *; cbn; lra|]. split; intros H; [specialize (A1 H)|specialize (A2 H)]; unfold crossr, dotr in *; cbn in *; lra. }
  assert (CASES : (crossr c va = 0 /\ dotr c vb = 0) \/ (dotr c va = 0 /\ crossr c vb = 0)).
  { assert (D2 : dotr vb va = 0) by (rewrite SD; exact R1). destruct PA as [[Z C]|[Z C]].
    - assert (C' : crossr va e = 0) by (rewrite SW, C; ring). destruct FE as [FE|FE].
      + left. assert (X : crossr c va = 0) by (apply (PAR va e NE C'), FE). split; [exact X|]. apply (PER vb va Z D2), X.
      + right. assert (X : dotr c va = 0) by (apply (PAR va e NE C'), FE). split; [exact X|]. apply (PER vb va Z D2), X.
    - assert (C' : crossr vb e = 0) by (rewrite SW, C; ring). destruct FE as [FE|FE].
      + right. assert (X : crossr c vb = 0) by (apply (PAR vb e NE C'), FE). split; [|exact X]. apply (PER va vb Z R1), X.
      + left. assert (X : dotr c vb = 0) by (apply (PAR vb e NE C'), FE). split; [|exact X]. apply (PER va vb Z R1), X. }
  assert (DN : forall x, dotr n x = crossr c x) by (intros; unfold n, c, dotr, crossr; cbn; ring).
  assert (BX := proj1 (B p0 P0)). assert (BY := proj2 (B q0 Q0)). clear B. revert BX BY.
  rewrite !rot_ok. cbn [fst snd].
  change (cos a * fst p1 + sin a * snd p1) with (dotr c p1). change (cos a * fst p0 + sin a * snd p0) with (dotr c p0).
  change (- sin a * fst q1 + cos a * snd q1) with (dotr n q1). change (- sin a * fst q0 + cos a * snd q0) with (dotr n q0).
  assert (EX : dotr c p1 - dotr c p0 = s1 * dotr c va + t1 * dotr c vb - (s0 * dotr c va + t0 * dotr c vb)) by (unfold dotr, va, vb, subr; cbn; rewrite X0, X1, Y0, Y1; ring).
  assert (EY : dotr n q1 - dotr n q0 = s3 * dotr n va + t3 * dotr n vb - (s2 * dotr n va + t2 * dotr n vb)) by (unfold dotr, va, vb, subr; cbn; rewrite X2, X3, Y2, Y3; ring).
  intros BX BY. assert (LG : dotr c va * crossr c vb - crossr c va * dotr c vb = crossr va vb) by (transitivity (crossr va vb * (cos a * cos a + sin a * sin a)); [unfold c, dotr, crossr; cbn; ring|rewrite U; ring]).
  assert (AB : crossr va vb = Rabs (crossr va vb)) by (symmetry; apply Rabs_pos_eq, R2). rewrite AB.
  destruct CASES as [[C1 C2]|[C1 C2]].
  - assert (WX := width c va vb p1 p0 s1 t1 s0 t0 S1 T1 S0 T0 C2 EX).
    assert (WY := width n vb va q1 q0 t3 s3 t2 s2 T3 S3 T2 S2 ltac:(rewrite DN; exact C1) ltac:(rewrite EY; ring)). rewrite (DN vb) in WY.
    rewrite C1 in LG. replace (crossr va vb) with (dotr c va * crossr c vb) by lra. rewrite Rabs_mult. apply Rmult_le_compat; lra.
  - assert (WX := width c vb va p1 p0 t1 s1 t0 s0 T1 S1 T0 S0 C1 ltac:(rewrite EX; ring)).
    assert (WY := width n va vb q1 q0 s3 t3 s2 t2 S3 T3 S2 T2 ltac:(rewrite DN; exact C2) EY). rewrite (DN va) in WY.
    rewrite C1 in LG. replace (crossr va vb) with (- (dotr c vb * crossr c va)) by lra. rewrite Rabs_Ropp, Rabs_mult. apply Rmult_le_compat; lra.
Qed.

(** A hull of one point has no edge; the answer does not depend on the point. *)
Theorem C86_one_refuted : exists hull c0 c1 c2 c3 p, In p hull /\ min_bounding_rect hull = Some (c0, c1, c2, c3) /\ ~ inside c0 c1 c2 c3 p.
Proof.
  exists [(1, 1)]. do 4 eexists. exists (1, 1). split; [now left|]. split; [reflexivity|]. intros (s & t & _ & _ & X & _). cbn in X. lra.
Qed.
(** The unit square, turned by an eighth of a full turn. *)
Definition diamond : list rpt := [(0, 0); (1, 1); (0, 2); (-1, 1); (0, 0)].
Example C86_case : (2 <= length diamond)%nat /\ edge_dir diamond (1, 1) /\ rectangle (-1, 1) (0, 0) (1, 1) (0, 2) /\
  (forall p, In p diamond -> inside (-1, 1) (0, 0) (1, 1) (0, 2) p) /\ subr (1, 1) (0, 0) <> (0, 0) /\ crossr (1, 1) (subr (1, 1) (0, 0)) = 0.
Proof.
  split; [cbn; repeat constructor|]. split.
  { exists [], (0, 0), (1, 1), [(0, 2); (-1, 1); (0, 0)]. split; [reflexivity|]. unfold subr; cbn. split; [f_equal; lra|]. intros E. injection E as E _. lra. }
  split; [unfold rectangle, dotr, crossr, subr; cbn; split; [lra|]; split; [lra|]; f_equal; lra|]. split.
  { intros p [<- |[<- |[<- |[<- |[<- |[]]]]]]; unfold inside; cbn; [exists 0, 0|exists 1, 0|exists 1, 1|exists 0, 1|exists 0, 0]; lra. }
  split; [unfold subr; cbn; intros E; injection E as E _; lra|]. unfold crossr, subr; cbn. lra.
Qed.
Print Assumptions C86_contains.
Print Assumptions C86_smallest.
Print Assumptions C86_one_refuted.
