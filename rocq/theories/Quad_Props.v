(** Properties C86 (all rectangles) and C87: the default quad of SurfaceApprox. *)
From Coq Require Import List QArith Reals Qreals Lra Lia.
From Verif Require Import Aabb_Model Geom_Model Hull_Model Hull_Spec Hull_Proofs Hull_Props Rect_Model Rect_Spec Rect_Proofs Rect_Props Rect_All Quad_Model Quad_Spec.
Import ListNotations.
Local Open Scope R_scope.

(** Around a convex polygon no rectangle is smaller than the answer. *)
Theorem C86_least (hull : list rpt) c0 c1 c2 c3 d0 d1 d2 d3 : convex_walk hull -> min_bounding_rect hull = Some (c0, c1, c2, c3) ->
  rectangle d0 d1 d2 d3 -> (forall p, In p hull -> inside d0 d1 d2 d3 p) -> area c0 c1 c2 <= area d0 d1 d2.
Proof. apply rect_least. Qed.
(** A triangle, clockwise. *)
Example C86_least_case : convex_walk [(0, 0); (0, 3); (4, 0); (0, 0)] /\ rectangle (0, 3) (0, 0) (4, 0) (4, 3) /\ forall p, In p [(0, 0); (0, 3); (4, 0); (0, 0)] -> inside (0, 3) (0, 0) (4, 0) (4, 3) p.
Proof.
  split; [split; [exists (0, 0), [(0, 3); (4, 0)]; reflexivity|]|split].
  - intros l1 x y l2 E. destruct l1 as [|p0 [|p1 [|p2 [|p3 l1]]]]; cbn in E; [injection E as <- <- _|injection E as _ <- <- _|injection E as _ _ <- <- _|discriminate E|destruct l1; discriminate E];
      (split; [intros X; assert (X1 := f_equal fst X); assert (X2 := f_equal snd X); cbn in X1, X2; lra|]); intros z [<- |[<- |[<- |[<- |[]]]]]; unfold crossr, subr; cbn; lra.
  - unfold rectangle, dotr, crossr, subr; cbn. split; [lra|]. split; [lra|]. f_equal; lra.
  - intros p [<- |[<- |[<- |[<- |[]]]]]; unfold inside; cbn; [exists 0, 0|exists 0, 1|exists 1, 0|exists 0, 0]; lra.
Qed.

Lemma same_real p q : same p q -> real_point p = real_point q.
Proof. intros [A B]. unfold real_point. rewrite (Qeq_eqR _ _ A), (Qeq_eqR _ _ B). reflexivity. Qed.
Lemma side_real a b p : Q2R (side a b p) = crossr (subr (real_point b) (real_point a)) (subr (real_point p) (real_point a)).
Proof. unfold side, crossr, subr, real_point. cbn. rewrite !Q2R_minus, !Q2R_mult, !Q2R_minus. ring. Qed.
Lemma split_map {A B} (f : A -> B) l l1 x y l2 : map f l = l1 ++ x :: y :: l2 -> exists k1 a b k2, l = k1 ++ a :: b :: k2 /\ f a = x /\ f b = y.
Proof.
  revert l. induction l1 as [|z l1 IH]; intros [|a l] E; try discriminate; cbn in E.
  - destruct l as [|b l]; [discriminate|]. injection E as E1 E2 _. exists [], a, b, l. auto.
  - injection E as _ E. destruct (IH _ E) as (k1 & c & d & k2 & -> & F). exists (a :: k1), c, d, k2. auto.
Qed.
Lemma inside_convex c0 c1 c2 c3 : Hull_Spec.convex (fun p => inside c0 c1 c2 c3 (real_point p)).
Proof.
  intros a b t p (s1 & t1 & S1 & T1 & X1 & Y1) (s2 & t2 & S2 & T2 & X2 & Y2) H0 H1 SM.
  assert (R0 : 0 <= Q2R t) by (rewrite <- RMicromega.Q2R_0; apply Qle_Rle, H0). assert (R1 : Q2R t <= 1) by (rewrite <- RMicromega.Q2R_1; apply Qle_Rle, H1).
  apply same_real in SM. rewrite SM. exists (s1 + Q2R t * (s2 - s1)), (t1 + Q2R t * (t2 - t1)). unfold real_point in *. cbn in *. rewrite !Q2R_plus, !Q2R_mult, !Q2R_minus, X1, X2, Y1, Y2.
  split; [nra|]. split; [nra|]. split; ring.
Qed.
(** The default quad is a rectangle with all points of the sample inside, and no rectangle with them inside is smaller. *)
Theorem C87_quad (sample : list pt) p q : (2 < length sample)%nat -> In p sample -> In q sample -> ~ (fst p == fst q)%Q ->
  exists c0 c1 c2 c3, default_quad sample = Some (c0, c1, c2, c3) /\ rectangle c0 c1 c2 c3 /\ (forall z, In z sample -> inside c0 c1 c2 c3 (at_real z)) /\
    forall d0 d1 d2 d3, rectangle d0 d1 d2 d3 -> (forall z, In z sample -> inside d0 d1 d2 d3 (at_real z)) -> area c0 c1 c2 <= area d0 d1 d2.
Proof.
  change at_real with real_point. intros L P Q NE. destruct (C85_hull sample p q L P Q NE) as (a & m & E & I & _ & ED & H). unfold default_quad. rewrite E. set (hull := map real_point (a :: m ++ [a])).
  assert (IH : forall z, In z (a :: m ++ [a]) -> In z (a :: m)). { intros z [<- |Z]; [now left|]. apply in_app_or in Z as [Z|[<- |[]]]; [now right|now left]. }
  assert (W : convex_walk hull).
  { split; [exists (real_point a), (map real_point m); unfold hull; cbn; now rewrite map_app|]. intros l1 x y l2 X. unfold hull in X. apply split_map in X as (k1 & b & c & k2 & X & <- & <-).
    assert (EO : edge_of (a :: m ++ [a]) b c) by (exists k1, k2; exact X). split.
    - intros S. destruct (ED b c p EO P) as [NS _]. apply NS. unfold real_point in S. injection S as S1 S2. split; apply eqR_Qeq; assumption.
    - intros z Z. unfold hull in Z. apply in_map_iff in Z as (w & <- & Wz). rewrite <- side_real. rewrite <- RMicromega.Q2R_0. apply Qle_Rle. apply (ED b c w EO). apply I, IH, Wz. }
  assert (L2 := long hull W). destruct (C86_contains hull L2) as (c0 & c1 & c2 & c3 & EC & RC & IC & _). exists c0, c1, c2, c3. split; [exact EC|]. split; [exact RC|]. split.
  - intros z Z. apply (H z Z (fun z => inside c0 c1 c2 c3 (real_point z)) (inside_convex c0 c1 c2 c3)). intros w Iw. apply IC. apply in_map. destruct Iw as [<- |Iw]; [now left|right; apply in_or_app; now left].
  - intros d0 d1 d2 d3 RD ID. apply (rect_least hull c0 c1 c2 c3 d0 d1 d2 d3 W EC RD). intros z Z. apply in_map_iff in Z as (w & <- & Wz). apply ID, I, IH, Wz.
Qed.
(** For points on a vertical line the quad is only the first point. *)
Theorem C87_vertical (a : pt) (l : list pt) : (2 <= length l)%nat -> (forall z, In z l -> (fst z == fst a)%Q) ->
  default_quad (a :: l) = Some (at_real a, at_real a, at_real a, at_real a).
Proof.
  change at_real with real_point. intros L V. unfold default_quad. rewrite (C85_vertical a l L V). cbn [map]. set (r := real_point a).
  assert (X : (2 <= length [r; r; r])%nat) by (cbn; lia). destruct (rect_box [r; r; r] X) as (b & (P1 & P2 & P3 & P4 & _) & E & _). rewrite E.
  assert (G : forall f : rpt -> R, forall y, (exists p, In p [r; r; r] /\ y = f p) -> y = f r) by (intros f y (p & [<- |[<- |[<- |[]]]] & ->); reflexivity).
  rewrite (G (fun p => fst (rot (b_angle b) p)) _ P1), (G (fun p => fst (rot (b_angle b) p)) _ P2), (G (fun p => snd (rot (b_angle b) p)) _ P3), (G (fun p => snd (rot (b_angle b) p)) _ P4).
  assert (B : rot_back (b_angle b) (fst (rot (b_angle b) r), snd (rot (b_angle b) r)) = r).
  { rewrite rot_back_ok, rot_ok. cbn [fst snd]. assert (U := unit (b_angle b)). destruct r as [x y]. cbn [fst snd]. f_equal.
    - transitivity (x * (cos (b_angle b) * cos (b_angle b) + sin (b_angle b) * sin (b_angle b))); [ring|rewrite U; ring].
    - transitivity (y * (cos (b_angle b) * cos (b_angle b) + sin (b_angle b) * sin (b_angle b))); [ring|rewrite U; ring]. }
  rewrite B. reflexivity.
Qed.
Theorem C87_vertical_refuted : exists sample c0 c1 c2 c3 z, (2 < length sample)%nat /\ default_quad sample = Some (c0, c1, c2, c3) /\ In z sample /\ ~ inside c0 c1 c2 c3 (at_real z).
Proof.
  change at_real with real_point. set (a := (0, 0)%Q). exists [a; (0, 1)%Q; (0, 2)%Q], (real_point a), (real_point a), (real_point a), (real_point a), (0, 1)%Q. split; [cbn; lia|]. split.
  - apply C87_vertical; [cbn; lia|]. intros z [<- |[<- |[]]]; reflexivity.
  - split; [right; now left|]. intros (s & t & _ & _ & _ & Y). unfold real_point, a in Y. cbn in Y. rewrite RMicromega.Q2R_0, RMicromega.Q2R_1 in Y. lra.
Qed.
Example C87_case : (2 < length [(0, 0); (4, 0); (0, 3); (1, 1)]%Q)%nat /\ In (0, 0)%Q [(0, 0); (4, 0); (0, 3); (1, 1)]%Q /\ In (4, 0)%Q [(0, 0); (4, 0); (0, 3); (1, 1)]%Q /\ ~ (0 == 4)%Q /\
  convex_hull_2d [(0, 0); (4, 0); (0, 3); (1, 1)]%Q = Some [(0, 0); (0, 3); (4, 0); (0, 0)]%Q.
Proof. split; [cbn; lia|]. split; [now left|]. split; [right; now left|]. split; [discriminate|]. vm_compute. reflexivity. Qed.
Print Assumptions C86_least.
Print Assumptions C87_quad.
Print Assumptions C87_vertical.
Print Assumptions C87_vertical_refuted.
