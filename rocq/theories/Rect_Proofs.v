(** Rectangles of min_bounding_rect. *)
From Coq Require Import List Reals Lra Psatz.
From Verif Require Import Rect_Model Rect_Spec.
Import ListNotations.
Local Open Scope R_scope.

Lemma cos_minus_half a : cos (a - PI / 2) = sin a.
Proof. rewrite <- (cos_neg (a - PI / 2)). replace (- (a - PI / 2)) with (PI / 2 - a) by ring. apply cos_shift. Qed.
Lemma cos_plus_half a : cos (a + PI / 2) = - sin a.
Proof. rewrite sin_antisym_half || (rewrite cos_plus, cos_PI2, sin_PI2; ring). Qed.
Lemma sin_plus_half a : sin (a + PI / 2) = cos a.
Proof. rewrite sin_plus, cos_PI2, sin_PI2. ring. Qed.
Lemma unit a : cos a * cos a + sin a * sin a = 1.
Proof. assert (X := sin2_cos2 a). unfold Rsqr in X. lra. Qed.
Lemma rot_ok a p : rot a p = (cos a * fst p + sin a * snd p, - sin a * fst p + cos a * snd p).
Proof. unfold rot. rewrite cos_minus_half, cos_plus_half. reflexivity. Qed.
Lemma rot_back_ok a p : rot_back a p = (fst p * cos a - snd p * sin a, fst p * sin a + snd p * cos a).
Proof. unfold rot_back. rewrite cos_minus_half, cos_plus_half. f_equal; ring. Qed.

(** Angle of an edge: the edge is along or across the direction of the angle. *)
Definition flush (a : R) (e : rpt) : Prop := cos a * snd e - sin a * fst e = 0 \/ cos a * fst e + sin a * snd e = 0.
Lemma flush_half a e : flush a e <-> flush (a + PI / 2) e.
Proof. unfold flush. rewrite cos_plus_half, sin_plus_half. split; intros [H|H]; [right|left|right|left]; lra. Qed.
Lemma flush_Z a e (k : Z) : flush a e -> flush (a - IZR k * (PI / 2)) e.
Proof.
  intros H. induction k as [|k IH|k IH] using Z.peano_ind.
  - replace (a - 0 * (PI / 2)) with a by ring. exact H.
  - apply flush_half. rewrite succ_IZR. replace (a - (IZR k + 1) * (PI / 2) + PI / 2) with (a - IZR k * (PI / 2)) by ring. exact IH.
  - rewrite <- Z.sub_1_r, minus_IZR. replace (a - (IZR k - 1) * (PI / 2)) with (a - IZR k * (PI / 2) + PI / 2) by ring. apply flush_half in IH. exact IH.
Qed.
Lemma flush_atan x y : x <> 0 -> flush (atan (y / x)) (x, y).
Proof.
  intros X. left. cbn. assert (T := tan_atan (y / x)). unfold tan in T. assert (C : cos (atan (y / x)) <> 0). { assert (B := atan_bound (y / x)). apply Rgt_not_eq, cos_gt_0; lra. }
  assert (S : sin (atan (y / x)) = y / x * cos (atan (y / x))) by (rewrite <- T at 2; field; exact C). rewrite S. field. exact X.
Qed.
Lemma flush_pi a e k : flush a e -> flush (a + IZR k * PI) e.
Proof. intros H. replace (a + IZR k * PI) with (a - IZR (- (2 * k)) * (PI / 2)) by (rewrite opp_IZR, mult_IZR; field). apply flush_Z, H. Qed.
Lemma flush_edge e : flush (Rabs (fmod (arctan2 (snd e) (fst e)) (PI / 2))) e.
Proof.
  assert (P : 0 < PI / 2) by (assert (X := PI_RGT_0); lra). set (a := arctan2 _ _).
  assert (A : 0 <= fmod a (PI / 2)). { unfold fmod. destruct (base_Int_part (a / (PI / 2))) as [B _]. apply Rmult_le_compat_r with (r := PI / 2) in B; [|lra]. replace (a / (PI / 2) * (PI / 2)) with a in B by (field; lra). lra. }
  rewrite Rabs_pos_eq by exact A. apply flush_Z. unfold a, arctan2. destruct e as [x y]. cbn.
  destruct (Rlt_dec 0 x); [apply flush_atan; lra|]. destruct (Rlt_dec x 0).
  - assert (F := flush_atan x y ltac:(lra)). destruct (Rle_dec 0 y).
    + replace (atan (y / x) + PI) with (atan (y / x) + IZR 1 * PI) by ring. now apply flush_pi.
    + replace (atan (y / x) - PI) with (atan (y / x) + IZR (-1) * PI) by ring. now apply flush_pi.
  - assert (x = 0) as -> by lra. destruct (Rlt_dec 0 y); [|destruct (Rlt_dec y 0)].
    + left. cbn. rewrite cos_PI2. ring.
    + left. cbn. rewrite cos_neg, cos_PI2. ring.
    + assert (y = 0) as -> by lra. left. cbn. ring.
Qed.
Lemma insert_in x y l : In y (insert_unique x l) <-> y = x \/ In y l.
Proof.
  induction l as [|z l IH]; cbn; [intuition congruence|]. destruct (Rlt_dec x z); [cbn; intuition congruence|]. destruct (Req_EM_T x z) as [-> |]; cbn; [intuition congruence|]. rewrite IH. intuition.
Qed.
Lemma unique_in y l : In y (unique l) <-> In y l.
Proof. induction l as [|x l IH]; cbn; [reflexivity|]. rewrite insert_in, IH. intuition. Qed.
Lemma edges_in l e : In e (edges l) <-> exists l1 a b l2, l = l1 ++ a :: b :: l2 /\ e = subr b a.
Proof.
  induction l as [|a l IH]; [split; [intros []|intros (l1 & ? & ? & ? & E & _); destruct l1; discriminate]|].
  destruct l as [|b l].
  - split; [intros []|]. intros ([|? [|? ?]] & ? & ? & ? & E & _); discriminate.
  - change (edges (a :: b :: l)) with (subr b a :: edges (b :: l)). split.
    + intros [<- |H]; [exists [], a, b, l; auto|]. apply IH in H as (l1 & c & d & l2 & E & F). exists (a :: l1), c, d, l2. split; [cbn; now rewrite E|exact F].
    + intros ([|x l1] & c & d & l2 & E & F); cbn in E.
      * injection E as -> -> _. left. congruence.
      * injection E as -> E. right. apply IH. eauto 6.
Qed.
Lemma angle_of l e : edge_dir l e -> exists a, In a (edge_angles l) /\ flush a e.
Proof.
  intros (l1 & a & b & l2 & E & F & _). eexists. split; [|apply flush_edge]. apply unique_in. apply (in_map (fun e => Rabs (fmod (arctan2 (snd e) (fst e)) (PI / 2)))). apply edges_in. eauto 6.
Qed.

(** Extremes. *)
Lemma fold_min l : forall x, In (fold_left Rmin l x) (x :: l) /\ forall y, In y (x :: l) -> fold_left Rmin l x <= y.
Proof.
  induction l as [|z l IH]; intros x; cbn; [split; [auto|intros y [<- |[]]; lra]|]. destruct (IH (Rmin x z)) as [[A|A] B].
  - split; [rewrite <- A; unfold Rmin; destruct (Rle_dec x z); auto|]. intros y [<- |[<- |Y]]; [| |apply B; now right]; (eapply Rle_trans; [apply B; now left|]); [apply Rmin_l|apply Rmin_r].
  - split; [auto|]. intros y [<- |[<- |Y]]; [| |apply B; now right]; (eapply Rle_trans; [apply B; now left|]); [apply Rmin_l|apply Rmin_r].
Qed.
Lemma fold_max l : forall x, In (fold_left Rmax l x) (x :: l) /\ forall y, In y (x :: l) -> y <= fold_left Rmax l x.
Proof.
  induction l as [|z l IH]; intros x; cbn; [split; [auto|intros y [<- |[]]; lra]|]. destruct (IH (Rmax x z)) as [[A|A] B].
  - split; [rewrite <- A; unfold Rmax; destruct (Rle_dec x z); auto|]. intros y [<- |[<- |Y]]; [| |apply B; now right]; (eapply Rle_trans; [|apply B; now left]); [apply Rmax_l|apply Rmax_r].
  - split; [auto|]. intros y [<- |[<- |Y]]; [| |apply B; now right]; (eapply Rle_trans; [|apply B; now left]); [apply Rmax_l|apply Rmax_r].
Qed.
(** The box belongs to its angle and is tight. *)
Definition tight (hull : list rpt) (b : bbox) : Prop :=
  (exists p, In p hull /\ min_x b = fst (rot (b_angle b) p)) /\ (exists p, In p hull /\ max_x b = fst (rot (b_angle b) p)) /\
  (exists p, In p hull /\ min_y b = snd (rot (b_angle b) p)) /\ (exists p, In p hull /\ max_y b = snd (rot (b_angle b) p)) /\
  (forall p, In p hull -> min_x b <= fst (rot (b_angle b) p) <= max_x b /\ min_y b <= snd (rot (b_angle b) p) <= max_y b) /\
  b_area b = Some ((max_x b - min_x b) * (max_y b - min_y b)).
(** Width and height of the points at an angle. *)
Definition at_angle (hull : list rpt) (a : R) : bbox :=
  let l := map (rot a) hull in match map fst l, map snd l with
  | x :: xs, y :: ys => let x0 := fold_left Rmin xs x in let x1 := fold_left Rmax xs x in let y0 := fold_left Rmin ys y in let y1 := fold_left Rmax ys y in
    BBox a (Some ((x1 - x0) * (y1 - y0))) x0 x1 y0 y1
  | _, _ => BBox a None 0 0 0 0 end.
Lemma at_tight hull a : hull <> [] -> tight hull (at_angle hull a) /\ b_angle (at_angle hull a) = a.
Proof.
  intros N. destruct hull as [|p l]; [contradiction|]. unfold at_angle. cbn [map]. split; [|reflexivity]. unfold tight. cbn [b_angle min_x max_x min_y max_y b_area].
  assert (I : forall (f : rpt -> R) y, In y (f (rot a p) :: map f (map (rot a) l)) -> exists q, In q (p :: l) /\ y = f (rot a q)).
  { intros f y [<- |Y]; [exists p; split; [now left|reflexivity]|]. rewrite map_map in Y. apply in_map_iff in Y as (q & <- & Q). exists q. split; [now right|reflexivity]. }
  assert (J : forall (f : rpt -> R) q, In q (p :: l) -> In (f (rot a q)) (f (rot a p) :: map f (map (rot a) l))).
  { intros f q [<- |Q]; [now left|right]. rewrite map_map. apply (in_map (fun q => f (rot a q))), Q. }
  split; [apply (I fst), fold_min|]. split; [apply (I fst), fold_max|]. split; [apply (I snd), fold_min|]. split; [apply (I snd), fold_max|]. split; [|reflexivity].
  intros q Q. split; split; [apply fold_min|apply fold_max|apply fold_min|apply fold_max]; apply J, Q.
Qed.
Lemma try_ok hull b a : hull <> [] -> try_angle hull b a =
  Some (match b_area b, b_area (at_angle hull a) with Some old, Some new => if Rlt_dec new old then at_angle hull a else b | _, _ => at_angle hull a end).
Proof. intros N. destruct hull as [|p l]; [contradiction|]. unfold try_angle, at_angle. cbn [map least b_area]. destruct (b_area b); [destruct Rlt_dec|]; reflexivity. Qed.
(** The best of the angles. *)
Definition area_le (x y : option R) : Prop := match x, y with Some x, Some y => x <= y | _, None => True | None, _ => False end.
Lemma tries_ok hull l : hull <> [] -> forall b, exists b', try_angles hull b l = Some b' /\ ((b' = b /\ (b_area b = None -> l = [])) \/ tight hull b') /\
  area_le (b_area b') (b_area b) /\ forall a, In a l -> area_le (b_area b') (b_area (at_angle hull a)).
Proof.
  intros N. induction l as [|a l IH]; intros b; [exists b; cbn; split; [reflexivity|]; split; [auto|]; split; [destruct (b_area b); cbn; lra || exact I|intros ? []]|].
  cbn [try_angles]. rewrite (try_ok hull b a N). destruct (at_tight hull a N) as [T _]. assert (TA := proj2 (proj2 (proj2 (proj2 (proj2 T))))). rewrite TA.
  set (new := (_ - _) * (_ - _)) in *. destruct (b_area b) as [old|] eqn:EB; [destruct (Rlt_dec new old) as [L|L]|].
  - destruct (IH (at_angle hull a)) as (b' & E & K & A1 & A2). exists b'. split; [exact E|]. rewrite TA in *. split; [right; destruct K as [[-> _]|K]; assumption|].
    split; [destruct (b_area b'); cbn in *; [lra|contradiction]|]. intros x [<- |X]; [rewrite TA; exact A1|auto].
  - destruct (IH b) as (b' & E & K & A1 & A2). exists b'. split; [exact E|]. rewrite EB in *. split; [destruct K as [[-> _]|K]; [left; split; [reflexivity|discriminate]|now right]|].
    split; [exact A1|]. intros x [<- |X]; [rewrite TA; destruct (b_area b'); cbn in *; [lra|contradiction]|auto].
  - destruct (IH (at_angle hull a)) as (b' & E & K & A1 & A2). exists b'. split; [exact E|]. rewrite TA in *. split; [right; destruct K as [[-> _]|K]; assumption|].
    split; [destruct (b_area b'); cbn in *; [exact I|contradiction]|]. intros x [<- |X]; [rewrite TA; exact A1|auto].
Qed.
