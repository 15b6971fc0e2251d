(** The candidates for snapping. *)
From stdpp Require Import gmap list.
From Coq Require Import Lia QArith Lqa Qminmax Sorted.
From Verif Require Import Decomp_Model Decomp_Spec Decomp_Eff Decomp_Inv Decomp_Good Editor_Model Editor_Spec Editor_Proofs.
From Verif Require Import Aabb_Model Aabb_Spec Aabb_Proofs Editor_Box Editor_Plane Snap_Model Snap_Spec Snap_Proofs.
Local Open Scope nat_scope.

Lemma sqr_nonneg (a : Q) : (0 <= a * a)%Q.
Proof. nra. Qed.
Lemma abs_lt (a r : Q) : (0 < r)%Q -> (a * a < r * r)%Q -> (- r <= a <= r)%Q.
Proof. intros R H. split; [destruct (Qlt_le_dec a (- r)) as [X|X]; [exfalso|done]|destruct (Qlt_le_dec r a) as [X|X]; [exfalso|done]]; nra. Qed.
Lemma near_coords z v r : (0 < r)%Q -> near z v r -> (fst v - r <= fst z <= fst v + r /\ snd v - r <= snd z <= snd v + r)%Q.
Proof.
  unfold near, dist2. intros R H. assert (A := sqr_nonneg (fst z - fst v)). assert (B := sqr_nonneg (snd z - snd v)).
  assert (A' := abs_lt (fst z - fst v) r R). assert (B' := abs_lt (snd z - snd v) r R). specialize (A' ltac:(lra)). specialize (B' ltac:(lra)). split; lra.
Qed.
Lemma sorted_nodup (l : list nat) : StronglySorted lt l -> NoDup l.
Proof.
  induction l as [|a l IH]; intros H; [constructor|]. inversion H as [|? ? H1 H2]; subst. apply NoDup_cons. split; [|by apply IH].
  intros X. apply elem_of_list_In in X. rewrite List.Forall_forall in H2. specialize (H2 _ X). lia.
Qed.
Lemma closest_nodup l p r : closest_candidates l p = Some r -> NoDup r.
Proof.
  unfold closest_candidates. destruct (l_n l); [intros [= <-]; constructor|]. destruct (argmin _) as [[i dm]|]; [|done].
  match goal with |- match ?x with _ => _ end = _ -> _ => destruct x as [[|c cs]|]; try done end. intros [= <-]. apply sorted_nodup, where_sorted.
Qed.
Lemma live_ends s g : inv s -> is_Some (vec s !! g) -> exists x y, ends s g x y.
Proof.
  intros I V. apply (i_vec _ I) in V as [a A]. destruct (other_end _ _ _ I A) as [b B]. destruct (i_pts _ I) as (_ & _ & P).
  assert (X : forall h p, vtx s !! h = Some p -> exists v, (xy <$> points s) !! p = Some v).
  { intros h p H. destruct (P _ _ H) as [o O]. rewrite lookup_fmap in O. rewrite lookup_fmap. destruct (points s !! p); [cbn; eauto|done]. }
  destruct (X _ _ A) as [x EX]. destruct (X _ _ B) as [y EY]. exists x, y, a, b. done.
Qed.
Lemma fat_covers b m v : (0 < m)%Q -> covers b m v -> Aabb_Spec.proper b /\ fat b.
Proof. intros M [[A1 A2] [A3 A4]]. split; [split; lra|left; lra]. Qed.
Lemma marg_eq m : (0 < m)%Q -> (eff_margin m == m)%Q.
Proof. intros H. unfold eff_margin. apply Q.max_r. lra. Qed.
Lemma marg_pos m : (0 < m)%Q -> (0 < eff_margin m)%Q.
Proof. intros H. rewrite (marg_eq m H). done. Qed.
Lemma in_near b m v z : (0 < m)%Q -> covers b (eff_margin m) v -> near z v m -> in_box z b.
Proof.
  intros P [[A1 A2] [A3 A4]] N. apply near_coords in N as [N1 N2]; [|done]. assert (E := marg_eq m P). split; split; lra.
Qed.

Lemma dot_eq (z a a' v : vect) : (fst a == fst a')%Q -> (snd a == snd a')%Q -> (dot (vminus z a) v == dot (vminus z a') v)%Q.
Proof. unfold dot, vminus. cbn. intros -> ->. reflexivity. Qed.

Section Cand.
Context (d : ed) (z : vect) (M : Q) (I : einv d) (P : (0 < tolerance d)%Q) (RP : room_points d M) (B : pt_bounded M z).
(** The candidates among points are points and contain all that are close. *)
Lemma pts_cand p0 v0 : is_at (dec d) p0 v0 -> exists r, closest_candidates (p_boxes d) z = Some r /\ (forall p, In p r -> exists v, is_at (dec d) p v) /\
  (forall p v, is_at (dec d) p v -> near z v (tolerance d) -> In p r).
Proof.
  intros A0. destruct RP as (M0 & M4 & RB). destruct (point_box d p0 v0 I A0) as (b0 & B0 & _ & _).
  assert (L : forall p b, p_cur (dec d) (tolerance d) p = Some b -> exists v, is_at (dec d) p v /\ make_aabb [v] (tolerance d) = Some b).
  { intros p b H. unfold p_cur in H. destruct (xy_of (dec d) !! p) as [v|] eqn:E; [|done]. exists v. done. }
  destruct (closest_tab (p_boxes d) (p_cur (dec d) (tolerance d)) M z p0 b0) as (r & H1 & H2 & H3 & _); [apply I|done|done|by rewrite (e_pinf _ I)| |done|].
  - intros p b H. destruct (L _ _ H) as (v & V & E). destruct (point_box d p v I V) as (b' & B1 & B2 & C). assert (b' = b) as -> by congruence.
    destruct (fat_covers b _ v (marg_pos _ P) C) as [F1 F2]. split; [done|]. split; [done|]. destruct (one_box v _ b E P) as (O1 & O2 & O3 & O4).
    destruct (RB p v V) as [[? ?] [? ?]]. split; split; lra.
  - exists r. split; [done|]. split.
    + intros p Hp. destruct (H2 _ Hp) as (b & Hb). destruct (L _ _ Hb) as (v & V & _). eauto.
    + intros p v V N. destruct (point_box d p v I V) as (b & B1 & B2 & C). apply (H3 p b B1). exact (in_near b (tolerance d) v z P C N).
Qed.
Context (R : room d M) (V : vec_ok (dec d)) (Z : no_zero (dec d)).
(** An entry of the list of close segments. *)
Definition entry (c : close) : Prop := exists x y, ends (dec d) (c_seg c) x y /\ nearest_on x y z (c_t c) /\ (c_d2 c == dist2 z (along x y (c_t c)))%Q /\
  (c_t c == 0 \/ c_t c == 1 \/ dot (vminus z (along x y (c_t c))) (vminus y x) == 0)%Q.
Lemma entry_of g x y : ends (dec d) g x y -> exists c, close_to z g (dec d) = Some c /\ c_seg c = g /\ entry c.
Proof.
  intros E. destruct (close_to_ok (dec d) z g x y V E (Z _ _ _ E)) as (t & C & T). eexists. split; [exact C|]. split; [done|]. exists x, y. cbn [c_seg c_t c_d2]. split; [done|].
  split; [by apply project_nearest|]. split; [rewrite norm2_dist; apply dist_param|]. apply project_ok in T as (_ & _ & _ & T).
  destruct T as [T|[T|T]]; [by left|right; by left|]. right; right. destruct (param_along x y t) as [E1 E2]. rewrite <- (dot_eq z _ _ _ E1 E2). done.
Qed.
Lemma segs_cand g0 x0 y0 : ends (dec d) g0 x0 y0 -> exists l cs, closest_candidates (s_boxes d) z = Some l /\ all_close z l (dec d) = Some cs /\ NoDup (c_seg <$> cs) /\
  (forall c, In c cs -> entry c) /\
  (forall g, passes (dec d) z (tolerance d) g -> exists c, In c cs /\ c_seg c = g /\ (c_d2 c < tolerance d * tolerance d)%Q) /\
  (forall g x y w, ends (dec d) g x y -> between x y w -> exists c, In c cs /\ (c_d2 c <= dist2 z w)%Q).
Proof.
  intros E0. destruct R as ((M0 & M4 & _) & RS). destruct (e_segs _ I) as (cur & T & L & _ & C). assert (IV := g_inv _ (e_good _ I)).
  destruct (proj2 (L g0) (seg_live _ _ _ _ IV E0)) as [b0 B0].
  assert (CV : forall g b, cur g = Some b -> exists x y, ends (dec d) g x y /\ covers b (eff_margin (tolerance d)) x /\ covers b (eff_margin (tolerance d)) y).
  { intros g b H. destruct (live_ends _ g IV) as (x & y & E); [apply L; eauto|]. exists x, y. split; [done|]. by eapply C. }
  destruct (closest_tab (s_boxes d) cur M z g0 b0) as (l & H1 & H2 & H3 & H4); [done|done|done|rewrite (e_sinf _ I); exact M4| |done|].
  { intros g b H. destruct (CV _ _ H) as (x & y & E & Cx & _). destruct (fat_covers b _ x (marg_pos _ P) Cx) as [F1 F2]. split; [done|]. split; [done|].
    apply (RS g); [apply L; eauto|by eapply tab_box]. }
  assert (LE : forall g, In g l -> exists x y, ends (dec d) g x y). { intros g G. destruct (H2 _ G) as (b & Hb). destruct (CV _ _ Hb) as (x & y & E & _). eauto. }
  destruct (all_close_some z l (dec d)) as [cs CS]. { intros g G. destruct (LE _ G) as (x & y & E). destruct (entry_of g x y E) as (c & Ec & _). eauto. }
  assert (EN : forall c, In c cs -> entry c).
  { intros c H. destruct (all_close_out _ _ _ _ CS _ H) as (g & G & Ec). destruct (LE _ G) as (x & y & E). destruct (entry_of g x y E) as (c' & Ec' & _ & N). congruence. }
  assert (CE : forall g x y, In g l -> ends (dec d) g x y -> exists c, In c cs /\ c_seg c = g /\ forall w, between x y w -> (c_d2 c <= dist2 z w)%Q).
  { intros g x y G E. destruct (all_close_in _ _ _ _ CS _ G) as (c & C1 & C2). exists c. split; [done|]. assert (SG := close_seg_to _ _ _ _ C2). split; [done|].
    intros w W. destruct (EN _ C1) as (x' & y' & E' & N' & D' & _). rewrite SG in E'. destruct (ends_fun _ _ _ _ _ _ E E') as [-> ->]. rewrite D'. by apply N'. }
  exists l, cs. split; [done|]. split; [done|]. split; [rewrite (all_close_segs _ _ _ _ CS); by eapply closest_nodup|]. split; [done|]. split.
  - intros g (x & y & w & E & W & N). destruct (proj2 (L g) (seg_live _ _ _ _ IV E)) as [b Hb]. destruct (CV _ _ Hb) as (x' & y' & E' & Cx & Cy).
    destruct (ends_fun _ _ _ _ _ _ E E') as [-> ->]. assert (G : In g l). { apply (H3 g b Hb). exact (in_near b (tolerance d) w z P (covers_between _ _ _ _ _ Cx Cy W) N). }
    destruct (CE _ _ _ G E) as (c & C1 & C2 & C3). exists c. split; [done|]. split; [done|]. specialize (C3 _ W). unfold near in N. lra.
  - intros g x y w E W. destruct (proj2 (L g) (seg_live _ _ _ _ IV E)) as [b Hb].
    set (o := fun i => if decide (i = g) then w else match ends_b (dec d) i with Some (x, y) => x | None => z end : pt).
    assert (O : forall i x' y', ends (dec d) i x' y' -> between x' y' (o i)).
    { intros i x' y' E'. unfold o. destruct (decide (i = g)) as [-> | D]; [destruct (ends_fun _ _ _ _ _ _ E E') as [-> ->]; done|].
      rewrite (ends_b_ok _ _ _ _ E'). exists 0%Q. split; [lra|]. split; ring. }
    destruct (H4 o) with (j := g) (b := b) as (i & I1 & I2); [|done|].
    { intros i b' Hb'. destruct (CV _ _ Hb') as (x' & y' & E' & Cx & Cy). eapply covers_in; [apply marg_nonneg|]. exact (covers_between _ _ _ _ _ Cx Cy (O _ _ _ E')). }
    destruct (LE _ I1) as (x' & y' & E'). destruct (CE _ _ _ I1 E') as (c & C1 & _ & C3). exists c. split; [done|]. specialize (C3 _ (O _ _ _ E')).
    assert (OG : o g = w) by (unfold o; by rewrite decide_True). rewrite OG in I2. lra.
Qed.
End Cand.
