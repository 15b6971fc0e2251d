(** What _snap_point and add_point do. *)
From stdpp Require Import gmap list.
From Coq Require Import Lia QArith Lqa Qminmax.
From Verif Require Import Decomp_Model Decomp_Spec Decomp_Eff Decomp_Inv Decomp_Good Decomp_Walk Editor_Model Editor_Spec Editor_Proofs.
From Verif Require Import Aabb_Model Aabb_Spec Aabb_Proofs Editor_Box Snap_Model Snap_Spec Snap_Proofs Snap_Cand.
Local Open Scope nat_scope.

Section Main.
Context (K : geometry) (inside : st -> nat -> vect -> bool) (root : Q -> Q).
Context (d : ed) (z : vect) (M : Q) (I : einv d) (P : (0 < tolerance d)%Q) (RP : room_points d M) (B : pt_bounded M z).
Notation snap := (snap_point K inside root z d).
(** Points come first. *)
Lemma snap_first p0 v0 : is_at (dec d) p0 v0 ->
  (exists p v, snap = (Ok (SPoint p), d) /\ is_at (dec d) p v /\ near z v (tolerance d)) \/
  (snap = snap_segment K inside root z d /\ forall p v, is_at (dec d) p v -> ~ near z v (tolerance d)).
Proof.
  intros A0. destruct (pts_cand d z M I P RP B p0 v0 A0) as (r & C & L & N). unfold snap_point. rewrite C.
  destruct (first_point_ok (tolerance d) z r (dec d) L) as [(p & v & F & _ & A & _ & D)|(F & NF)]; rewrite F.
  - left. exists p, v. done.
  - right. split; [done|]. intros p v A D. apply (NF p v); [by eapply N|done|done|done].
Qed.
Context (R : room d M) (V : vec_ok (dec d)) (Z : no_zero (dec d)).
Lemma entry_passes c : entry d z c -> (c_d2 c < tolerance d * tolerance d)%Q -> passes (dec d) z (tolerance d) (c_seg c).
Proof.
  intros (x & y & E & [T _] & D & _) L. exists x, y, (along x y (c_t c)). split; [done|]. split; [by apply along_between|]. unfold near. by rewrite <- D.
Qed.
Lemma entry_nearest c cs : entry d z c -> (forall x, In x cs -> (c_d2 c <= c_d2 x)%Q) ->
  (forall g x y w, ends (dec d) g x y -> between x y w -> exists c, In c cs /\ (c_d2 c <= dist2 z w)%Q) -> nearest_seg (dec d) z (c_seg c).
Proof.
  intros (x & y & E & [T _] & D & _) L A g' x' y' w' E' W'. destruct (A _ _ _ _ E' W') as (c' & C1 & C2). exists x, y, (along x y (c_t c)).
  split; [done|]. split; [by apply along_between|]. rewrite <- D. specialize (L _ C1). lra.
Qed.
(** The part for segments. *)
Lemma segment_cases g0 x0 y0 : ends (dec d) g0 x0 y0 ->
  exists cs c, NoDup (c_seg <$> (c :: cs)) /\ entry d z c /\ (forall x, In x cs -> entry d z x) /\ nearest_seg (dec d) z (c_seg c) /\ (forall x, In x cs -> (c_d2 c <= c_d2 x)%Q) /\
  (forall g, passes (dec d) z (tolerance d) g <-> exists x, (x = c \/ In x cs) /\ c_seg x = g /\ (c_d2 x < tolerance d * tolerance d)%Q) /\
  snap_segment K inside root z d =
    match List.filter (fun c => below (c_d2 c) (tolerance d)) (c :: cs) with
    | [] => on_dec (snap_polygon K inside (Some c) z) d
    | [_] => (Ok (SSegment (c_seg c) (c_t c)), d)
    | _ :: b :: _ => match two root (tolerance d) c b z (dec d) with Some t => (Ok (SSegment (c_seg c) t), d) | None => (Raise, d) end
    end.
Proof.
  intros E0. destruct (segs_cand d z M I P B R V Z g0 x0 y0 E0) as (l & cs & C & AC & ND & EN & PA & NE).
  assert (S1 := sort_nodup _ ND). assert (S2 := sort_sorted cs). assert (S3 := sort_in cs).
  unfold snap_segment. rewrite C, AC. destruct (sort_close cs) as [|c r] eqn:S.
  { exfalso. destruct (NE g0 x0 y0 x0 E0) as (c & Hc & _); [exists 0%Q; split; [lra|split; ring]|]. apply S3 in Hc. destruct Hc. }
  exists r, c. split; [done|]. assert (EC : entry d z c) by (apply EN, S3; by left). split; [done|]. split; [intros x Hx; apply EN, S3; by right|].
  assert (MI : forall x, In x cs -> (c_d2 c <= c_d2 x)%Q). { intros x Hx. apply S3 in Hx. destruct Hx as [<-|Hx]; [lra|]. destruct S2 as [S2 _]. by apply S2. }
  split; [by eapply entry_nearest|]. split; [intros x Hx; apply MI, S3; by right|]. split.
  { intros g. split.
    - intros H. destruct (PA _ H) as (x & X1 & X2 & X3). exists x. split; [apply S3 in X1; destruct X1 as [<-|X1]; [by left|by right]|done].
    - intros (x & X1 & <- & X3). apply entry_passes; [|done]. apply EN, S3. destruct X1 as [-> |X1]; [by left|by right]. }
  cbn [List.filter head]. destruct (below (c_d2 c) (tolerance d)) eqn:BL; [done|].
  assert (F : List.filter (fun c => below (c_d2 c) (tolerance d)) r = []).
  { destruct (List.filter _ r) as [|y q] eqn:F; [done|]. exfalso. assert (Y : In y (List.filter (fun c => below (c_d2 c) (tolerance d)) r)) by (rewrite F; by left).
    apply filter_In in Y as [Y1 Y2]. apply below_iff in Y2 as [_ Y2]. destruct S2 as [S2 _]. specialize (S2 _ Y1).
    assert (below (c_d2 c) (tolerance d) = true); [|congruence]. apply below_iff. split; [done|]. lra. }
  by rewrite F.
Qed.
(** One segment is close. *)
Lemma snap_one g : passes (dec d) z (tolerance d) g -> (forall g', passes (dec d) z (tolerance d) g' -> g' = g) ->
  exists t x y, snap_segment K inside root z d = (Ok (SSegment g t), d) /\ ends (dec d) g x y /\ nearest_on x y z t /\ near z (along x y t) (tolerance d) /\
   (t == 0 \/ t == 1 \/ dot (vminus z (along x y t)) (vminus y x) == 0)%Q.
Proof.
  intros H U. assert (H' := H). destruct H' as (x0 & y0 & w0 & E0 & _). destruct (segment_cases g x0 y0 E0) as (cs & c & ND & EC & ES & NE & MI & PA & EQ).
  assert (C1 : forall x, x = c \/ In x cs -> (c_d2 x < tolerance d * tolerance d)%Q -> c_seg x = g). { intros x X L. apply U. apply PA. exists x. done. }
  assert (SUB : List.filter (fun c => below (c_d2 c) (tolerance d)) cs = [] \/ ~ (c_d2 c < tolerance d * tolerance d)%Q).
  { destruct (List.filter _ cs) as [|y q] eqn:F; [by left|]. right. intros L. assert (Y : In y (List.filter (fun c => below (c_d2 c) (tolerance d)) cs)) by (rewrite F; by left).
    apply filter_In in Y as [Y1 Y2]. apply below_iff in Y2 as [_ Y2]. assert (G1 := C1 c (or_introl eq_refl) L). assert (G2 := C1 y (or_intror Y1) Y2).
    cbn in ND. apply NoDup_cons in ND as [ND _]. apply ND. rewrite G1, <- G2. by apply elem_of_list_fmap_1, elem_of_list_In. }
  assert (L : (c_d2 c < tolerance d * tolerance d)%Q). { apply PA in H as (x & [-> |X1] & <- & X3); [done|]. specialize (MI _ X1). lra. }
  destruct SUB as [F|?]; [|done]. assert (G := C1 c (or_introl eq_refl) L). cbn [List.filter] in EQ. rewrite F in EQ.
  assert (BL : below (c_d2 c) (tolerance d) = true) by (by apply below_iff). rewrite BL in EQ. destruct EC as (x & y & E & N & D & O). rewrite G in *.
  exists (c_t c), x, y. split; [done|]. split; [done|]. split; [done|]. split; [unfold near; rewrite <- D; done|done].
Qed.
(** Several are close. *)
Lemma snap_several g g' r d' : passes (dec d) z (tolerance d) g -> passes (dec d) z (tolerance d) g' -> g <> g' ->
  snap_segment K inside root z d = (Ok r, d') -> d' = d /\ exists h t, r = SSegment h t /\ nearest_seg (dec d) z h /\ passes (dec d) z (tolerance d) h.
Proof.
  intros H H' N E. assert (H0 := H). destruct H0 as (x0 & y0 & w0 & E0 & _). destruct (segment_cases g x0 y0 E0) as (cs & c & ND & EC & ES & NE & MI & PA & EQ).
  assert (L : (c_d2 c < tolerance d * tolerance d)%Q). { apply PA in H as (x & [-> |X1] & <- & X3); [done|]. specialize (MI _ X1). lra. }
  rewrite E in EQ. cbn [List.filter] in EQ. assert (BL : below (c_d2 c) (tolerance d) = true) by (by apply below_iff). rewrite BL in EQ.
  assert (PC := entry_passes c EC L). destruct (List.filter _ cs) as [|b q].
  - injection EQ as -> ->. split; [done|]. eauto.
  - destruct (two root (tolerance d) c b z (dec d)) as [t|]; [|done]. injection EQ as -> ->. split; [done|]. eauto.
Qed.
(** None is close. *)
Lemma snap_none g0 x0 y0 : ends (dec d) g0 x0 y0 -> (forall g, ~ passes (dec d) z (tolerance d) g) ->
  exists c, entry d z c /\ nearest_seg (dec d) z (c_seg c) /\ snap_segment K inside root z d = on_dec (snap_polygon K inside (Some c) z) d.
Proof.
  intros E0 N. destruct (segment_cases g0 x0 y0 E0) as (cs & c & ND & EC & ES & NE & MI & PA & EQ). exists c. split; [done|]. split; [done|].
  assert (F : List.filter (fun c => below (c_d2 c) (tolerance d)) (c :: cs) = []).
  { destruct (List.filter _ (c :: cs)) as [|y q] eqn:F; [done|]. exfalso. assert (Y : In y (List.filter (fun c => below (c_d2 c) (tolerance d)) (c :: cs))) by (rewrite F; by left).
    apply filter_In in Y as [Y1 Y2]. apply below_iff in Y2 as [_ Y2]. apply (N (c_seg y)). apply PA. exists y. split; [destruct Y1 as [<-|Y1]; [by left|by right]|done]. }
  by rewrite F in EQ.
Qed.
End Main.

(** * The polygon *)
Lemma bind_inv {A C} (m : M A) (f : A -> M C) s r s' : bind m f s = (Ok r, s') -> exists a s1, m s = (Ok a, s1) /\ f a s1 = (Ok r, s').
Proof. unfold bind. destruct (m s) as [[a| |] s1]; [eauto|done|done]. Qed.
Lemma need_inv {A} (f : st -> option A) s r s' : need f s = (Ok r, s') -> s' = s /\ f s = Some r.
Proof. unfold need. destruct (f s); [|done]. by intros [= <- <-]. Qed.
Ltac nd_tac H := unfold get_pt, get_vtx, get_label in H; apply need_inv in H; cbv beta in H.
Tactic Notation "nd" hyp(H) "as" simple_intropattern(p) := nd_tac H; destruct H as p.
Lemma check_inv b s r s' : check b s = (Ok r, s') -> s' = s /\ b = true.
Proof. destruct b; [|done]. by intros [= _ <-]. Qed.
Lemma place_in turn last l a b : place turn last l = Some (a, b) -> a = last \/ In a l.
Proof.
  revert last. induction l as [|h l IH]; intros last; cbn; [done|]. destruct (Qle_bool _ _); [intros [= <- _]; by left|]. intros H. destruct (IH _ H) as [->|]; right; [by left|by right].
Qed.
Lemma insert_vector_at K p v s i s' : inv s -> insert_vector K p v s = (Ok (Some i), s') -> s' = s /\ exists h, vtx s !! h = Some p /\ wir s !! h = Some (snd i).
Proof.
  intros I H. unfold insert_vector in H. apply bind_inv in H as (u & s1 & H1 & H). apply check_inv in H1 as [-> _]. apply bind_inv in H as (x & s1 & H1 & H).
  nd H1 as [-> X]. destruct (p_seg x) as [a|] eqn:PS; [|done]. apply bind_inv in H as (l & s1 & H1 & H).
  destruct (segments_full s I p x X) as (l' & L & _ & LV). rewrite L in H1. injection H1 as <- <-.
  assert (VA : vtx s !! a = Some p) by (apply (i_pts _ I); rewrite lookup_fmap, X; cbn; by rewrite PS).
  assert (LL : forall h, In h (l' ++ [a]) -> vtx s !! h = Some p). { intros h Hh. apply in_app_or in Hh as [Hh|[<-|[]]]; [by apply LV, elem_of_list_In|done]. }
  destruct (l' ++ [a]) as [|h q]; [done|]. apply bind_inv in H as (jk & s1 & H1 & H). nd H1 as [-> PL]. apply bind_inv in H as (w & s1 & H1 & H).
  nd H1 as [-> W]. injection H as <- <-. split; [done|]. destruct jk as [j k]. exists j. split; [|done]. apply LL. apply place_in in PL as [-> |PL]; [by left|by right].
Qed.
(** The polygon found next to a segment. *)
Definition beside (s : st) (c : close) (z : vect) (q : nat) : Prop := forall x y, ends s (c_seg c) x y ->
  (c_t c == 0 -> exists h, vtx s !! h = vtx s !! (c_seg c, false) /\ poly_at s h = Some q)%Q /\
  (c_t c == 1 -> exists h, vtx s !! h = vtx s !! (c_seg c, true) /\ poly_at s h = Some q)%Q /\
  ((0 < c_t c < 1)%Q -> let cross := ((fst y - fst x) * (snd z - snd x) - (snd y - snd x) * (fst z - fst x))%Q in
     (0 < cross -> poly_at s (c_seg c, true) = Some q)%Q /\ (cross < 0 -> poly_at s (c_seg c, false) = Some q)%Q /\ ~ (cross == 0)%Q).
Lemma wire_poly_inv w s q s' : wire_poly w s = (Ok q, s') -> s' = s /\ wires s !! w ≫= w_poly = Some q.
Proof. exact (need_inv (fun s => wires s !! w ≫= w_poly) s q s'). Qed.
Lemma at_end_inv K (p : nat) z s q s' : inv s -> bind (get_pt p) (fun x => bind (insert_vector K p (vminus z (xy x))) (fun i => bind (need (fun _ => i)) (fun i => wire_poly (snd i)))) s = (Ok q, s') ->
  s' = s /\ exists h, vtx s !! h = Some p /\ poly_at s h = Some q.
Proof.
  intros I H. apply bind_inv in H as (x & s1 & H1 & H). nd H1 as [-> X]. apply bind_inv in H as (i & s1 & H1 & H). apply bind_inv in H as (j & s2 & H2 & H).
  nd H2 as [-> ->]. apply insert_vector_at in H1 as (-> & h & Vh & Wh); [|done]. apply wire_poly_inv in H as [-> Q]. split; [done|]. exists h. split; [done|].
  unfold poly_at. by rewrite Wh.
Qed.
Lemma next_to_ok K c z s q s' : inv s -> vec_ok s -> next_to K c z s = (Ok q, s') -> s' = s /\ ((0 <= c_t c <= 1)%Q -> beside s c z q).
Proof.
  intros I V H. unfold next_to in H. cbv zeta in H. destruct (Qeq_bool (c_t c) 0) eqn:T0.
  { apply Qeq_bool_iff in T0. apply bind_inv in H as (p & s1 & H1 & H). nd H1 as [-> VP]. apply at_end_inv in H as (-> & h & Vh & Ph); [|done]. split; [done|].
    intros _ x y E. split; [intros _; exists h; split; [congruence|done]|]. split; intros; exfalso; lra. }
  destruct (Qeq_bool (c_t c) 1) eqn:T1.
  { apply Qeq_bool_iff in T1. apply bind_inv in H as (p & s1 & H1 & H). nd H1 as [-> VP]. apply at_end_inv in H as (-> & h & Vh & Ph); [|done]. split; [done|].
    intros _ x y E. split; [intros; exfalso; lra|]. split; [intros _; exists h; split; [congruence|done]|]. intros; exfalso; lra. }
  apply Qeq_bool_neq in T0, T1. apply bind_inv in H as (v & s1 & H1 & H). nd H1 as [-> EV]. apply bind_inv in H as (a & s1 & H1 & H). nd H1 as [-> EA].
  apply bind_inv in H as (o & s1 & H1 & H). nd H1 as [-> EO]. apply bind_inv in H as (u & s1 & H1 & H). apply check_inv in H1 as [-> NZ].
  apply bind_inv in H as (w & s1 & H1 & H). nd H1 as [-> EW]. apply wire_poly_inv in H as [-> Q]. split; [done|].
  intros _ x y E. split; [done|]. split; [done|]. intros T cr. destruct E as (a' & b & A' & B' & X & Y). assert (a' = a) as -> by congruence.
  assert (xy o = x) as OX by (rewrite lookup_fmap, EO in X; cbn in X; congruence). rewrite OX in *.
  assert (v = vminus y x) as -> by (assert (EV2 := V _ _ _ _ _ EA B' X Y); unfold vect in *; rewrite EV2 in EV; congruence).
  assert (CR : (dot (vminus z x) (snd (vminus y x), - fst (vminus y x)) == - cr)%Q) by (unfold dot, vminus, cr; cbn; ring).
  apply negb_true_iff, Qeq_bool_neq in NZ. rewrite CR in NZ. unfold poly_at.
  destruct (Qle_bool (dot (vminus z x) (snd (vminus y x), (- fst (vminus y x))%Q)) 0) eqn:SD.
  - apply Qle_bool_iff in SD. rewrite CR in SD. split; [intros; by rewrite EW|]. split; [intros; exfalso; lra|]. intros C0. apply NZ. lra.
  - split; [|split]; [intros C0; exfalso| intros; by rewrite EW|intros C0; apply NZ; lra].
    assert (Qle_bool (dot (vminus z x) (snd (vminus y x), (- fst (vminus y x))%Q)) 0 = true); [|congruence]. apply Qle_bool_iff. rewrite CR. lra.
Qed.
Lemma snap_polygon_ok K inside c z s r s' : inv s -> vec_ok s -> (0 <= c_t c <= 1)%Q -> snap_polygon K inside (Some c) z s = (Ok r, s') ->
  s' = s /\ exists q, r = SPolygon q /\ beside s c z q /\ is_Some (polys s !! q).
Proof.
  intros I V T H. cbn [snap_polygon] in H. apply bind_inv in H as (q & s1 & H1 & H). apply next_to_ok in H1 as [-> N]; [|done|done].
  destruct (poly_holds inside s q z) eqn:PH; [|done]. injection H as <- <-. split; [done|]. exists q. split; [done|]. split; [by apply N|].
  unfold poly_holds in PH. destruct (polys s !! q); [eauto|done].
Qed.
Lemma snap_polygon_kind K inside c z s r s' : snap_polygon K inside c z s = (Ok r, s') -> exists q, r = SPolygon q.
Proof.
  destruct c as [c|]; cbn [snap_polygon].
  - intros H. apply bind_inv in H as (q & s1 & H1 & H). destruct (poly_holds inside s1 q z); [|done]. injection H as <- <-. eauto.
  - destruct (bool_decide (vec s = ∅)); [|done]. intros [= <- <-]. eauto.
Qed.
Lemma snap_segment_no_point K inside root z d p d' : snap_segment K inside root z d <> (Ok (SPoint p), d').
Proof.
  unfold snap_segment. destruct (closest_candidates (s_boxes d) z) as [l|]; [|done]. destruct (all_close z l (dec d)) as [cs|]; [|done].
  destruct (List.filter _ (sort_close cs)) as [|a [|b q]]; [|done|by destruct (two root (tolerance d) a b z (dec d))].
  unfold on_dec. destruct (snap_polygon K inside (head (sort_close cs)) z (dec d)) as [[r| |] s'] eqn:SP; try done. apply snap_polygon_kind in SP as [q ->]. done.
Qed.
