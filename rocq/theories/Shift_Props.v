(** Properties C107 and C108. *)
From stdpp Require Import gmap list relations.
From Coq Require Import QArith Lia.
From Verif Require Import Decomp_Model Decomp_Spec Decomp_Hist Decomp_Plane Decomp_Props Geom_Model Build_Model Build_Wire Shift_Model Shift_Spec Shift_Run.
Local Open Scope nat_scope.

(** Runs of decomp.py lines 160-247. A square with a segment in it; a line of three segments; a segment and a free point. *)
Definition yard : list op := [AddPoint (0, 0)%Q 0; AddPoint (10, 0)%Q 0; AddPoint (10, 10)%Q 0; AddPoint (0, 10)%Q 0; AddPoint (8, 4)%Q 0; AddPoint (8, 6)%Q 0;
  NewSegment 0 1; NewSegment 1 2; NewSegment 2 3; NewSegment 3 0; NewSegment 4 5].
Definition line4 : list op := [AddPoint (0, 0)%Q 0; AddPoint (0, 1)%Q 0; AddPoint (1, 2)%Q 0; AddPoint (1, 0)%Q 0; NewSegment 0 1; NewSegment 1 2; NewSegment 2 3].
Definition lone : list op := [AddPoint (0, 0)%Q 0; AddPoint (0, 2)%Q 0; AddPoint (-1, 1)%Q 0; NewSegment 0 1].
(** The answer alone; polygons.py line 190. *)
Definition answer (k : nat) (ps : list nat) (d : vect) (s : st) : option (bool * list nat) :=
  match fst (check_displacement k ps d s) with Ok (b, C) => Some (b, elements C) | _ => None end.
Lemma answer_ok k ps d s b l : answer k ps d s = Some (b, l) -> exists C s', check_displacement k ps d s = (Ok (b, C), s').
Proof. unfold answer. destruct (check_displacement k ps d s) as [[[b' C]| |] s']; cbn; try done. intros [= -> _]. eauto. Qed.

Lemma res_pair {A B} (p : A * B) (a : A) : fst p = a -> p = (a, snd p).
Proof. destruct p; cbn; congruence. Qed.
(** Place of the end of a side; segment.py lines 11-16. *)
Definition place (s : st) (h : he) : option vect := vtx s !! h ≫= fun p => xy <$> points s !! p.
Lemma parallel s e f x y u v : place s (e, false) = Some x -> place s (e, true) = Some y -> place s (f, false) = Some u -> place s (f, true) = Some v ->
  ((fst y - fst x) * (snd v - snd u) - (snd y - snd x) * (fst v - fst u) == 0)%Q -> ~ crossing s e f.
Proof.
  unfold place. intros X Y U V D (a & b & p & q & x' & y' & u' & v' & A & B & P & Q & X' & Y' & U' & V' & C & _). rewrite A in X. rewrite B in Y. rewrite P in U. rewrite Q in V. cbn in *. rewrite X' in X. rewrite Y' in Y. rewrite U' in U. rewrite V' in V. cbn in *.
  injection X as <-. injection Y as <-. injection U as <-. injection V as <-. by apply C.
Qed.

(** * C107 *)
(** The test returns and leaves the decomposition alone; it reports the polygons beside segments of the points, and it is true just if
    no point on its way and no segment in its new place crosses a segment of the envelope. *)
Theorem C107_answer s ps d : plain s -> (forall p, p ∈ ps -> is_Some (points s !! p)) ->
  exists k0, forall k, k0 <= k -> exists r C, check_displacement k ps d s = (Ok (r, C), s) /\ (forall g, g ∈ C <-> changed s ps g) /\ (r = true <-> ~ collision s ps d).
Proof. intros P. apply check_ok; [by apply plain_history|by apply plain_vec]. Qed.
(** After a move that passed the test no moved segment crosses a segment of the envelope. *)
Theorem C107_clear s ps d k C s1 : plain s -> NoDup ps -> (forall p, p ∈ ps -> is_Some (points s !! p)) -> check_displacement k ps d s = (Ok (true, C), s1) ->
  exists s', move_all ps d s = (Ok tt, s') /\ forall e f c, envelope s ps e -> moves_end s ps (f, c) -> ~ crossing s' e f.
Proof.
  intros P ND L E. destruct (move_all_ok ps d s P ND L) as (s' & E' & _ & SL & NP). exists s'. split; [done|]. destruct (C107_answer s ps d P L) as [k0 K]. destruct (K (k0 + k) ltac:(lia)) as (r & C' & E2 & _ & R).
  assert (E3 := check_more k (k0 + k) ps d s (true, C) s1 E ltac:(lia)). rewrite E2 in E3. injection E3 as -> _ _. apply (clear_after s ps d s' (plain_history s P) SL NP). by apply R.
Qed.
(** Not so for a free point: it has no segments, so nothing is in its way. *)
Theorem C107_free_refuted : exists s p z d k C s1 e a b x y, plain s /\ points s !! p = Some z /\
  vtx s !! (e, false) = Some a /\ vtx s !! (e, true) = Some b /\ points s !! a = Some x /\ points s !! b = Some y /\
  cross_inside (xy x) (xy y) (xy z) (fst (xy z) + fst d, snd (xy z) + snd d)%Q /\ check_displacement k [p] d s = (Ok (true, C), s1).
Proof.
  destruct (answer_ok 9 [2] (2, 0)%Q (after lone) true []) as (C & s1 & E); [vm_compute; reflexivity|].
  exists (after lone), 2, (Pt (-1, 1)%Q (Some 0) None), (2, 0)%Q, 9, C, s1, 0, 0, 1, (Pt (0, 0)%Q None (Some (0, false))), (Pt (0, 2)%Q None (Some (0, true))).
  split; [apply fine_plain; vm_compute; reflexivity|]. split; [vm_compute; reflexivity|]. split; [vm_compute; reflexivity|]. split; [vm_compute; reflexivity|]. split; [vm_compute; reflexivity|]. split; [vm_compute; reflexivity|]. split; [|exact E].
  split; [intros Z; vm_compute in Z; discriminate Z|]. exists (1 # 2)%Q, (1 # 2)%Q. repeat split; vm_compute; reflexivity.
Qed.
(** Nor for moved segments among each other: both points of the middle segment of a line move, and the other two cross. *)
Theorem C107_moving_refuted : exists s ps d k C s1 s' e f, plain s /\ NoDup ps /\ check_displacement k ps d s = (Ok (true, C), s1) /\ move_all ps d s = (Ok tt, s') /\
  ~ crossing s e f /\ crossing s' e f.
Proof.
  destruct (answer_ok 9 [1; 2] (3, 0)%Q (after line4) true [0]) as (C & s1 & E); [vm_compute; reflexivity|].
  exists (after line4), [1; 2], (3, 0)%Q, 9, C, s1, (snd (move_all [1; 2] (3, 0)%Q (after line4))), 0, 2.
  split; [apply fine_plain; vm_compute; reflexivity|]. split; [apply (bool_decide_unpack (NoDup [1; 2])); vm_compute; exact I|]. split; [exact E|]. split; [apply (res_pair (move_all [1; 2] (3, 0)%Q (after line4)) (Ok tt)); vm_compute; reflexivity|]. split.
  - apply (parallel (after line4) 0 2 (0, 0)%Q (0, 1)%Q (1, 2)%Q (1, 0)%Q); vm_compute; reflexivity.
  - exists 0, 1, 2, 3, (Pt (0, 0)%Q None (Some (0, false))), (Pt (3, 1)%Q None (Some (0, true))), (Pt (4, 2)%Q None (Some (1, true))), (Pt (1, 0)%Q None (Some (2, true))).
    do 8 (split; [vm_compute; reflexivity|]). split; [intros Z; vm_compute in Z; discriminate Z|]. exists (2 # 3)%Q, (2 # 3)%Q. repeat split; vm_compute; reflexivity.
Qed.
(** Nor is what lies in a polygon kept there: a wall that moves past a segment within is not stopped, as no point crosses it on its way. *)
Theorem C107_pass_refuted : exists s ps d k C s1 s' w o, plain s /\ NoDup ps /\ check_displacement k ps d s = (Ok (true, C), s1) /\ move_all ps d s = (Ok tt, s') /\
  (parent <$> wires s') !! w = Some (Some o) /\ k_wire plane s o w = true /\ k_wire plane s' o w = false.
Proof.
  destruct (answer_ok 9 [1; 2] (-5, 0)%Q (after yard) true [0; 1]) as (C & s1 & E); [vm_compute; reflexivity|].
  exists (after yard), [1; 2], (-5, 0)%Q, 9, C, s1, (snd (move_all [1; 2] (-5, 0)%Q (after yard))), 3, 2.
  split; [apply fine_plain; vm_compute; reflexivity|]. split; [apply (bool_decide_unpack (NoDup [1; 2])); vm_compute; exact I|]. split; [exact E|]. split; [apply (res_pair (move_all [1; 2] (-5, 0)%Q (after yard)) (Ok tt)); vm_compute; reflexivity|].
  split; [rewrite lookup_fmap; vm_compute; reflexivity|]. split; vm_compute; reflexivity.
Qed.
(** The segment in the square may move by 1 and not by 5; the square is reported. *)
Example C107_case : plain (after yard) /\ answer 9 [4; 5] (1, 0)%Q (after yard) = Some (true, [1]) /\ answer 9 [4; 5] (5, 0)%Q (after yard) = Some (false, [1]) /\
  envelope (after yard) [4; 5] 1 /\ moves_end (after yard) [4; 5] (4, true) /\ collision (after yard) [4; 5] (5, 0)%Q.
Proof.
  assert (PL : plain (after yard)) by (apply fine_plain; vm_compute; reflexivity). split; [exact PL|]. split; [vm_compute; reflexivity|]. split; [vm_compute; reflexivity|].
  assert (EN : envelope (after yard) [4; 5] 1).
  { split.
    - intros c (p & I & V). destruct c.
      + assert (E : vtx (after yard) !! (1, true) = Some 2) by (vm_compute; reflexivity). rewrite E in V. injection V as <-. by apply (bool_decide_unpack (2 ∉ [4; 5])); vm_compute.
      + assert (E : vtx (after yard) !! (1, false) = Some 1) by (vm_compute; reflexivity). rewrite E in V. injection V as <-. by apply (bool_decide_unpack (1 ∉ [4; 5])); vm_compute.
    - destruct (polys (after yard) !! 1) as [p|] eqn:P; [|vm_compute in P; discriminate P]. assert (O : outer <$> polys (after yard) !! 1 = Some 2) by (vm_compute; reflexivity). rewrite P in O. injection O as O.
      exists true, 2, 1, p. split; [vm_compute; reflexivity|]. split; [|split; [exact P|rewrite O; apply rtc_refl]]. exists 4, true, true. split; [exists 5; split; [right; left|vm_compute; reflexivity]|vm_compute; reflexivity]. }
  split; [exact EN|]. split; [exists 5; split; [right; left|vm_compute; reflexivity]|].
  exists 1, 1, 2, (Pt (10, 0)%Q None (Some (0, true))), (Pt (10, 10)%Q None (Some (1, true))). split; [exact EN|]. split; [vm_compute; reflexivity|]. split; [vm_compute; reflexivity|]. split; [vm_compute; reflexivity|]. split; [vm_compute; reflexivity|].
  left. exists 4, (Pt (8, 4)%Q None (Some (4, false))). split; [left|]. split; [vm_compute; reflexivity|]. split; [intros Z; vm_compute in Z; discriminate Z|]. exists (4 # 10)%Q, (2 # 5)%Q. repeat split; vm_compute; reflexivity.
Qed.
Print Assumptions C107_answer.
Print Assumptions C107_clear.
Print Assumptions C107_free_refuted.
Print Assumptions C107_moving_refuted.
Print Assumptions C107_pass_refuted.

(** * C108 *)
(** Different points of the decomposition move by the vector, others stay; segments keep ends and order, wires and polygons stay, and vectors
    of segments are those between their ends. *)
Theorem C108_moved s ps d : plain s -> NoDup ps -> (forall p, p ∈ ps -> is_Some (points s !! p)) ->
  exists s', move_all ps d s = (Ok tt, s') /\ same_links s s' /\ vec_ok s' /\ forall p v, (exists x, points s' !! p = Some x /\ xy x = v) <-> new_place s ps d p v.
Proof. intros P ND L. destruct (move_all_ok ps d s P ND L) as (s' & E & P' & SL & NP). exists s'. split; [done|]. split; [done|]. split; [by apply plain_vec|done]. Qed.
(** A point listed twice moves twice, though its way was tested once. *)
Theorem C108_twice_refuted : exists s p d s' x y, plain s /\ points s !! p = Some x /\ move_all [p; p] d s = (Ok tt, s') /\ points s' !! p = Some y /\
  ~ (fst (xy y) == fst (xy x) + fst d)%Q.
Proof.
  exists (after line4), 1, (1, 0)%Q, (snd (move_all [1; 1] (1, 0)%Q (after line4))), (Pt (0, 1)%Q None (Some (0, true))), (Pt (2, 1)%Q None (Some (0, true))).
  split; [apply fine_plain; vm_compute; reflexivity|]. split; [vm_compute; reflexivity|]. split; [apply (res_pair (move_all [1; 1] (1, 0)%Q (after line4)) (Ok tt)); vm_compute; reflexivity|]. split; [vm_compute; reflexivity|]. intros Z. vm_compute in Z. discriminate Z.
Qed.
Example C108_case : plain (after yard) /\ NoDup [4; 5] /\ place (after yard) (4, true) = Some (8, 6)%Q /\ place (snd (move_all [4; 5] (1, 0)%Q (after yard))) (4, true) = Some (9, 6)%Q.
Proof. split; [apply fine_plain; vm_compute; reflexivity|]. split; [apply (bool_decide_unpack (NoDup [4; 5])); vm_compute; exact I|]. split; vm_compute; reflexivity. Qed.
Print Assumptions C108_moved.
Print Assumptions C108_twice_refuted.
