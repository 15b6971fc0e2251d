(** The geometric answers of the code, in exact rational arithmetic: point.py lines 62-79, polygon.py lines 179-215.
    Used to run the decomposition. *)
From stdpp Require Import gmap list relations.
From Coq Require Import QArith.
From Verif Require Import Geom_Model Decomp_Model Decomp_Spec.
Local Open Scope nat_scope.

(** The vector of a segment out of a point, point.py lines 67-69. *)
Definition side_vec (s : st) (h : he) : vect :=
  let v : vect := default (0, 0)%Q (vec s !! fst h) in if snd h then (- fst v, - snd v)%Q else v.
(** A number from 0 to 4 that grows with the angle of (x, y) from 0 to a full turn; for the angle of point.py lines 62, 70-73,
    which is only compared (line 74). *)
Definition turn_of (x y : Q) : Q :=
  let d := (Qabs.Qabs x + Qabs.Qabs y)%Q in
  if Qle_bool 0 y then (if Qle_bool 0 x then y / d else 2 - y / d)%Q
  else if Qlt_bool x 0 then (2 - y / d)%Q else (4 + y / d)%Q.
(** The angle of a side relative to [v], point.py lines 67-73. *)
Definition plane_turn (s : st) (v : vect) (h : he) : Q :=
  let u := side_vec s h in
  Qred (turn_of (fst u * fst v + snd u * snd v) (fst v * snd u - snd v * fst u)).
(** The coordinates of a vertex, segment.py lines 11-16. *)
Definition vtx_xy (s : st) (h : he) : vect := default (0, 0)%Q (vtx s !! h ≫= fun p => (xy <$> points s) !! p).
(** The segments of a wire, polygon.py lines 140-159, 189. *)
Definition wire_geo (s : st) (w : nat) : list gseg :=
  match ((w_seg <$> wires s : gmap nat (option he)) !! w : option (option he)) with
  | Some (Some a) => match walk (fuel s) (nxt s) a a a with
                     | Ok l => (fun h : he => (vtx_xy s (fst h, false), vtx_xy s (fst h, true))) <$> l
                     | _ => []
                     end
  | _ => []
  end.
(** The test point of Wire.contains_wire, polygon.py lines 207-214. *)
Definition wire_point (s : st) (w : nat) : vect :=
  match ((w_seg <$> wires s : gmap nat (option he)) !! w : option (option he)) with
  | Some (Some h) =>
    let t : vect := default (0, 0)%Q (vec s !! fst h) in
    let n := (if snd h then (- snd t, fst t) else (snd t, - fst t))%Q in
    let a := vtx_xy s (fst h, false) in
    (Qred (fst a + (1 # 2) * fst t + isec_eps * fst n), Qred (snd a + (1 # 2) * snd t + isec_eps * snd n))%Q
  | _ => (0, 0)%Q
  end.
(** Wire.contains_wire and contains_point below their tests for the root, polygon.py lines 188-194, 207-215. *)
Definition plane : geometry := Geometry plane_turn
  (fun s a b => Geom_Model.contains_point (wire_geo s a) (wire_point s b))
  (fun s w p => Geom_Model.contains_point (wire_geo s w) (default (0, 0)%Q ((xy <$> points s) !! p))).

Lemma plane_geo s s' a b : same_geo s s' -> k_wire plane s a b = k_wire plane s' a b.
Proof.
  intros (A & B & C & D & E & F). cbn. unfold wire_geo, wire_point, vtx_xy, fuel. by rewrite A, B, C, E, F.
Qed.
(** A sufficient test of [proper] for a call, spec of decomp.py lines 160-341. *)
Fixpoint up_b (n : nat) (P : gmap nat (option nat)) (x : nat) : bool :=
  match n with
  | 0 => false
  | S n => bool_decide (x = 0) || match P !! x with Some (Some q) => up_b n P q | _ => false end
  end.
Lemma up_b_ok n P x : up_b n P x = true -> up P x.
Proof.
  revert x. induction n as [|n IH]; intros x H; [done|]. cbn in H. apply orb_true_iff in H as [H|H].
  - apply bool_decide_eq_true in H as ->. apply rtc_refl.
  - destruct (P !! x) as [[q|]|] eqn:E; try done. eapply rtc_l; [exact E|]. by apply IH.
Qed.
(** Test of [whole]; of the links of polygon.py lines 71-81. *)
Definition whole_b (s : st) : bool :=
  forallb (fun p : nat * wire => let '(w, x) := p in up_b (S (size (wires s))) (parent <$> wires s) w &&
    match w_poly x with
    | Some g => match polys s !! g with Some y => bool_decide (outer y = w) || bool_decide (parent x = Some (outer y)) | None => false end
    | None => false
    end) (map_to_list (wires s)).
Lemma whole_b_ok s : whole_b s = true -> whole s.
Proof.
  intros H w [q Hq]. unfold whole_b in H. rewrite forallb_forall in H. rewrite lookup_fmap in Hq. destruct (wires s !! w) as [x|] eqn:Ex; [|done].
  assert (I : In (w, x) (map_to_list (wires s))) by (by apply elem_of_list_In, elem_of_map_to_list).
  apply H in I. apply andb_true_iff in I as [U I]. split; [by eapply up_b_ok|]. destruct (w_poly x) as [g|] eqn:Eg; [|done]. destruct (polys s !! g) as [y|] eqn:Ey; [|done].
  exists g, (outer y). rewrite !lookup_fmap, Ex, Ey. cbn. rewrite Eg. split; [done|]. split; [done|].
  apply orb_true_iff in I as [I|I]; apply bool_decide_eq_true in I; [by left|right; by rewrite I].
Qed.
(** Test of [sane] (its second part); polygon.py lines 196-215. *)
Definition sane_b (s : st) (i : nat) : bool :=
  match wir s !! (i, true), wir s !! (i, false) with
  | Some a, Some b => bool_decide (a = b) || negb (k_wire plane s a b && k_wire plane s b a)
  | _, _ => true
  end.
Lemma sane_b_ok s i : sane_b s i = true -> sane plane s i.
Proof.
  intros H. split; [intros; by apply plane_geo|]. intros c a b A B D T. unfold sane_b in H. destruct c; cbn [negb] in B; rewrite A, B, bool_decide_false in H by congruence.
  - rewrite T in H. by apply negb_true_iff in H.
  - rewrite T, andb_true_r in H. by apply negb_true_iff in H.
Qed.
(** Test of [proper]; decomp.py lines 160-341. *)
Definition proper_b (s : st) (o : op) (r : nat) (s' : st) : bool :=
  match o with
  | NewSegment _ _ => sane_b s' r
  | DeleteSegment _ => whole_b s'
  | SplitSegment _ p => match points s !! p with Some x => is_free x | None => false end
  | JoinSegments p e n => bool_decide (vtx s !! (e, true) = Some p) && bool_decide (vtx s !! (n, false) = Some p) &&
      match vtx s !! (e, false), vtx s !! (n, true) with
      | Some a, Some b => bool_decide (p2s s !! (a, b) = None) && bool_decide (p2s s !! (b, a) = None)
      | _, _ => false
      end
  | _ => true
  end.
Lemma proper_b_ok s o r s' : proper_b s o r s' = true -> proper plane s o r s'.
Proof.
  destruct o as [v g|p|a b|e|e p|p v|p e n]; cbn; try done.
  - apply sane_b_ok.
  - intros H _. by apply whole_b_ok.
  - destruct (points s !! p) as [x|] eqn:E; [|done]. intros H. exists x. split; [done|]. unfold is_free in H. by destruct (p_seg x).
  - intros H. apply andb_true_iff in H as [H H3]. apply andb_true_iff in H as [H1 H2]. apply bool_decide_eq_true in H1, H2. split; [done|]. split; [done|].
    intros a b A B. rewrite A, B in H3. apply andb_true_iff in H3 as [H3 H4]. apply bool_decide_eq_true in H3, H4. done.
Qed.
(** Calls in the plane one after another, decomp.py lines 160-341; their results, and whether all were proper. *)
Fixpoint play (l : list op) (s : st) : option (bool * list nat * st) :=
  match l with
  | [] => Some (true, [], s)
  | o :: l =>
    match run plane o s with
    | (Ok r, s') => match play l s' with Some (b, rs, t) => Some (proper_b s o r s' && b, r :: rs, t) | None => None end
    | _ => None
    end
  end.
Lemma play_calls l s b rs t : calls plane s -> play l s = Some (b, rs, t) -> calls plane t.
Proof.
  revert s b rs. induction l as [|o l IH]; intros s b rs C H; cbn in H; [by injection H as <- <- <-|].
  destruct (run plane o s) as [[r| |] s'] eqn:E; try done. destruct (play l s') as [[[b' rs'] t']|] eqn:P; [|done]. injection H as <- <- <-.
  eapply IH; [|done]. by eapply calls_next.
Qed.
Lemma play_history l s rs t : history s -> play l s = Some (true, rs, t) -> history t.
Proof.
  revert s rs. induction l as [|o l IH]; intros s rs C H; cbn in H; [by injection H as <- <-|].
  destruct (run plane o s) as [[r| |] s'] eqn:E; try done. destruct (play l s') as [[[b' rs'] t']|] eqn:P; [|done]. injection H as B <- <-.
  apply andb_true_iff in B as [B ->]. eapply IH; [|done]. eapply hist_next; [done|done|]. by apply proper_b_ok.
Qed.
(** The state after calls that return, decomp.py lines 160-341. *)
Definition after (l : list op) : st := match play l init with Some (_, _, s) => s | None => init end.
(** All calls return and are proper. *)
Definition fine (l : list op) : bool := match play l init with Some (b, _, _) => b | None => false end.
Lemma fine_history l : fine l = true -> history (after l).
Proof.
  unfold fine, after. destruct (play l init) as [[[b rs] t]|] eqn:E; [|done]. intros ->. eapply play_history; [|exact E]. constructor.
Qed.
(** No segments are joined (decomp.py lines 285-341). *)
Definition no_join (l : list op) : bool := forallb (fun o => match o with JoinSegments _ _ _ => false | _ => true end) l.
Lemma play_plain l s rs t : no_join l = true -> plain s -> play l s = Some (true, rs, t) -> plain t.
Proof.
  revert s rs. induction l as [|o l IH]; intros s rs J C H; cbn in H; [by injection H as <- <-|].
  destruct (run plane o s) as [[r| |] s'] eqn:E; try done. destruct (play l s') as [[[b' rs'] t']|] eqn:P; [|done]. injection H as B <- <-.
  apply andb_true_iff in B as [B ->]. cbn in J. apply andb_true_iff in J as [J1 J2]. eapply IH; [exact J2| |done]. eapply plain_next; [done|done|by apply proper_b_ok|].
  intros p e n ->. done.
Qed.
Lemma fine_plain l : fine l = true -> no_join l = true -> plain (after l).
Proof.
  unfold fine, after. destruct (play l init) as [[[b rs] t]|] eqn:E; [|done]. intros -> J. eapply play_plain; [exact J| |exact E]. constructor.
Qed.
Lemma after_calls l : calls plane (after l).
Proof. unfold after. destruct (play l init) as [[[b rs] t]|] eqn:E; [|constructor]. eapply play_calls; [|exact E]. constructor. Qed.

(** Runs of decomp.py lines 160-247. Corners of a square with numbers 0-3, points 4 and 5 in it; its sides; a bridge 4 from corner 0 to point 4 and segment 5 on. *)
Definition corners : list op :=
  [AddPoint (0, 0)%Q 0; AddPoint (10, 0)%Q 0; AddPoint (10, 10)%Q 0; AddPoint (0, 10)%Q 0; AddPoint (3, 4)%Q 0; AddPoint (6, 5)%Q 0].
Definition square : list op := corners ++ [NewSegment 0 1; NewSegment 1 2; NewSegment 2 3; NewSegment 3 0].
Definition bridge : list op := square ++ [NewSegment 0 4; NewSegment 4 5].
(** A run of decomp.py lines 160-247: three points and the segments between them. *)
Definition triangle : list op := [AddPoint (0, 0)%Q 0; AddPoint (4, 1)%Q 0; AddPoint (1, 3)%Q 0; NewSegment 0 1; NewSegment 1 2; NewSegment 2 0].
(** A run of decomp.py lines 160-247: a closed line of four segments; the last, from point 2 to point 1, closes it. *)
Definition loop4 : list op :=
  [AddPoint (0, 0)%Q 0; AddPoint (4, 1)%Q 0; AddPoint (3, 5)%Q 0; AddPoint (0, 4)%Q 0; NewSegment 0 1; NewSegment 0 3; NewSegment 3 2; NewSegment 2 1].
