(** Runs of the editor in the plane, for examples. *)
From stdpp Require Import gmap list.
From Coq Require Import QArith.
From Verif Require Import Aabb_Model Aabb_Spec Decomp_Model Decomp_Spec Decomp_Plane Editor_Model Editor_Spec.
Local Open Scope nat_scope.

(** The end points of a segment (segment.py lines 13-20). *)
Definition ends_b (s : st) (g : nat) : option (vect * vect) :=
  a ← vtx s !! (g, false); b ← vtx s !! (g, true); x ← (xy <$> points s) !! a; y ← (xy <$> points s) !! b; Some (x, y).
Lemma ends_b_ok s g x y : ends s g x y -> ends_b s g = Some (x, y).
Proof. intros (a & b & A & B & X & Y). unfold ends_b. by rewrite A, B; cbn; rewrite X, Y. Qed.
(** Test of [between] (polygons.py lines 706-715). *)
Definition between_b (x y m : vect) : bool :=
  let t := if Qeq_bool (fst x) (fst y) then ((snd m - snd x) / (snd y - snd x))%Q else ((fst m - fst x) / (fst y - fst x))%Q in
  Qle_bool 0 t && Qle_bool t 1 && Qeq_bool (fst m) (fst x + t * (fst y - fst x)) && Qeq_bool (snd m) (snd x + t * (snd y - snd x)).
Lemma between_b_ok x y m : between_b x y m = true -> between x y m.
Proof.
  unfold between_b. cbv zeta. intros H. match type of H with context [Qle_bool 0 ?u] => set (t := u) in * end. apply andb_true_iff in H as [H H4]. apply andb_true_iff in H as [H H3]. apply andb_true_iff in H as [H1 H2].
  exists t. apply Qle_bool_iff in H1, H2. apply Qeq_bool_iff in H3, H4. done.
Qed.
(** Test of [covers] (aabb_lookup.py lines 15-26). *)
Definition covers_b (b : box) (m : Q) (p : pt) : bool :=
  Qle_bool (bx0 b + m) (fst p) && Qle_bool (fst p) (bx1 b - m) && Qle_bool (by0 b + m) (snd p) && Qle_bool (snd p) (by1 b - m).
Lemma covers_b_ok b m p : covers_b b m p = true <-> covers b m p.
Proof. unfold covers_b, covers. rewrite !andb_true_iff, !Qle_bool_iff. tauto. Qed.
(** Test of [eproper] (polygons.py lines 625-683). *)
Definition eproper_b (d : ed) (o : eop) (r : nat) (d' : ed) : bool :=
  match o with
  | EAddSegment _ _ => sane_b (dec d') r
  | ERmSegment _ => whole_b (dec d')
  | ESplit e mid => proper_b (dec d) (SplitSegment e mid) r (dec d') &&
      match ends_b (dec d) e, (xy <$> points (dec d)) !! mid with Some (x, y), Some m => between_b x y m | _, _ => false end
  | EJoin mid e n => proper_b (dec d) (JoinSegments mid e n) r (dec d') &&
      match ends_b (dec d) n, box_of (s_boxes d) e with Some (x, y), Some b => covers_b b (eff_margin (tolerance d)) y | _, _ => false end
  | _ => true
  end.
Lemma eproper_b_ok d o r d' : eproper_b d o r d' = true -> eproper plane d o r d'.
Proof.
  destruct o as [v g|a b|p|g|e mid|mid e n]; cbn [eproper eproper_b]; try done.
  - apply sane_b_ok.
  - intros H _. by apply whole_b_ok.
  - intros H. apply andb_true_iff in H as [H1 H2]. apply proper_b_ok in H1. split; [exact H1|]. intros x y m E M. apply ends_b_ok in E. rewrite E in H2.
    unfold vect in *. rewrite M in H2. by apply between_b_ok.
  - intros H. apply andb_true_iff in H as [H1 H2]. apply proper_b_ok in H1. split; [exact H1|]. intros x y b E M. apply ends_b_ok in E. rewrite E, M in H2. by apply covers_b_ok.
Qed.
(** Calls and undo one after another (polygons.py lines 625-683, undo.py lines 231-243); their results, and whether all were proper. *)
Inductive act := Call (o : eop) | Undo.
(** polygons.py lines 625-683, undo.py lines 231-243. *)
Fixpoint eplay (l : list act) (d : ed) : option (bool * list nat * ed) :=
  match l with
  | [] => Some (true, [], d)
  | Call o :: l =>
    match erun plane o d with
    | (Ok r, d') => match eplay l d' with Some (b, rs, t) => Some (eproper_b d o r d' && b, r :: rs, t) | None => None end
    | _ => None
    end
  | Undo :: l =>
    match stack d with
    | [] => None
    | u :: k => match op_of d u with
      | Some o => match erun plane o (set_stack k d) with
        | (Ok r, d') => match eplay l (set_stack k d') with Some (b, rs, t) => Some (eproper_b d o r d' && b, r :: rs, t) | None => None end
        | _ => None
        end
      | None => None
      end
    end
  end.
Lemma eplay_edits l d rs t : edits d -> eplay l d = Some (true, rs, t) -> edits t.
Proof.
  revert d rs. induction l as [|[o|] l IH]; intros d rs C H; cbn in H; [by injection H as <- <-| |].
  - destruct (erun plane o d) as [[r| |] s'] eqn:E; try done. destruct (eplay l s') as [[[b' rs'] t']|] eqn:P; [|done]. injection H as B <- <-.
    apply andb_true_iff in B as [B ->]. eapply IH; [|done]. eapply edits_call; [done|done|]. by apply eproper_b_ok.
  - destruct (stack d) as [|u k] eqn:S; [done|]. destruct (op_of d u) as [o|] eqn:O; [|done]. destruct (erun plane o (set_stack k d)) as [[r| |] s'] eqn:E; try done.
    destruct (eplay l (set_stack k s')) as [[[b' rs'] t']|] eqn:P; [|done]. injection H as B <- <-.
    apply andb_true_iff in B as [B ->]. eapply IH; [|done]. eapply edits_undo; [done|done|done|done|]. by apply eproper_b_ok.
Qed.
(** The state after calls that return (polygons.py lines 625-683). *)
Definition eafter (tol : Q) (l : list act) : ed := match eplay l (ed_init tol) with Some (_, _, s) => s | None => ed_init tol end.
(** All calls return and are proper. *)
Definition efine (tol : Q) (l : list act) : bool := match eplay l (ed_init tol) with Some (b, _, _) => b | None => false end.
Lemma efine_edits tol l : efine tol l = true -> edits (eafter tol l).
Proof. unfold efine, eafter. destruct (eplay l (ed_init tol)) as [[[b rs] t]|] eqn:E; [|done]. intros ->. eapply eplay_edits; [|exact E]. constructor. Qed.
Lemma ends_b_iff s g x y : ends_b s g = Some (x, y) -> ends s g x y.
Proof.
  unfold ends_b. destruct (vtx s !! (g, false)) as [a|] eqn:A; [|done]. destruct (vtx s !! (g, true)) as [b|] eqn:B; [|done]. cbn.
  destruct ((xy <$> points s) !! a) as [u|] eqn:X; [|done]. cbn. destruct ((xy <$> points s) !! b) as [v|] eqn:Y; [|done]. cbn. intros [= <- <-]. exists a, b. done.
Qed.
Lemma bare_segment d g x y b : ends_b (dec d) g = Some (x, y) -> box_of (s_boxes d) g = Some b -> covers_b b (eff_margin (tolerance d)) x && covers_b b (eff_margin (tolerance d)) y = false -> ~ covered d.
Proof.
  intros E B N [_ C]. apply ends_b_iff in E. destruct (C _ _ _ E) as (b' & B' & X & Y). assert (b' = b) as -> by congruence.
  apply covers_b_ok in X, Y. by rewrite X, Y in N.
Qed.
Lemma bare_point d p (v : vect) b : (xy <$> points (dec d)) !! p = Some v -> box_of (p_boxes d) p = Some b -> covers_b b (eff_margin (tolerance d)) v = false -> ~ covered d.
Proof. intros E B N [C _]. destruct (C _ _ E) as (b' & B' & X). assert (b' = b) as -> by congruence. apply covers_b_ok in X. by rewrite X in N. Qed.
Lemma split_pair {A B} (x : A * B) a : fst x = a -> x = (a, snd x).
Proof. destruct x. by intros <-. Qed.
Lemma other_vtx s s' h a b : vtx s !! h = Some a -> vtx s' !! h = Some b -> a <> b -> ~ same_plan s s'.
Proof. intros A B D (_ & E & _). rewrite E in A. congruence. Qed.
Lemma no_vec s s' g : is_Some (vec s !! g) -> vec s' !! g = None -> ~ same_plan s s'.
Proof. intros A B (_ & _ & E & _). rewrite E, B in A. by destruct A. Qed.

(** Runs of polygons.py lines 625-683. A square of side 10 with a point on its lower side; a segment with a point beside its start; a line split, and other edits. *)
Definition frame : list act := Call <$> [EAddPoint (0, 0)%Q 0; EAddPoint (10, 0)%Q 0; EAddPoint (10, 10)%Q 0; EAddPoint (0, 10)%Q 0; EAddPoint (4, 0)%Q 0;
  EAddSegment 0 1; EAddSegment 1 2; EAddSegment 2 3; EAddSegment 3 0].
Definition line2 : list act := Call <$> [EAddPoint (0, 0)%Q 0; EAddPoint (1, 0)%Q 0; EAddPoint (10, 0)%Q 0; EAddSegment 1 2].
Definition split_frame : list act := frame ++ [Call (ESplit 0 4)].
Definition long_run : list act := split_frame ++ [Call (ERmSegment 2); Undo; Call (EAddPoint (5, 5)%Q 1); Call (EAddSegment 5 0); Undo].
