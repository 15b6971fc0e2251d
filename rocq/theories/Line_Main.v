(** What adding a line does, if it keeps away from vertices. *)
From stdpp Require Import gmap list.
From Coq Require Import Lia QArith Lqa Qminmax Sorting.Sorted.
From Verif Require Import Decomp_Model Decomp_Spec Decomp_Surgery Decomp_Eff Decomp_Inv Decomp_Good Decomp_Mid Decomp_Hist Editor_Model Editor_Spec Editor_Proofs Editor_Undo.
From Verif Require Import Aabb_Model Aabb_Spec Aabb_Proofs Editor_Box Geom_Model Snap_Model Snap_Spec Snap_Proofs Snap_Cand Snap_Main Snap_Add Snap_Split Line_Model Line_Spec Line_Geo Line_Cut Line_Run Line_Segs.
Local Open Scope nat_scope.

Lemma sorted_nodup (l : list nat) : StronglySorted lt l -> NoDup l.
Proof.
  induction 1 as [|x l S IH F]; constructor; [|done]. intros E. rewrite List.Forall_forall in F. apply elem_of_list_In in E. specialize (F _ E). lia.
Qed.
Lemma candidates_nodup t q : NoDup (intersect_candidates t q).
Proof. apply sorted_nodup, where_sorted. Qed.
Lemma around_inv xa xb d l d' : around xa xb d = (Ok l, d') -> d' = d /\ NoDup l /\ (einv d -> forall g x y z, ends (dec d) g x y -> between x y z -> between xa xb z -> g ∈ l).
Proof.
  unfold around. destruct (make_aabb_l [xa; xb] (tolerance d)) as (q & E & CV & _); [done|]. rewrite E. intros H. injection H as <- <-. split; [done|]. split; [apply candidates_nodup|].
  intros I g x y z G Z W. apply elem_of_list_In. refine (seg_found _ _ _ _ _ _ I G Z _). eapply covers_in; [apply marg_nonneg|]. refine (covers_between _ _ _ _ _ (CV xa _) (CV xb _) W); [by left|right; by left].
Qed.
Lemma seg_ends_inv l : forall d ps d', seg_ends l d = (Ok ps, d') -> d' = d /\ (forall g, g ∈ l -> is_Some (vtx (dec d) !! (g, false))) /\ forall p, In p ps -> exists g c, vtx (dec d) !! (g, c) = Some p.
Proof.
  induction l as [|g l IH]; intros d ps d' H; cbn [seg_ends] in H.
  - apply eret_inv in H as [-> ->]. split; [done|]. split; [intros g G; by apply elem_of_nil in G|]. intros p [].
  - unfold end_at in H. apply ebind_inv in H as (p & d1 & H1 & H). apply item_inv in H1 as [-> E1]. apply ebind_inv in H as (q & d1 & H1 & H). apply item_inv in H1 as [-> E2].
    apply ebind_inv in H as (r & d1 & H1 & H). apply eret_inv in H as [-> ->]. destruct (IH _ _ _ H1) as (-> & A & B). split; [done|]. split.
    + intros h G. apply elem_of_cons in G as [-> | G]; [eauto|by apply A].
    + intros k [<- | [<- | K]]; [eauto|eauto|by apply B].
Qed.
Lemma clamp01 t : (0 <= Qmin (Qmax t 0) 1 <= 1)%Q.
Proof. split; [apply Q.min_glb; [apply Q.le_max_r|lra]|apply Q.le_min_r]. Qed.
Lemma first_near_some tol xa xb s l p : first_near tol xa xb l s = Ok (Some p) -> In p l /\ exists v z, is_at s p v /\ between xa xb z /\ near v z tol.
Proof.
  induction l as [|k l IH]; cbn [first_near]; [done|]. destruct (points s !! k) as [x|] eqn:E; [|done]. destruct (project _ _ _) as [t|] eqn:PR; [|done].
  destruct (below _ tol) eqn:B; [|intros H; destruct (IH H) as [A C]; split; [by right|done]]. intros H. injection H as <-. split; [by left|]. exists (xy x), (parametric (vminus xb xa) xa t).
  split; [unfold is_at; by rewrite lookup_fmap, E|]. split; [|by apply below_near]. unfold project in PR. destruct (Qeq_bool _ _); [done|]. injection PR as <-. apply between_along. eexists. split; [apply clamp01|]. by apply param_same.
Qed.
Lemma unomitted omit p l : In p (List.filter (fun p => negb (existsb (Nat.eqb p) omit)) l) -> In p l /\ ~ In p omit.
Proof.
  intros H. apply List.filter_In in H as [A B]. split; [done|]. intros C. apply negb_true_iff in B. assert (T : existsb (Nat.eqb p) omit = true); [|congruence]. apply existsb_exists. exists p. split; [done|apply Nat.eqb_refl].
Qed.

Section Main.
Context (K : geometry) (can : ed -> nat -> vect -> bool) (order : list nat -> list nat) (OR : forall l p, In p (order l) -> In p l).
Context (d : ed) (a b : nat) (xa xb : vect).
Context (ED : edits d) (P : (0 < tolerance d)%Q) (V : vec_ok (dec d)) (A : is_at (dec d) a xa) (B : is_at (dec d) b xb) (AB : a <> b) (C : clean d a b xa xb).
Context (n : nat) (omit : list nat) (Oa : In a omit) (Ob : In b omit).

(** The dictionary and the ends of the line. *)
Definition brk (div : list (Q * nat)) : list (Q * nat) := (0%Q, a) :: div ++ [(1%Q, b)].
Lemma cut_eq d1 cs c c' : after_cuts d d1 cs -> In c cs -> In c' cs -> c_g c = c_g c' -> c = c'.
Proof.
  intros AC H H' E. apply elem_of_list_In, elem_of_list_lookup in H as [i Hi]. apply elem_of_list_In, elem_of_list_lookup in H' as [j Hj].
  assert (i = j); [|congruence]. eapply (NoDup_lookup (c_g <$> cs)); [apply (ac_g _ _ _ AC)|rewrite list_lookup_fmap, Hi; reflexivity|rewrite list_lookup_fmap, Hj, E; reflexivity].
Qed.
Lemma spaced_mid d1 cs div : after_cuts d d1 cs -> cuts_here d xa xb cs -> forall c, In c cs -> ordered ((c_p c, c_m c) :: div) -> (forall t m, In (t, m) div -> exists c', In c' cs /\ t = c_p c' /\ m = c_m c') -> spaced d1 (c_m c) div b.
Proof.
  intros AC CH. induction div as [|[t m] r IH]; intros c IC O LI; cbn.
  - intros E. assert (N := ac_newp _ _ _ AC c IC). rewrite E in N. unfold is_at in B. unfold vect in *. congruence.
  - destruct (LI t m) as (c' & IC' & -> & ->); [by left|]. destruct O as [O1 O2]. assert (LT := O1 _ (or_introl eq_refl)). cbn in LT.
    assert (NG : c_g c <> c_g c'). { intros E. rewrite (cut_eq d1 cs c c' AC IC IC' E) in LT. lra. }
    assert (NM : c_m c <> c_m c'). { intros E. apply NG. apply elem_of_list_In, elem_of_list_lookup in IC as [i Hi]. apply elem_of_list_In, elem_of_list_lookup in IC' as [j Hj].
      assert (i = j); [|congruence]. eapply (NoDup_lookup (c_m <$> cs)); [apply (ac_m _ _ _ AC)|rewrite list_lookup_fmap, Hi; reflexivity|rewrite list_lookup_fmap, Hj, E; reflexivity]. }
    split; [done|]. split; [|apply IH; [done|done|intros; apply LI; by right]].
    intros x y X Y N. rewrite (ac_tol _ _ _ AC) in N. assert (XC : is_at (dec d1) (c_m c) (c_w c)) by (apply (ac_pts _ _ _ AC); right; eauto). assert (YC : is_at (dec d1) (c_m c') (c_w c')) by (apply (ac_pts _ _ _ AC); right; eauto).
    rewrite (at_fun _ _ _ _ X XC), (at_fun _ _ _ _ Y YC) in N. apply NG.
    destruct (CH c IC) as (x1 & y1 & t1 & E1 & S1 & W1). destruct (CH c' IC') as (x2 & y2 & t2 & E2 & S2 & W2).
    eapply (l_apart _ _ _ _ _ C); [|  |exact N].
    + exact (proj1 (isec_crosses d a b xa xb P A B C _ _ _ _ _ _ E1 S1 W1)).
    + exact (proj1 (isec_crosses d a b xa xb P A B C _ _ _ _ _ _ E2 S2 W2)).
Qed.
Lemma spaced_all d1 cs div : after_cuts d d1 cs -> cuts_here d xa xb cs -> listed div cs -> spaced d1 a div b.
Proof.
  intros AC CH [O LI]. destruct div as [|[t m] r]; cbn; [done|]. destruct (proj1 (LI t m)) as (c & IC & -> & ->); [by left|]. split; [|split].
  - intros E. assert (N := ac_newp _ _ _ AC c IC). rewrite <- E in N. unfold is_at in A. unfold vect in *. congruence.
  - intros x y X Y N. rewrite (ac_tol _ _ _ AC) in N. assert (XC : is_at (dec d1) a xa) by (apply (ac_pts _ _ _ AC); by left). assert (YC : is_at (dec d1) (c_m c) (c_w c)) by (apply (ac_pts _ _ _ AC); right; eauto).
    rewrite (at_fun _ _ _ _ X XC), (at_fun _ _ _ _ Y YC) in N. destruct (CH c IC) as (x1 & y1 & t1 & E1 & S1 & W1).
    destruct (isec_crosses d a b xa xb P A B C _ _ _ _ _ _ E1 S1 W1) as (_ & _ & _ & NA & _). done.
  - eapply spaced_mid; [exact AC|exact CH|done|done|]. intros t m I. apply LI. by right.
Qed.
(** The whole call. *)
Lemma line_plan l d' : line_for_points K can order n omit a b d = (Ok l, d') -> exists d1 cs div, after_cuts d d1 cs /\ cuts_here d xa xb cs /\ listed div cs /\
  (forall g x y z, g ∉ c_g <$> cs -> ends (dec d) g x y -> between x y z -> between xa xb z -> seg_intersection (vminus y x) x xa xb = None) /\
  inv (dec d') /\ tolerance d' = tolerance d /\ extends (dec d1) (dec d') /\ walk (dec d') (brk div) l /\ forall g, is_Some (vec (dec d') !! g) -> is_Some (vec (dec d1) !! g) \/ g ∈ l.
Proof.
  intros H. destruct n as [|n0]; [done|]. cbn [line_for_points] in H. destruct (Nat.eqb_spec a b) as [E|_]; [done|].
  apply ebind_inv in H as (xa' & d2 & H1 & H). apply xy_at_at in H1 as [-> A']. rewrite (at_fun _ _ _ _ A' A) in *. apply ebind_inv in H as (xb' & d2 & H1 & H). apply xy_at_at in H1 as [-> B']. rewrite (at_fun _ _ _ _ B' B) in *.
  apply ebind_inv in H as (l0 & d2 & H0 & H). assert (H0' := H0). apply around_inv in H0' as (-> & _ & _). apply ebind_inv in H as (ps & d2 & H1 & H). destruct (seg_ends_inv _ _ _ _ H1) as (-> & LV & HP).
  destruct (first_near _ _ _ _ _) as [[p|]| |] eqn:FN; [| |done|done].
  { exfalso. apply first_near_some in FN as (IP & v & z & AP & Z & NZ). apply OR, unomitted in IP as [IP NO]. destruct (HP p IP) as (g & c & G).
    apply (l_vertex _ _ _ _ _ C g c p v z G); [by intros -> |by intros -> |done|done|done]. }
  apply ebind_inv in H as (div & d1 & H2 & H). unfold line_isecs in H2.
  apply ebind_inv in H2 as (xa'' & d2 & H3 & H2). apply xy_at_at in H3 as [-> A'']. rewrite (at_fun _ _ _ _ A'' A) in *. apply ebind_inv in H2 as (xb'' & d2 & H3 & H2). apply xy_at_at in H3 as [-> B'']. rewrite (at_fun _ _ _ _ B'' B) in *.
  apply ebind_inv in H2 as (l1 & d2 & H3 & H2). assert (I := edits_einv _ ED). assert (I0 := g_inv _ (e_good _ I)). destruct (around_inv _ _ _ _ _ H3) as (-> & ND & FO).
  assert (AL : forall g, g ∈ l1 -> is_Some (vec (dec d) !! g)). { intros g G. rewrite H3 in H0. injection H0 as ->. apply (i_vec _ I0). by apply LV. }
  destruct (cut_run K d a b xa xb ED P V A B C l1 [] d div d1 []) as (cs & AC & CH & LD & _ & NO); [by apply cuts_none|done| | | |done|].
  { intros g G. split; [by apply AL|]. cbn. apply not_elem_of_nil. }
  { intros c []. }
  { split; [done|]. intros t m. split; [intros []|intros (c & [] & _)]. }
  assert (I1 := g_inv _ (e_good _ (edits_einv _ (ac_edits _ _ _ AC)))).
  destruct (segs_run K can b div 0%Q a d1 l d' I1 (spaced_all _ _ _ AC CH LD) H) as (I' & T' & X' & W & L). exists d1, cs, div. split; [done|]. split; [done|]. split; [done|]. split; [|split; [done|]; split; [|done]].
  - intros g x y z Ng G Z1 Z2. eapply NO; [|done|done]. by eapply FO.
  - rewrite T'. apply (ac_tol _ _ _ AC).
Qed.
End Main.
