(** Property C117 (the answer about changes of polygons). *)
From stdpp Require Import gmap list relations.
From Coq Require Import Lia QArith.
From Verif Require Import Decomp_Model Decomp_Spec Decomp_Perm Decomp_Surgery Decomp_Eff Decomp_Tree Decomp_Inv Decomp_Add Decomp_Join Decomp_Split
  Decomp_Del Decomp_Cut Decomp_Merge Decomp_Mid Decomp_Planar Decomp_Nest Decomp_Good Decomp_Hist Decomp_Told Decomp_Plane Decomp_Props Report_Model.
Local Open Scope nat_scope.

(** The answer agrees with the ids of polygons before and after, and with the polygons l and r beside the segment. *)
Definition right_answer (a : answer) (old new : gset nat) (l r : option nat) : Prop :=
  match a with
  | ANone => new = old
  | AShape gs => new = old /\ exists g, gs = [g] /\ g ∈ new /\ l = Some g /\ r = Some g
  | AIds k g n =>
    match k with
    | KAdd | KSplit => g ∈ old /\ n ∉ old /\ new = old ∪ {[n]}
    | KRemove | KJoin => g ∈ new /\ n ∉ new /\ old = new ∪ {[n]}
    end /\ ((l = Some g /\ r = Some n) \/ (l = Some n /\ r = Some g))
  end.
Lemma poly_at_live s h g : good s -> poly_at s h = Some g -> g ∈ (dom (polys s) : gset nat).
Proof.
  intros G P. unfold poly_at in P. destruct (wir s !! h) as [w|]; [|done]. cbn in P. destruct (wires s !! w) as [x|] eqn:E; [|done]. cbn in P.
  rewrite dom_outer. apply elem_of_dom. apply (proj2 (good_tree _ G) w g). by rewrite lookup_fmap, E; cbn; rewrite P.
Qed.
(** From the report: it remains to know the polygon of a changed shape. *)
Lemma answer_told s old new l r : told (last_change s) old new l r -> (forall g, last_change s = CShape g -> exists n, g = Some n /\ l = Some n /\ n ∈ new) ->
  exists an, get_last_polygon_changes s = Some an /\ right_answer an old new l r.
Proof.
  unfold get_last_polygon_changes. intros T H. destruct (last_change s) as [|g|g n|g n|g n|g n]; cbn in T.
  - eexists. split; [reflexivity|]. done.
  - destruct (H g eq_refl) as (n & -> & L & I). eexists. split; [reflexivity|]. destruct T as [T1 T2]. cbn. split; [done|]. exists n. split; [done|]. split; [done|]. split; [done|]. congruence.
  - eexists. split; [reflexivity|]. cbn. tauto.
  - eexists. split; [reflexivity|]. cbn. tauto.
  - eexists. split; [reflexivity|]. cbn. tauto.
  - eexists. split; [reflexivity|]. cbn. tauto.
Qed.

(** * C117 *)
Theorem C117_delete K e s u s' : history s -> delete_segment K e s = (Ok u, s') ->
  exists an, get_last_polygon_changes s' = Some an /\ right_answer an (dom (polys s)) (dom (polys s')) (poly_at s (e, true)) (poly_at s (e, false)).
Proof.
  intros HS H. apply answer_told; [by eapply C21_delete|]. intros c CE. apply history_good in HS as G. assert (T := told_delete _ _ _ _ _ G H). rewrite CE in T. destruct T as [TD _]. rewrite TD.
  assert (X : exists n, c = Some n /\ poly_at s (e, true) = Some n); [|destruct X as (n & -> & P); exists n; split; [done|]; split; [done|]; by eapply poly_at_live].
  assert (G0 := good_change CNone _ G). destruct (delete_segment_cases _ _ _ _ _ H) as [[N C]|[(tip & N1 & N2 & C)|(N1 & N2 & [[Dw C]|[Dw C]])]].
  - exfalso. destruct (rm_wire_op_eff _ _ _ _ (g_inv _ G0) C) as (_ & w & gp & q & a & b & _ & _ & _ & _ & _ & _ & _ & _ & _ & _ & _ & _ & _ & _ & _ & _ & _ & _ & _ & _ & _ & _ & _ & _ & E). rewrite CE in E. done.
  - destruct (rm_dendrite_eff _ _ _ _ _ (g_inv _ G0) N1 N2 C) as (_ & w & gp & m & k & pt & pr & sg1 & _ & _ & Wt & Wf & Lw & _ & _ & _ & _ & _ & _ & _ & _ & _ & _ & _ & _ & _ & _ & _ & _ & _ & _ & _ & E).
    rewrite CE in E. injection E as ->. exists gp. split; [done|]. by eapply poly_at_some.
  - destruct (split_wire_eff _ _ _ _ _ (g_inv _ G0) N1 N2 C) as (_ & wa & wb & gp & m0 & m1 & ka & kb & a & b & Wt & Wf & _ & Lw & _ & _ & _ & _ & _ & _ & _ & _ & _ & _ & _ & _ & _ & _ & _ & _ & _ & _ & _ & _ & E & _).
    rewrite CE in E. injection E as ->. exists gp. split; [done|]. by eapply poly_at_some.
  - exfalso. destruct (join_poly_eff _ _ _ _ (g_inv _ G0) (good_nested _ G0 e) N1 N2 Dw C) as (_ & keep & rm & kp & n & m0 & m1 & ka & kb & a & b & xrm & Sd & _ & Lk & Lr & Dkn & On & HO & _ & _ & _ & _ & _ & _ & _ & _ & _ & _ & _ & _ & _ & _ & _ & _ & _ & _ & _ & _ & _ & _ & Ca & _).
    rewrite CE in Ca. destruct Ca as [(? & _)|(? & _)]; done.
Qed.
Print Assumptions C117_delete.

(** New segments: the shape reported is the one of the free end, where it was recorded. *)
Theorem C117_new K a b s i s' : history s -> sane K s' i -> new_segment K a b s = (Ok i, s') ->
  (forall p x, p = a \/ p = b -> points s !! p = Some x -> p_seg x = None -> forall w, poly_at s' (i, true) = Some w -> p_poly x = Some w) ->
  exists an, get_last_polygon_changes s' = Some an /\ right_answer an (dom (polys s)) (dom (polys s')) (poly_at s' (i, true)) (poly_at s' (i, false)).
Proof.
  intros HS SK H FR. assert (HS' : history s') by (apply (hist_next K (NewSegment a b) s i s' HS); [exact H|exact SK]). apply history_good in HS' as G'.
  apply answer_told; [by eapply C21_new|]. intros c CE. apply history_good in HS as G.
  assert (X : exists n, c = Some n /\ poly_at s' (i, true) = Some n); [|destruct X as (n & -> & P); exists n; split; [done|]; split; [done|]; by eapply poly_at_live].
  assert (G0 := good_change CNone _ G). destruct (new_segment_cases _ _ _ _ _ _ (g_inv _ G) H) as [D [[_ ->]|(E1 & E2 & C)]]; [done|].
  destruct C as [(g & A & B & C)|[(pv & nx & w & root & A & B & C)|(pa & na & wa & pb & nb & wb & A & B & [[Dw C]|[Dw C]])]].
  - exfalso. destruct (new_wire_op_eff _ _ _ _ _ _ (g_inv _ G0) A B E1 E2 C) as (_ & w & q & _ & _ & _ & _ & _ & HO & _ & _ & _ & _ & _ & _ & _ & _ & E & _). rewrite CE in E. done.
  - destruct (add_dendrite_eff _ _ _ _ _ _ _ _ _ (g_inv _ G0) A B E1 E2 C) as (_ & Hw & HO & _ & _ & _ & _ & _ & HW & _ & (x & Ex & E) & _). rewrite CE in E. injection E as ->.
    assert (WT : wir s' !! (i, true) = Some w) by (rewrite HW; apply both_t). destruct (good_side _ _ _ G' WT) as (gl & _ & Ll & _). exists gl. assert (P := poly_at_some _ _ _ _ WT Ll). split; [|done].
    apply (FR (if root then a else b) x); [destruct root; tauto|exact Ex| |exact P]. rewrite lookup_fmap in A. change (points (set_change CNone s)) with (points s) in Ex. rewrite Ex in A. cbn in A. congruence.
  - exfalso. destruct (split_poly_sides _ _ _ _ _ _ _ _ _ _ _ _ G0 SK A B E1 E2 C) as (g & n & Fn & Ig & HO & _ & [(E & L & R)|(E & LR)]); rewrite CE in E; done.
  - destruct (join_wires_eff _ _ _ _ _ _ _ _ _ _ _ (g_inv _ G0) A B E1 E2 C) as (_ & g & o & side & keep & rm & up' & xrm & _ & La & Lb & Ho & _ & Kp & Rm & _ & _ & _ & _ & _ & HP & _ & _ & _ & _ & _ & _ & HW & _ & _ & E & _).
    rewrite CE in E. injection E as ->. exists g. split; [done|]. eapply poly_at_some; [apply HW|]. rewrite HP. subst keep rm. destruct (default true side); rewrite lookup_delete_ne; done.
Qed.
Print Assumptions C117_new.
(** An inner point recorded in the polygon outside: the answer names that polygon, which is not beside the segment. *)
Definition elsewhere : list op := triangle ++ [AddPoint (5 # 3, 4 # 3)%Q 0; NewSegment 0 3].
Theorem C117_recorded_refuted : history (after elsewhere) /\ get_last_polygon_changes (after elsewhere) = Some (AShape [0]) /\ poly_at (after elsewhere) (3, true) = Some 1 /\ poly_at (after elsewhere) (3, false) = Some 1.
Proof. split; [apply fine_history; vm_compute; reflexivity|]. repeat split; vm_compute; reflexivity. Qed.
Print Assumptions C117_recorded_refuted.
(** The same with the point recorded in the polygon inside; then the segment is deleted, and a side of the triangle. *)
Definition inside : list op := triangle ++ [AddPoint (5 # 3, 4 # 3)%Q 1; NewSegment 0 3].
Example C117_case : history (after inside) /\ get_last_polygon_changes (after inside) = Some (AShape [1]) /\ poly_at (after inside) (3, true) = Some 1 /\
  get_last_polygon_changes (after (inside ++ [DeleteSegment 3])) = Some (AShape [1]) /\ get_last_polygon_changes (after (inside ++ [DeleteSegment 1])) = Some (AIds KRemove 0 1).
Proof. split; [apply fine_history; vm_compute; reflexivity|]. repeat split; vm_compute; reflexivity. Qed.
