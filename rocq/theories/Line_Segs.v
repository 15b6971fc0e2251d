(** The segments of the new line. *)
From stdpp Require Import gmap list.
From Coq Require Import Lia QArith Lqa.
From Verif Require Import Decomp_Model Decomp_Spec Decomp_Surgery Decomp_Eff Decomp_Inv Decomp_Add Decomp_Join Decomp_Split Decomp_Cut Decomp_Good Decomp_Mid Decomp_Hist Editor_Model Editor_Spec Editor_Proofs Editor_Undo.
From Verif Require Import Aabb_Model Aabb_Spec Editor_Box Snap_Model Snap_Spec Snap_Proofs Snap_Cand Line_Model Line_Spec Line_Geo Line_Cut Line_Run.
Local Open Scope nat_scope.

Lemma new_plan_inv K a b s i s' : inv s -> new_segment K a b s = (Ok i, s') -> inv s' /\ a <> b /\ xy_of s' = xy_of s /\
  (((p2s s !! (a, b) = Some i \/ p2s s !! (b, a) = Some i) /\ s' = set_change CNone s) \/
   (vec s !! i = None /\ vtx s' = both (vtx s) i a b /\ exists y, vec s' = <[i := y]> (vec s))).
Proof.
  intros I H. assert (I0 := inv_change CNone _ I).
  destruct (new_segment_cases _ _ _ _ _ _ I H) as [D [[E ->]|(E1 & E2 & C)]].
  { split; [done|]. split; [done|]. split; [done|]. by left. }
  destruct C as [(g & A & B & C)|[(pv & nx & w & root & A & B & C)|(pa & na & wa & pb & nb & wb & A & B & [[Dw C]|[Dw C]])]].
  - destruct (new_wire_op_eff _ _ _ _ _ _ I0 A B E1 E2 C) as (I' & w & q & _ & _ & _ & _ & _ & _ & _ & _ & Fi & HV & HX & _ & _ & _ & _ & (x & y & _ & _ & Hv) & Hp).
    split; [exact I'|]. split; [done|]. split; [done|]. right. split; [done|]. split; [done|]. eauto.
  - destruct (add_dendrite_eff _ _ _ _ _ _ _ _ _ I0 A B E1 E2 C) as (I' & _ & _ & _ & Fi & HV & HX & _ & _ & _ & _ & (x & y & _ & _ & Hv) & Hp).
    split; [exact I'|]. split; [done|]. split; [done|]. right. split; [done|]. split; [done|]. eauto.
  - destruct (split_poly_eff _ _ _ _ _ _ _ _ _ _ _ _ I0 A B E1 E2 C) as (I' & left & n & g & o & q0 & on & sel & par1 & pol1 & _ & _ & _ & _ & _ & _ & _ & _ & _ & Fi & HV & HX & _ & _ & _ & _ & _ & _ & (x & y & _ & _ & Hv) & Hp & _).
    split; [exact I'|]. split; [done|]. split; [done|]. right. split; [done|]. split; [done|]. eauto.
  - destruct (join_wires_eff _ _ _ _ _ _ _ _ _ _ _ I0 A B E1 E2 C) as (I' & g & o & side & keep & rm & up' & xrm & _ & _ & _ & _ & _ & _ & _ & _ & _ & _ & _ & _ & _ & _ & _ & Fi & HV & HX & _ & _ & _ & _ & _ & (x & y & _ & _ & Hv) & Hp).
    split; [exact I'|]. split; [done|]. split; [done|]. right. split; [done|]. split; [done|]. eauto.
Qed.
(** One segment. *)
Definition extends (s s' : st) : Prop := (forall p v, is_at s' p v <-> is_at s p v) /\ (forall g c, is_Some (vec s !! g) -> vtx s' !! (g, c) = vtx s !! (g, c)) /\ (forall g, is_Some (vec s !! g) -> is_Some (vec s' !! g)).
Lemma extends_refl s : extends s s.
Proof. split; [done|]. split; done. Qed.
Lemma extends_trans s s1 s2 : extends s s1 -> extends s1 s2 -> extends s s2.
Proof.
  intros (A & B & C) (A' & B' & C'). split; [|split].
  - intros p v. rewrite A', A. done.
  - intros g c L. rewrite B' by auto. by apply B.
  - auto.
Qed.
Lemma joins_extends s s' g p q : inv s -> extends s s' -> joins s g p q -> joins s' g p q.
Proof. intros I (_ & B & _) J. assert (L : is_Some (vec s !! g)) by (apply (i_vec _ I); destruct J as [[J _]|[J _]]; eauto). unfold joins in *. rewrite !B by done. done. Qed.
Lemma add_segment_plan K a b d g d' : inv (dec d) -> Editor_Model.add_segment K a b d = (Ok g, d') ->
  inv (dec d') /\ a <> b /\ tolerance d' = tolerance d /\ extends (dec d) (dec d') /\ joins (dec d') g a b /\ forall h, is_Some (vec (dec d') !! h) -> is_Some (vec (dec d) !! h) \/ h = g.
Proof.
  intros I H. apply add_segment_inv in H as (s & x & y & bx & t & H & X & Y & B & T & ->). cbn [dec tolerance].
  destruct (new_plan_inv _ _ _ _ _ _ I H) as (I' & D & HX & C). split; [done|]. split; [done|]. split; [done|].
  assert (PT : forall p v, is_at s p v <-> is_at (dec d) p v). { intros p v. unfold is_at. change (xy_of s !! p = Some v <-> xy_of (dec d) !! p = Some v). by rewrite HX. }
  destruct C as [[E ->]|(Fi & HV & y0 & Hv)].
  - split; [by split|]. split; [|by left]. destruct (i_pair _ I) as [J1 _]. destruct E as [E|E]; apply J1 in E as [E1 E2]; [by left|by right].
  - assert (NE : forall h, is_Some (vec (dec d) !! h) -> h <> g) by (intros h L ->; rewrite Fi in L; by destruct L). split; [split; [done|split]|split].
    + intros h c L. rewrite HV. unfold both. rewrite !lookup_insert_ne by (intros Z; injection Z; intros; by apply (NE h)). done.
    + intros h L. rewrite Hv, lookup_insert_ne; [done|]. intros <-. by apply (NE g).
    + left. rewrite HV. by rewrite both_f, both_t.
    + intros h. rewrite Hv. destruct (decide (h = g)) as [-> | D']; [by right|]. rewrite lookup_insert_ne by done. by left.
Qed.
(** Places where the line is divided, with their points; segments between them. *)
Fixpoint walk (s : st) (brk : list (Q * nat)) (l : list nat) : Prop :=
  match brk with
  | (_, p) :: (((_, r) :: _) as k) => match l with g :: l => joins s g p r /\ walk s k l | [] => False end
  | _ => l = []
  end.
Lemma walk_two s t p u r k l : walk s ((t, p) :: (u, r) :: k) l <-> exists g l', l = g :: l' /\ joins s g p r /\ walk s ((u, r) :: k) l'.
Proof.
  split.
  - intros H. destruct l as [|g l]; [done|]. exists g, l. split; [done|]. exact H.
  - intros (g & l' & -> & H). exact H.
Qed.
Lemma walk_extends s s' : inv s -> extends s s' -> forall brk l, walk s brk l -> walk s' brk l.
Proof.
  intros I X. induction brk as [|[t p] [|[u r] k] IH]; intros l W; [done|done|]. apply walk_two in W as (g & l' & -> & J & W). apply walk_two. exists g, l'. split; [done|]. split; [by eapply joins_extends|]. by apply IH.
Qed.
(** Neighbouring points are different, and the tolerance apart. *)
Fixpoint spaced (d : ed) (start : nat) (div : list (Q * nat)) (b : nat) : Prop :=
  match div with
  | [] => start <> b
  | (_, m) :: r => start <> m /\ (forall x y, is_at (dec d) start x -> is_at (dec d) m y -> ~ near x y (tolerance d)) /\ spaced d m r b
  end.
Lemma spaced_ext d d' : extends (dec d) (dec d') -> tolerance d' = tolerance d -> forall div p b, spaced d p div b -> spaced d' p div b.
Proof.
  intros (PT & _) T. induction div as [|[t m] r IH]; intros p b H; cbn in *; [done|]. destruct H as (A & B & C). split; [done|]. split; [|by apply IH]. intros x y X Y. rewrite T. apply B; by apply PT.
Qed.
Lemma below_near x y tol : below (norm2 (vminus x y)) tol = true -> near x y tol.
Proof.
  unfold below. rewrite andb_true_iff, !not_le. intros [A B]. unfold near. assert (E : (dist2 x y == norm2 (vminus x y))%Q) by (unfold dist2, norm2, dot, vminus; cbn; ring). by rewrite E.
Qed.
Lemma xy_at_at p d v d' : xy_at p d = (Ok v, d') -> d' = d /\ is_at (dec d) p v.
Proof. unfold xy_at. intros H. apply item_inv in H as [-> E]. split; [done|]. unfold is_at. by rewrite lookup_fmap. Qed.
Lemma segs_run K can b div : forall t start d1 l d2, inv (dec d1) -> spaced d1 start div b -> new_segs K can start b div d1 = (Ok l, d2) ->
  inv (dec d2) /\ tolerance d2 = tolerance d1 /\ extends (dec d1) (dec d2) /\ walk (dec d2) ((t, start) :: div ++ [(1%Q, b)]) l /\ forall g, is_Some (vec (dec d2) !! g) -> is_Some (vec (dec d1) !! g) \/ g ∈ l.
Proof.
  induction div as [|[u m] r IH]; intros t start d1 l d2 I SP H; cbn [new_segs] in H.
  - cbn in SP. destruct (Nat.eqb_spec start b) as [E|_]; [done|]. apply ebind_inv in H as (g & d3 & H1 & H). apply eret_inv in H as [-> ->].
    destruct (add_segment_plan _ _ _ _ _ _ I H1) as (I' & D & T & X & J & L). split; [done|]. split; [done|]. split; [done|]. split; [|intros h Lh; destruct (L h Lh) as [? | ->]; [by left|right; apply elem_of_cons; by left]].
    apply (walk_two _ t start 1%Q b []). exists g, []. done.
  - destruct SP as (D & N & SP). destruct (Nat.eqb_spec start m) as [E|_]; [done|]. apply ebind_inv in H as (x & d3 & H1 & H). apply xy_at_at in H1 as [-> AX]. apply ebind_inv in H as (y & d3 & H1 & H). apply xy_at_at in H1 as [-> AY].
    destruct (below (norm2 (vminus x y)) (tolerance d1)) eqn:B; [exfalso; apply below_near in B; by eapply N|].
    apply ebind_inv in H as (g & d3 & H1 & H). apply ebind_inv in H as (l' & d4 & H2 & H). apply eret_inv in H as [-> ->].
    destruct (add_segment_plan _ _ _ _ _ _ I H1) as (I' & _ & T & X & J & L).
    destruct (IH u m d3 l' d4 I' (spaced_ext _ _ X T _ _ _ SP) H2) as (I2 & T2 & X2 & W & L2).
    split; [done|]. split; [congruence|]. split; [by eapply extends_trans|]. split.
    + cbn [app]. apply walk_two. exists g, l'. split; [done|]. split; [exact (joins_extends _ _ _ _ _ I' X2 J)|done].
    + intros h Lh. destruct (L2 h Lh) as [L3|L3]; [|right; apply elem_of_cons; by right]. destruct (L h L3) as [L4 | ->]; [by left|right; apply elem_of_cons; by left].
Qed.
