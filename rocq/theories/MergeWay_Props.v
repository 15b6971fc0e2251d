(** Properties of the ways that segments of the other decomposition take when it is merged (merge.py). *)
From stdpp Require Import gmap list relations functions.
From Coq Require Import Lia QArith Lqa.
From Verif Require Import Decomp_Model Decomp_Spec Editor_Model Editor_Spec Editor_Plane Aabb_Model Aabb_Spec Geom_Model Snap_Model Snap_Spec Snap_Plane Line_Plane Merge_Model Merge_Spec Merge_Dict Merge_Fill Merge_Walk Merge_Props.
Local Open Scope nat_scope.

(** * C103: every segment of the other decomposition is a walk in the result *)
(** There are points for points, as the map of points says, such that every segment of the other decomposition has a walk from the point for its first to the point for its second end; polygons on both sides
    of it have values; segments that are mapped to it are on such a walk. The values of polygons are given on the sides of walks: on the right that of the other decomposition on the right, on the left that on the left; from there they spread. *)
Theorem C103_ways K can inside root k tol other pts segs d ms mo d' : steady K -> (forall d p v, can d p v = false) -> merged K d -> (0 < tol)%Q -> NoDup pts ->
  intersect_single K can inside root k tol other pts segs d = (Ok (ms, mo), d') -> spread (dec d') tol ->
  exists (f : nat -> nat) (m : list (nat * option nat)),
    (forall p q, In (p, q) (m_points mo) -> f q = p) /\ (forall q, In q pts -> exists q', In (f q, q') (m_points mo)) /\
    (forall e, In e segs -> exists l, way (dec d') other f e l /\ forall h c z, In h l -> poly_at (dec d') (turned h c) = Some z -> exists v, In (z, Some v) (m_polys mo)) /\
    (forall g e, In (g, e) (m_segs mo) -> exists l c, way (dec d') other f e l /\ In (g, c) l) /\
    (forall z v, In (z, Some v) m -> exists e l h c, In e segs /\ way (dec d') other f e l /\ In h l /\ poly_at (dec d') (turned h c) = Some z /\ poly_at other (e, c) = Some v) /\
    (forall z v, In (z, Some v) m -> In (z, Some v) (m_polys mo)) /\ (forall z v, In (z, Some v) (m_polys mo) -> flows (dec d') m v z).
Proof.
  intros SK NC MG P ND H SP. destruct (merged_good _ _ SK MG) as [G V]. assert (RE := single_recorded _ _ _ _ _ _ _ _ _ _ _ _ _ SK NC MG P H SP).
  destruct (single_trip _ _ _ _ _ _ _ _ _ _ _ _ _ SK NC G V P ND H SP) as (pm & m & P1 & P2 & P3 & [U DK] & FI & [B1 B2] & TR).
  destruct (Merge_Lines.single_run _ _ _ _ _ _ _ _ _ _ _ _ _ SK NC G V P H) as (G' & _ & _ & _ & _ & _ & UP & _ & _).
  assert (W : forall e l, trip other pm segs (dec d') m e l -> way (dec d') other (fun q => default 0 (dget q pm)) e l).
  { intros e l (_ & _ & a & b & p & q & A & B & C & D & WK). exists a, b. split; [done|]. split; [done|]. by rewrite C, D. }
  destruct (fill_run (dec d') G' m U (fun p '(ex_intro _ x E) => proj1 (DK p x E)) k (m_polys mo) FI) as (U2 & _ & F1 & F2 & _).
  exists (fun q => default 0 (dget q pm)), m. split; [|split; [|split; [|split; [|split; [|split]]]]].
  - intros p q E. apply (dget_in _ _ _ UP) in E. by rewrite (P1 _ _ E).
  - intros q E. apply P3 in E as [p E]. rewrite E. cbn. destruct (P2 _ _ E) as [q' E']. exists q'. by apply (dget_in _ _ _ UP).
  - intros e E. destruct (TR e E) as (l & T). exists l. split; [by apply W|]. destruct T as (_ & SE & _). intros h c z IN Z. destruct (SE h c z IN Z) as [v VV]. exists v. apply F2. by apply (dget_in _ _ _ U).
  - intros g e E. apply (dget_in _ _ _ (Merge_Run.r_um _ _ _ _ _ RE)) in E. destruct (B2 _ _ E) as (l & c & T & IN). exists l, c. split; [by apply W|done].
  - intros z v E. apply (dget_in _ _ _ U) in E. destruct (B1 _ _ E) as (e & l & h & c & T & IN & X & Y). exists e, l, h, c. split; [apply T|]. split; [by apply W|done].
  - done.
  - done.
Qed.
(** The lower side of the second square passes the right side of the first one: outside of the second square on the right of the way, inside on the left. *)
Example C103_case : let s := dec (snd (put_square (1 # 2) (1 # 2) 1 (square_at 0 0 1))) in let other := dec (eafter (1 # 100) (square_at (1 # 2) (1 # 2) 1)) in
  NoDup [0; 1; 2; 3] /\ way s other (fun q => 4 + q) 0 [(5, false); (6, false)] /\
  poly_at s (turned (5, false) false) = Some 2 /\ poly_at s (turned (6, false) false) = Some 0 /\ poly_at other (0, false) = Some 0 /\
  poly_at s (turned (5, false) true) = Some 1 /\ poly_at s (turned (6, false) true) = Some 3 /\ poly_at other (0, true) = Some 1.
Proof.
  cbv zeta. split; [repeat (apply list.NoDup_cons; split; [rewrite elem_of_list_In; intros X; repeat destruct X as [X|X]; done|]); apply NoDup_nil_2|].
  split; [exists 0, 1; split; [vm_compute; reflexivity|]; split; [vm_compute; reflexivity|]; eapply (walk_step _ _ _ 8); [vm_compute; reflexivity|vm_compute; reflexivity|]; eapply (walk_step _ _ _ 5); [vm_compute; reflexivity|vm_compute; reflexivity|apply walk_end]|].
  repeat (split; [vm_compute; reflexivity|]). vm_compute. reflexivity.
Qed.
Print Assumptions C103_ways.
