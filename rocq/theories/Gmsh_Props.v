(** Properties C52-C54, C64-C69, C73-C75 (gmsh.py). *)
From stdpp Require Import gmap strings list sorting.
From Coq Require Import ZArith QArith String Lia.
From Verif Require Import Gmsh_Model Gmsh_Spec Gmsh_Proofs Gmsh_Wf Gmsh_Split Gmsh_Frag Gmsh_Cut Gmsh_Phys Gmsh_Sync Gmsh_Misc.
Local Open Scope nat_scope.
Local Notation length := List.length.

(** States of programs. *)
Definition reached (K : kernel) (s : st) : Prop := exists os, s = run K os init.
Lemma reached_wf K s : reached K s -> wf s.
Proof. intros [os ->]. apply run_ok, wf_init. Qed.
Lemma run_app K a b s : run K (a ++ b) s = run K b (run K a s).
Proof. unfold run. by rewrite foldl_app. Qed.

(** A kernel for examples: copies have tags from 100 on, fragments of the object t are 2t
    and 2t+1 (just one for even t); cut and intersection leave the objects with an odd tag. *)
Definition K0 : kernel := Kernel
  (fun n ts => Some (map (fun t : dimtag => (fst t, snd t + 100)%Z) ts))
  (fun n op a b => Some (match op with
     | Fragment => map (fun t : dimtag => if Z.even (snd t) then [(fst t, 2 * snd t)%Z] else [(fst t, 2 * snd t)%Z; (fst t, 2 * snd t + 1)%Z]) (a ++ b)
     | _ => map (fun t : dimtag => if Z.even (snd t) then [] else [t]) a ++ map (fun t => [t]) b
     end))
  (fun n c ts => Some (map (fun t : dimtag => (fst t - 1, snd t + 50)%Z) ts))
  (fun n => Some (Z.of_nat n + 1)%Z) (fun _ _ => true) (fun _ t => Some (inject_Z (snd t))) (fun _ => []) (fun _ => true)
  (fun _ X => elements X).
(** Three shapes of dimension 3, 2, 3 with the tags 1, 2, 3 and regions "a", "b", "a" (by name). *)
Definition three : list op := [OMake 3; OMake 2; OMake 3; OSetName 0 "a"; OSetName 1 "b"; OSetName 2 "a"].
Lemma three_reached os : reached K0 (run K0 (three ++ os) init).
Proof. by eexists. Qed.

(** ** C52 *)
(** group puts the objects of the sets into one set, in order; one set is returned itself. *)
Theorem C52_group K s os ls : reached K s -> Forall2 (fun o l => contents s o = Some l) os ls ->
  exists g s', group os s = (Ok g, s') /\ contents s' g = Some (List.concat ls) /\ regs s' = regs s /\
    (forall o, os = [o] -> g = o) /\ (length os <> 1 -> contents s g = None) /\
    (forall o l, contents s o = Some l -> contents s' o = Some l).
Proof.
  intros R H. pose proof (reached_wf K s R) as W. destruct (group_grown s os ls W H) as (g & s' & E & G & C & _ & _ & _ & H1 & H2).
  exists g, s'. split; [done|]. split; [done|]. split; [apply G|]. split; [|split].
  - intros o Eo. by destruct (H2 o Eo).
  - intros L. rewrite (H1 L). unfold contents. by rewrite (proj2 (lookup_ge_None _ _)).
  - intros o l Eo. by eapply grown_contents.
Qed.
(** split_by_region makes one set for each region, in the order of their first objects. Each
    object is in exactly one of them. *)
Theorem C52_split_region K s o l : reached K s -> contents s o = Some l -> dims_agree s l ->
  exists ps s', split_by_region o s = (Ok ps, s') /\
    Forall2 (fun p r => contents s' p = Some (with_region r l)) ps (firsts (map snd l)) /\
    List.concat (map (fun r => with_region r l) (firsts (map snd l))) ≡ₚ l /\ NoDup (firsts (map snd l)) /\
    Forall (fun p => contents s p = None) ps /\ (forall q lq, contents s q = Some lq -> contents s' q = Some lq).
Proof.
  intros R E D. pose proof (reached_wf K s R) as W. apply cdims_iff in D as [R' EC].
  rewrite (split_by_region_eq s o l R' W E EC). eexists _, _. split; [reflexivity|]. split; [|split; [|split; [|split]]].
  - by apply (contents_appended s (fun r => with_region r l)).
  - apply with_region_partition.
  - apply firsts_nodup.
  - apply Forall_forall. intros p Hp. apply elem_of_seq in Hp. unfold contents. by rewrite (proj2 (lookup_ge_None _ _)) by lia.
  - intros q lq Eq. by apply (contents_app (set_regs R' s)).
Qed.
(** It raises just if objects of different dimensions have the same region. *)
Theorem C52_split_region_raises K s o l : reached K s -> contents s o = Some l -> (fst (split_by_region o s) = Raise <-> ~ dims_agree s l).
Proof.
  intros R E. pose proof (reached_wf K s R) as W. split.
  - intros H D. destruct (C52_split_region K s o l R E D) as (ps & s' & E' & _). rewrite E' in H. done.
  - intros D. apply (split_by_region_raise s o l W E). destruct (cdims l (regs s)) eqn:X; [|done]. exfalso. apply D, cdims_iff. by rewrite X.
Qed.
(** split_by_dimension makes four sets, for the dimensions 0 to 3. *)
Theorem C52_split_dimension K s o l : reached K s -> contents s o = Some l -> dims_agree s l -> Forall (fun p => 0 <= fst (fst p) < 4)%Z l ->
  exists ps s', split_by_dimension o s = (Ok ps, s') /\
    Forall2 (fun p d => contents s' p = Some (with_dim d l)) ps [0; 1; 2; 3]%Z /\
    List.concat (map (fun d => with_dim d l) [0; 1; 2; 3]%Z) ≡ₚ l /\
    Forall (fun p => contents s p = None) ps /\ (forall q lq, contents s q = Some lq -> contents s' q = Some lq).
Proof.
  intros R E D F. pose proof (reached_wf K s R) as W. apply cdims_iff in D as [R' EC].
  rewrite (split_by_dimension_eq s o l R' W E EC F). eexists _, _. split; [reflexivity|]. split; [|split; [|split]].
  - by apply (contents_appended s (fun d => with_dim d l)).
  - by apply with_dim_partition.
  - apply Forall_forall. intros p Hp. apply elem_of_seq in Hp. unfold contents. by rewrite (proj2 (lookup_ge_None _ _)) by lia.
  - intros q lq Eq. by apply (contents_app (set_regs R' s)).
Qed.
Theorem C52_split_dimension_raises K s o l : reached K s -> contents s o = Some l ->
  (fst (split_by_dimension o s) = Raise <-> ~ (dims_agree s l /\ Forall (fun p => 0 <= fst (fst p) < 4)%Z l)).
Proof.
  intros R E. pose proof (reached_wf K s R) as W. split.
  - intros H [D F]. destruct (C52_split_dimension K s o l R E D F) as (ps & s' & E' & _). rewrite E' in H. done.
  - intros N. apply (split_by_dimension_raise s o l W E). destruct (cdims l (regs s)) eqn:X; [|by left]. right. intros F. apply N. split; [|done].
    apply cdims_iff. by rewrite X.
Qed.
Example C52_case :
  let s := run K0 (three ++ [OGroup [0; 1; 2]]) init in
  reached K0 s /\ contents s 3 = Some [((3, 1)%Z, 4); ((2, 2)%Z, 5); ((3, 3)%Z, 4)] /\
  fst (split_by_region 3 s) = Ok [4; 5] /\ contents (snd (split_by_region 3 s)) 4 = Some [((3, 1)%Z, 4); ((3, 3)%Z, 4)] /\
  contents (snd (split_by_dimension 3 s)) 6 = Some [((2, 2)%Z, 5)].
Proof. intros s. split; [apply three_reached|]. vm_compute. repeat split. Qed.
Example C52_raises_case : let s := run K0 (three ++ [OMake 2; OSetName 3 "a"]) init in fst (set_region_name 3 "a" s) = Raise /\ contents s 3 = Some [((2, 4)%Z, 2)].
Proof. vm_compute. repeat split. Qed.

(** ** C53 *)
(** fragment of different object sets: the pieces of each object are in the set made for
    the set of the object, with the region of the object. The given sets are invalidated,
    other sets are left. *)
Theorem C53_fragment K s os ls m : reached K s -> os <> [] -> NoDup os -> Forall2 (fun o l => contents s o = Some l) os ls ->
  k_bool K (tick s) Fragment (map fst (List.concat ls)) [] = Some m -> length m = length (List.concat ls) ->
  exists gs s', fragment K os s = (Ok gs, s') /\ length gs = length os /\ NoDup gs /\
    (forall i l, ls !! i = Some l -> exists g, gs !! i = Some g /\ contents s g = None /\
      contents s' g = Some (inherit l (take (length l) (drop (length (List.concat (take i ls))) m)))) /\
    (forall o, o ∈ os -> contents s' o = None) /\
    (forall q lq, q ∉ os -> contents s q = Some lq -> contents s' q = Some lq) /\ regs s' = regs s.
Proof.
  intros R Ne ND H Em El. pose proof (reached_wf K s R) as W.
  destruct (fragment_eq K s os ls m W Ne ND H Em El) as (gs & s' & E & C & W' & L & NDg & Fg & HG).
  exists gs, s'. split; [done|]. split; [done|]. split; [done|]. split; [|split; [|split]].
  - intros i l Ei. destruct (HG i l Ei) as (g & Eg & Cg). exists g. split; [done|]. split; [|done].
    rewrite Forall_forall in Fg. pose proof (Fg g (elem_of_list_lookup_2 _ _ _ Eg)). unfold contents. by rewrite (proj2 (lookup_ge_None _ _)).
  - intros o Ho. destruct C as (_ & _ & C & _). unfold contents. by rewrite C.
  - intros q lq Nq Eq. by eapply (consumed_contents os).
  - destruct C as (-> & _). done.
Qed.
(** A set given twice raises, after the kernel made the fragments. *)
Theorem C53_twice K s os : reached K s -> ~ NoDup os -> fst (fragment K os s) = Raise.
Proof. intros R N. apply fragment_raise; [by eapply reached_wf|done]. Qed.
Example C53_case :
  let s := run K0 (three ++ [OGroup [0; 1]]) init in
  reached K0 s /\ fst (fragment K0 [2; 3] s) = Ok [4; 7] /\
  contents (snd (fragment K0 [2; 3] s)) 4 = Some [((3, 6)%Z, 4); ((3, 7)%Z, 4)] /\
  contents (snd (fragment K0 [2; 3] s)) 7 = Some [((3, 2)%Z, 4); ((3, 3)%Z, 4); ((2, 4)%Z, 5)] /\
  contents (snd (fragment K0 [2; 3] s)) 3 = None /\ contents (snd (fragment K0 [2; 3] s)) 0 = contents s 0.
Proof. intros s. split; [apply three_reached|]. vm_compute. repeat split. Qed.

(** ** C54 *)
(** _assign_physical_groups makes one group for each region, with the dimension and all tags
    of the objects of the region. *)
Theorem C54_groups K s o l : reached K s -> contents s o = Some l -> (forall k, k_ask K k = true) -> dims_agree s l ->
  exists s', assign_physical_groups K o s = (Ok tt, s') /\
    groups s' = groups s ++ map (group_of s l) (firsts (map snd l)) /\
    (forall r, r ∈ map snd l -> rname s' r = Some (group_name s (firsts (map snd l)) r)) /\
    (forall r, r ∉ map snd l -> regs s' !! r = regs s !! r) /\ (forall r, rid s' r = rid s r).
Proof.
  intros R E HK D. destruct (assign_eq K s o l (reached_wf K s R) E HK D) as (s' & H1 & H2 & H3 & H4 & H5 & H6).
  exists s'. do 2 (split; [done|]). split; [|split; [|done]].
  - intros r Hr. apply H4. by apply firsts_elem.
  - intros r Hr. apply H5. intros H. apply Hr. by apply firsts_elem.
Qed.
(** The names are different just if none of the names n_0, n_1, ... given to regions with the
    same name n is also the name of another region alone. *)
Theorem C54_distinct K s o l : reached K s -> contents s o = Some l ->
  let rs := firsts (map snd l) in
  NoDup (map snd (map (group_of s l) rs)) <-> ~ name_clash s rs.
Proof.
  intros R E rs. pose proof (reached_wf K s R) as W. destruct (contents_some s o l W E) as (x & _ & _ & _ & V).
  rewrite <- (names_distinct s W rs).
  - rewrite map_map. done.
  - apply firsts_nodup.
  - unfold valid in *. rewrite Forall_forall in *. intros r Hr. apply V. by apply firsts_elem.
Qed.
(** It raises, before any group is made, if objects of different dimensions have the same region. *)
Theorem C54_raises K s o l : reached K s -> contents s o = Some l -> ~ dims_agree s l ->
  fst (assign_physical_groups K o s) = Raise /\ groups (snd (assign_physical_groups K o s)) = groups s.
Proof. intros R E D. apply (assign_raise K s o l); [by eapply reached_wf|done|done]. Qed.
(** Regions with the names "a", "a", "b". *)
Example C54_case :
  let s := run K0 (three ++ [ORegion "a" None; OSetRegion 2 6; OGroup [2; 0; 1]]) init in
  reached K0 s /\ groups (snd (assign_physical_groups K0 3 s)) = [(3, [3], "a_1"); (3, [1], "a_0"); (2, [2], "b")]%Z%string.
Proof. intros s. split; [apply three_reached|]. vm_compute. repeat split. Qed.
(** Regions with the names "a", "a", "a_0". *)
Theorem C54_refuted : exists s, reached K0 s /\ fst (assign_physical_groups K0 3 s) = Ok tt /\
  groups (snd (assign_physical_groups K0 3 s)) = [(3, [1], "a_0"); (2, [2], "a_0"); (3, [3], "a_1")]%Z%string.
Proof.
  exists (run K0 (three ++ [ORegion "a" None; OSetRegion 2 6; OSetName 1 "a_0"; OGroup [0; 1; 2]]) init). split; [apply three_reached|]. vm_compute. repeat split.
Qed.

(** ** C64 *)
(** In all states of all programs, exceptions caught or not, every object set has one region
    for each object, all of them exist, and the ids of the regions are different. *)
Theorem C64_consistent K os : wf (run K os init).
Proof. apply run_ok, wf_init. Qed.
(** What never changes during a program. *)
Theorem C64_history K os os' : later (run K os init) (run K (os ++ os') init).
Proof. rewrite run_app. apply run_ok, C64_consistent. Qed.
Example C64_case :
  let s := run K0 (three ++ [OGroup [0; 1; 2]; OSplitRegion 3; OFragment [4; 5]; OCopy 0; OSetRegion 1 4; OFragment [0; 0]]) init in
  length (regs s) = 6 /\ rid s 4 = Some 100004%Z /\ rid s 5 = Some 100005%Z /\ max_id s = 100006%Z /\
  contents s 1 = Some [((2, 2)%Z, 5)] /\ contents s 0 = None.
Proof. vm_compute. repeat split. Qed.

(** ** C65 *)
(** rectangle with a list of two sides: the corner is half the sides from the centre; the list
    got a third number, and each later use of the same list raises. *)
Theorem C65_rectangle K s i a b c1 c2 c3 t os c : reached K s -> xys s !! i = Some [a; b] -> k_add K (tick s) = Some t ->
  exists s', rectangle K i [c1; c2; c3] s = (Ok (length (sets s)), s') /\ contents s' (length (sets s)) = Some [((2, t)%Z, 2)] /\
    rects s' = rects s ++ [[c1 - a / 2; c2 - b / 2; c3 - 0 / 2; a; b]%Q] /\ xys s' !! i = Some [a; b; 0%Q] /\
    fst (rectangle K i c (run K os s')) = Raise.
Proof.
  intros R E Et. destruct (rectangle_ok K s i a b c1 c2 c3 t E Et) as (s' & H1 & H2 & H3 & H4 & _).
  exists s'. do 4 (split; [done|]). assert (wf s') as W'.
  { destruct (step_ok K (ORectangle i [c1; c2; c3]) s (reached_wf K s R)) as [W' _]. cbn in W'. by rewrite H1 in W'. }
  destruct (run_ok K os s' W') as [_ L]. destruct (l_xys _ _ L _ _ H4) as [l El]. eapply rectangle_bad; [exact El|]. cbn. lia.
Qed.
(** So rectangle with the default sides works once in a process. *)
Theorem C65_refuted : exists s, reached K0 s /\ fst (rectangle K0 0 [0; 0; 0]%Q init) = Ok 0 /\ s = step K0 (ORectangle 0 [0; 0; 0]%Q) init /\
  fst (rectangle K0 0 [0; 0; 0]%Q s) = Raise.
Proof. exists (run K0 [ORectangle 0 [0; 0; 0]%Q] init). split; [by eexists|]. vm_compute. repeat split. Qed.
Example C65_case : let s := run K0 [OList [4; 2]%Q; ORectangle 1 [1; 1; 0]%Q] init in
  rects s = [[1 - 4 / 2; 1 - 2 / 2; 0 - 0 / 2; 4; 2]]%Q /\ xys s !! 1 = Some [4; 2; 0]%Q.
Proof. cbn. repeat split. Qed.

(** ** C66 *)
(** cut, intersect, fragment of one set: the pieces of each object have its region; the set is
    invalidated, the tools are not touched. *)
Theorem C66_inherit K s k o l ts ls t m : reached K s -> contents s o = Some l -> Forall2 (fun o l => contents s o = Some l) ts ls ->
  k_copy K (tick s) (map fst (List.concat ls)) = Some t -> length t = length (List.concat ls) ->
  k_bool K (S (tick s)) k (map fst l) t = Some m ->
  exists g s', apply_operation K k o ts s = (Ok g, s') /\ contents s g = None /\ contents s' g = Some (inherit l m) /\ contents s' o = None /\
    (forall q lq, q <> o -> contents s q = Some lq -> contents s' q = Some lq) /\ regs s' = regs s.
Proof.
  intros R E H Et El Em. destruct (apply_eq K s k o l ts ls t m (reached_wf K s R) E H Et El Em) as (g & s' & H1 & _ & H2 & H3 & H4 & _ & _ & _ & H5 & H6).
  exists g, s'. split; [done|]. split; [unfold contents; by rewrite (proj2 (lookup_ge_None _ _))|]. split; [done|]. split; [unfold contents; by rewrite H5|]. done.
Qed.
Example C66_case :
  let s := run K0 (three ++ [OGroup [0; 1; 2]]) init in
  reached K0 s /\ fst (apply_operation K0 Cut 3 [1] s) = Ok 8 /\ contents (snd (apply_operation K0 Cut 3 [1] s)) 8 = Some [((3, 1)%Z, 4); ((3, 3)%Z, 4)] /\
  contents (snd (apply_operation K0 Cut 3 [1] s)) 3 = None /\ contents (snd (apply_operation K0 Cut 3 [1] s)) 1 = Some [((2, 2)%Z, 5)].
Proof. intros s. split; [apply three_reached|]. vm_compute. repeat split. Qed.

(** ** C67 *)
(** split_by_cut: with la the pieces of the objects and lb those of the tools, the four sets are the
    pieces just in la, just in lb, and those in both, with the regions from la and from lb. *)
Theorem C67_split_by_cut K s o lo ts ls m : reached K s -> (forall n X, k_pick K n X ≡ₚ elements X) ->
  contents s o = Some lo -> Forall2 (fun o l => contents s o = Some l) ts ls -> ts <> [o] ->
  k_bool K (tick s) Fragment (map fst (lo ++ List.concat ls)) [] = Some m -> length m = length (lo ++ List.concat ls) ->
  let la := inherit lo (take (length lo) m) in let lb := inherit (List.concat ls) (drop (length lo) m) in
  exists x1 x2 x3 x4 s' L1 L2 L3 L4, split_by_cut K o ts s = (Ok [x1; x2; x3; x4], s') /\
    contents s' x1 = Some L1 /\ contents s' x2 = Some L2 /\ contents s' x3 = Some L3 /\ contents s' x4 = Some L4 /\
    NoDup (map fst L1) /\ NoDup (map fst L2) /\ NoDup (map fst L3) /\ map fst L4 = map fst L3 /\
    (forall t r, (t, r) ∈ L1 <-> last_of t la = Some r /\ t ∉ map fst lb) /\
    (forall t r, (t, r) ∈ L2 <-> last_of t lb = Some r /\ t ∉ map fst la) /\
    (forall t r, (t, r) ∈ L3 <-> last_of t la = Some r /\ t ∈ map fst lb) /\
    (forall t r, (t, r) ∈ L4 <-> last_of t lb = Some r /\ t ∈ map fst la) /\ contents s' o = None.
Proof.
  intros R HK E H Ne Em El la lb.
  destruct (split_by_cut_eq K s o lo ts ls m HK (reached_wf K s R) E H Ne Em El) as (x1 & x2 & x3 & x4 & s' & L1 & L2 & L3 & L4 & H1 & _ & H2 & H3 & H4 & H5 & H6 & H7 & H8 & H9 & A1 & A2 & A3 & A4 & _ & A5 & _).
  exists x1, x2, x3, x4, s', L1, L2, L3, L4. do 13 (split; [done|]). unfold contents. by rewrite A5.
Qed.
(** A single tool is invalidated; several ones stay, with tags that the kernel removed. *)
Theorem C67_tools K s o lo ts ls m : reached K s -> (forall n X, k_pick K n X ≡ₚ elements X) ->
  contents s o = Some lo -> Forall2 (fun o l => contents s o = Some l) ts ls -> ts <> [o] ->
  k_bool K (tick s) Fragment (map fst (lo ++ List.concat ls)) [] = Some m -> length m = length (lo ++ List.concat ls) ->
  (forall q, ts = [q] -> contents (snd (split_by_cut K o ts s)) q = None) /\
  (forall q lq, q ∈ ts -> q <> o -> length ts <> 1 -> contents s q = Some lq -> contents (snd (split_by_cut K o ts s)) q = Some lq).
Proof.
  intros R HK E H Ne Em El.
  destruct (split_by_cut_eq K s o lo ts ls m HK (reached_wf K s R) E H Ne Em El) as (x1 & x2 & x3 & x4 & s' & L1 & L2 & L3 & L4 & H1 & _ & _ & _ & _ & _ & _ & _ & _ & _ & _ & _ & _ & _ & _ & _ & A6 & A7).
  rewrite H1. cbn. split.
  - intros q Eq. unfold contents. by rewrite (A7 q Eq).
  - intros q lq Hq Nq L Eq. apply A6; [done|by intros ->|done].
Qed.
(** The objects 1 and 3 have the pieces 2, 3 and 6, 7; the tools are 3, with 6 and 7, and 2, with 4. *)
Example C67_case :
  let s := run K0 (three ++ [OGroup [0; 2]]) init in let s' := snd (split_by_cut K0 3 [2; 1] s) in
  reached K0 s /\ fst (split_by_cut K0 3 [2; 1] s) = Ok [11; 12; 13; 14] /\
  contents s' 11 = Some [((3, 2)%Z, 4); ((3, 3)%Z, 4)] /\ contents s' 12 = Some [((2, 4)%Z, 5)] /\
  contents s' 13 = Some [((3, 6)%Z, 4); ((3, 7)%Z, 4)] /\ contents s' 2 = Some [((3, 3)%Z, 4)].
Proof. intros s s'. split; [apply three_reached|]. vm_compute. repeat split. Qed.

(** ** C68 *)
(** select_by_intersect: the objects with exactly one piece; it raises if one has several. All
    sets keep their objects. *)
Theorem C68_select K s o l ts ls c1 c2 m : reached K s -> contents s o = Some l -> Forall2 (fun o l => contents s o = Some l) ts ls ->
  k_copy K (tick s) (map fst l) = Some c1 -> length c1 = length l ->
  k_copy K (S (tick s)) (map fst (List.concat ls)) = Some c2 -> length c2 = length (List.concat ls) ->
  k_bool K (S (S (tick s))) Intersect c1 c2 = Some m ->
  let good := Forall (fun ts => length ts <= 1) (take (length l) m) in
  exists s', (forall q lq, contents s q = Some lq -> contents s' q = Some lq) /\ regs s' = regs s /\
    (good -> exists g, select_by_intersect K o ts s = (Ok g, s') /\ contents s' g = Some (picked l m)) /\
    (~ good -> select_by_intersect K o ts s = (Raise, s')).
Proof.
  intros R E H H1 H2 H3 H4 H5 good. destruct (select_eq K s o l ts ls c1 c2 m (reached_wf K s R) E H H1 H2 H3 H4 H5) as (s' & _ & Hr & _ & _ & _ & Hc & Hg & Hn).
  exists s'. done.
Qed.
Example C68_case :
  let s := run K0 (three ++ [OGroup [0; 1; 2]]) init in
  reached K0 s /\ fst (select_by_intersect K0 3 [1] s) = Ok 6 /\ contents (snd (select_by_intersect K0 3 [1] s)) 6 = Some [((3, 1)%Z, 4); ((3, 3)%Z, 4)] /\
  contents (snd (select_by_intersect K0 3 [1] s)) 3 = contents s 3.
Proof. intros s. split; [apply three_reached|]. vm_compute. repeat split. Qed.

(** ** C69 *)
(** The synchronized model is never asked while it is behind the geometry, if the program makes
    no polygon, removes no shapes, and does not fragment a set with itself. *)
Theorem C69_synchronized K os : (forall n a m, k_bool K n Fragment a [] = Some m -> length m = length a) -> Forall careful os ->
  synced (run K os init).
Proof. intros HK F. apply run_synced; [done|apply wf_init|done|done]. Qed.
(** make_mesh with eliminate: if all calls of the kernel work, the mesh is made from the model before
    the removal. *)
Theorem C69_eliminate K os s sets_ ls : (forall n a m, k_bool K n Fragment a [] = Some m -> length m = length a) -> Forall careful os -> s = run K os init ->
  (forall n l, k_move K n l = true) -> (forall n, k_ask K n = true) -> Forall2 (fun o l => contents s o = Some l) sets_ ls ->
  dims_agree s (List.concat ls) ->
  fst (make_mesh K sets_ true s) = Ok tt /\ stale (snd (make_mesh K sets_ true s)) = true.
Proof.
  intros HK F -> Hm Ha H D. set (s := run K os init) in *. pose proof (C69_synchronized K os HK F) as Hs. fold s in Hs.
  assert (wf s) as W by apply C64_consistent. unfold make_mesh.
  destruct (group_grown s sets_ ls W H) as (g & s1 & E1 & G1 & C1 & _). rewrite (bind_ok _ _ _ _ _ E1).
  assert (synced s1) as Hs1. { pose proof (tr_quiet synced (group sets_) kind_synced (quiet_group _) s Hs) as X. by rewrite E1 in X. }
  assert (dims_agree s1 (List.concat ls)) as D1. { destruct G1 as (_ & R1 & _). unfold dims_agree, rdim in *. by rewrite R1. }
  destruct (assign_eq K s1 g (List.concat ls) (proj1 G1) C1 Ha D1) as (s2 & E2 & _ & S2 & _).
  assert (clean s2) as Hs2. { pose proof (tr_assign K g s1 Hs1) as X. by rewrite E2 in X. }
  rewrite (bind_ok _ _ _ _ _ E2).
  destruct (contents_some s1 g (List.concat ls) (proj1 G1) C1) as (x & Ex & _). rewrite <- S2 in Ex.
  destruct (keep_only_dirty K s2 g x (clean_sync _ Hs2) Ex Hm) as (s3 & E3 & D3 & F3 & _). rewrite (bind_ok _ _ _ _ _ E3).
  unfold synchronize. erewrite bind_ok by reflexivity. rewrite F3. unfold ask. rewrite Ha. cbn. rewrite D3. by rewrite orb_true_r.
Qed.
(** make_polygon forgets the flag. *)
Theorem C69_polygon_refuted : exists os, stale (run K0 os init) = true /\ os = [OPolygon; OBoundary 0 false].
Proof. eexists. split; [|reflexivity]. vm_compute. done. Qed.
(** So does a fragment of a set with itself, which raises. *)
Theorem C69_fragment_refuted : exists os, stale (run K0 os init) = true /\ os = [OMake 3; OMake 3; OWrite; OFragment [0; 0]; OBoundary 1 false].
Proof. eexists. split; [|reflexivity]. vm_compute. done. Qed.
Example C69_case :
  let os := three ++ [OGroup [0; 1; 2]; OBoundary 3 false; OFragment [3]; OCopy 4; OMove 4; OMesh [4] false] in
  Forall careful os /\ stale (run K0 os init) = false /\ groups (run K0 os init) = [(2, [51; 53], "default_2d"); (1, [52], "default_1d")]%Z%string.
Proof.
  intros os. split; [|vm_compute; repeat split]. repeat (apply Forall_cons; split; [cbn; try done|]); [|apply Forall_nil; done].
  split; [done|]. apply NoDup_singleton.
Qed.
Example C69_eliminate_case :
  Forall careful three /\ dims_agree (run K0 three init) [((3, 1)%Z, 4)] /\ contents (run K0 three init) 0 = Some [((3, 1)%Z, 4)] /\
  stale (snd (make_mesh K0 [0] true (run K0 three init))) = true.
Proof.
  split; [|split; [|split; [vm_compute; done|vm_compute; done]]].
  - repeat (apply Forall_cons; split; [cbn; done|]). apply Forall_nil; done.
  - split; [|intros t t' r H1 H2; apply elem_of_list_singleton in H1, H2; congruence].
    intros t r H. apply elem_of_list_singleton in H as [= -> ->]. vm_compute. split; [eauto|by right].
Qed.

(** ** C73 *)
(** A name denotes the same region for the whole program. *)
Theorem C73_same_region K s n r s' os : reached K s -> get_region_name n s = (Ok r, s') ->
  fst (get_region_name n (run K os s')) = Ok r.
Proof.
  intros R E. pose proof (reached_wf K s R) as W. destruct (ok_get_region_name n T s W I) as (W' & _ & H). rewrite E in H, W'. cbn in H, W'. destruct H as [_ H].
  destruct (run_ok K os s' W') as [_ L]. pose proof (l_names _ _ L n r H) as H'. unfold get_region_name. by rewrite H'.
Qed.
(** Refuted: the region has the given name. Making the physical groups renames regions for good: here the
    region "a" is "a_0" after the first mesh, and another object set with the region "a" gets "a_0". *)
Theorem C73_refuted : exists s s', reached K0 s /\ fst (get_region_name "a" s) = Ok 4 /\ rname s 4 = Some "a"%string /\
  s' = step K0 (OMesh [0; 1; 2] false) s /\ fst (get_region_name "a" s') = Ok 4 /\ rname s' 4 = Some "a_0"%string.
Proof.
  exists (run K0 (three ++ [ORegion "a" None; OSetRegion 2 6]) init). eexists. split; [apply three_reached|]. split; [vm_compute; done|]. split; [vm_compute; done|].
  split; [reflexivity|]. vm_compute. repeat split.
Qed.
(** The id of a region got by name: every call takes an id, also if the region is there. *)
Theorem C73_ids n s : max_id (snd (get_region_name n s)) = (max_id s + 1)%Z.
Proof. unfold get_region_name. destruct (find_name n (names s)); [done|]. done. Qed.
Example C73_case : let s := run K0 three init in reached K0 s /\ fst (get_region_name "b" s) = Ok 5 /\
  fst (get_region_name "b" (run K0 [OSetName 1 "c"; OFragment [0; 1]] (snd (get_region_name "b" s)))) = Ok 5.
Proof. intros s. split; [by eexists|]. vm_compute. repeat split. Qed.

(** ** C74 *)
(** get_boundary: the answer of the kernel for the synchronized model, with the default region of each dimension. *)
Theorem C74_boundary K s o l c bs : reached K s -> contents s o = Some l -> k_boundary K (tick s) c (map fst l) = Some bs ->
  Forall (fun t : dimtag => 0 <= fst t < 4)%Z bs ->
  exists s', get_boundary K o c s = (Ok (length (sets s)), s') /\ contents s' (length (sets s)) = Some (map (fun t => (t, Z.to_nat (fst t))) bs) /\
    (forall q lq, contents s q = Some lq -> contents s' q = Some lq) /\ regs s' = regs s.
Proof.
  intros R E Eb F. destruct (boundary_eq K s o l c bs (reached_wf K s R) E Eb F) as (s' & H1 & G & H2 & _). exists s'. split; [done|]. split; [done|]. split; [|apply G].
  intros q lq Eq. by eapply grown_contents.
Qed.
Example C74_case : let s := run K0 three init in reached K0 s /\ fst (get_boundary K0 0 false s) = Ok 3 /\
  contents (snd (get_boundary K0 0 false s)) 3 = Some [((2, 51)%Z, 2)] /\ rname (snd (get_boundary K0 0 false s)) 2 = Some "default_2d"%string.
Proof. intros s. split; [by eexists|]. vm_compute. repeat split. Qed.

(** ** C75 *)
(** remove_small_mass keeps the objects with a mass over the limit, with their regions. *)
Theorem C75_small_mass K s o l lim mass : reached K s -> contents s o = Some l -> (forall n t, k_mass K n t = Some (mass t)) ->
  exists s', remove_small_mass K o lim s = (Ok o, s') /\
    contents s' o = Some (List.filter (fun p => negb (Qle_bool (mass (fst p)) lim)) l) /\
    (forall q, q <> o -> contents s' q = contents s q) /\ regs s' = regs s.
Proof.
  intros R E H. destruct (small_eq K s o l lim mass (reached_wf K s R) E H) as (s' & H1 & H2 & H3 & H4 & _). by exists s'.
Qed.
Example C75_case : let s := run K0 (three ++ [OGroup [0; 1; 2]]) init in reached K0 s /\
  contents (snd (remove_small_mass K0 3 2 s)) 3 = Some [((3, 3)%Z, 4)].
Proof. intros s. split; [by eexists|]. vm_compute. repeat split. Qed.

Print Assumptions C52_group.
Print Assumptions C52_split_region.
Print Assumptions C52_split_region_raises.
Print Assumptions C52_split_dimension.
Print Assumptions C52_split_dimension_raises.
Print Assumptions C53_fragment.
Print Assumptions C53_twice.
Print Assumptions C54_groups.
Print Assumptions C54_distinct.
Print Assumptions C54_raises.
Print Assumptions C54_refuted.
Print Assumptions C64_consistent.
Print Assumptions C64_history.
Print Assumptions C65_rectangle.
Print Assumptions C65_refuted.
Print Assumptions C66_inherit.
Print Assumptions C67_split_by_cut.
Print Assumptions C67_tools.
Print Assumptions C68_select.
Print Assumptions C69_synchronized.
Print Assumptions C69_eliminate.
Print Assumptions C69_polygon_refuted.
Print Assumptions C69_fragment_refuted.
Print Assumptions C73_same_region.
Print Assumptions C73_refuted.
Print Assumptions C73_ids.
Print Assumptions C74_boundary.
Print Assumptions C75_small_mass.
