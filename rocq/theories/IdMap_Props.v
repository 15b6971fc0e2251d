(** Properties C07, C08 (id map). *)
From stdpp Require Import gmap.
From Verif Require Import IdMap_Model IdMap_Proofs.

(** C07: for every history from an empty map the observations are legal (a new id
    is not live, only live ids are removed, KeyError only for ids not live) and
    the content is the finite map described by the observations. *)
Theorem C07_history_legal :
  forall (A : Type) (ops : list (im_op A)),
  let (es, m) := im_run im_empty ops in
  legal ∅ es /\ im_items m = fold_left live_step es ∅.
Proof. exact @history_legal_l. Qed.
Print Assumptions C07_history_legal.

Example C07_case :
  let r := im_run (im_empty : idmap nat)
    [IAppend 10; IAppend 11; IRemove 0; IRemove 7; IAppend 12; IAppend 13] in
  fst r = [EvAdd 0 10; EvAdd 1 11; EvDel 0; EvKeyError 7; EvAdd 0 12; EvAdd 2 13] /\
  map (im_get (snd r)) [0; 1; 2; 3] = [Some 12; Some 11; Some 13; None].
Proof. vm_compute. split; reflexivity. Qed.

(** C08 *)
Theorem C08_allocation_undone_by_reversed_removal :
  forall (A : Type) (ops : list (im_op A)) (xs : list A) is m1,
  let m := snd (im_run im_empty ops) in
  appends m xs = (is, m1) ->
  exists m2, removes m1 (rev is) = Some m2 /\ im_items m2 = im_items m /\
    forall further, fst (im_run m2 further) = fst (im_run m further).
Proof. exact @undo_allocation_l. Qed.
Print Assumptions C08_allocation_undone_by_reversed_removal.

Theorem C08_ids_bounded_by_peak :
  forall (A : Type) (ops : list (im_op A)),
  let (es, m) := im_run im_empty ops in
  Forall (fun e => match e with EvAdd i _ => i < peak ∅ es | _ => True end) es.
Proof. exact @ids_bounded_l. Qed.
Print Assumptions C08_ids_bounded_by_peak.

Example C08_case :
  let m := snd (im_run (im_empty : idmap nat) [IAppend 10; IAppend 11; IAppend 12; IRemove 1]) in
  fst (appends m [20; 21]) = [1; 3] /\
  match removes (snd (appends m [20; 21])) [3; 1] with
  | Some m2 => im_free m2 = [1; 3] /\ fst (im_run m2 [IAppend 5; IAppend 6; IAppend 7]) =
               fst (im_run m [IAppend 5; IAppend 6; IAppend 7])
  | None => False
  end.
Proof. vm_compute. repeat split. Qed.

(** Removing in another order than the reverse one changes the ids issued later. *)
Theorem C08_other_order_differs :
  exists (xs : list nat) is m1 m2,
  appends im_empty xs = (is, m1) /\ removes m1 is = Some m2 /\
  fst (im_run m2 [IAppend 5]) <> fst (im_run im_empty [IAppend 5]).
Proof.
  exists [1; 2]. eexists _, _, _. split; [vm_compute; reflexivity|].
  split; [vm_compute; reflexivity|]. vm_compute. discriminate.
Qed.
Print Assumptions C08_other_order_differs.
