(** Vocabulary for the Z-surface properties: plane maps and what a history of
    transforms should do; none of it refers to the model. *)
From Coq Require Import List Reals.
Import ListNotations.
Open Scope R_scope.

(** The map p |-> A (p - c) + c + b of the plane; A is ((a00, a01), (a10, a11)). *)
Definition about (A : (R * R) * (R * R)) (b c p : R * R) : R * R :=
  (fst (fst A) * (fst p - fst c) + snd (fst A) * (snd p - snd c) + fst c + fst b,
   fst (snd A) * (fst p - fst c) + snd (snd A) * (snd p - snd c) + snd c + snd b).

(** The point with barycentric-like coordinates (u, v) of the parallelogram with
    corner o and neighbours a (for u) and b (for v). *)
Definition on_parallelogram (o a b : R * R) (p : R * R) : R * R :=
  (fst o + fst p * (fst a - fst o) + snd p * (fst b - fst o),
   snd o + fst p * (snd a - snd o) + snd p * (snd b - snd o)).

(** Height of a surface described by a partial function: scaling by s about the
    height in the middle of the unit square and a shift by t. *)
Definition height := R -> R -> option R.
Definition scaled (f : height) (s t : R) : height := fun u v =>
  match f u v, f (1/2) (1/2) with
  | Some z, Some c => Some (s * (z - c) + c + t)
  | _, _ => None
  end.

(** What happens to one surface: a height transform is set, or it is made
    permanent. The state is the permanent height and the transform set on it. *)
Inductive zevent := ZSet (s t : R) | ZFix.
Definition zstate : Type := height * option (R * R).
Definition zheight (st : zstate) : height :=
  match snd st with None => fst st | Some (s, t) => scaled (fst st) s t end.
Definition zstep (st : zstate) (e : zevent) : zstate :=
  match e with
  | ZSet s t => (fst st, Some (s, t))
  | ZFix => (zheight st, None)
  end.
Definition zrun (f : height) (es : list zevent) : zstate := fold_left zstep es (f, None).

(** The last element of a list of optional things. *)
Fixpoint last_some {A} (l : list (option A)) : option A :=
  match l with
  | [] => None
  | x :: r => match last_some r with Some y => Some y | None => x end
  end.

(** The points o + i du + j dv, row by row (j runs first). *)
Definition lattice (o du dv : R * R) (nu nv : nat) (l : list (R * R)) : Prop :=
  length l = (nu * nv)%nat /\
  forall i j, (i < nu)%nat -> (j < nv)%nat ->
    nth (i * nv + j) l (0, 0) =
      (fst o + INR i * fst du + INR j * fst dv, snd o + INR i * snd du + INR j * snd dv).
