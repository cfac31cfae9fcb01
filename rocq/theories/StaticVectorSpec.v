(** Specification vocabulary for the static_vector properties.  It refers to the model
    only through the state's two fields (the slots and the size). *)
From Coq Require Import List Arith NArith.
From Verif Require Import Base SeqSpec VecCommon StaticVectorModel.
Import ListNotations.

Section Spec.
Context {V : Type}.

(** The vector holds exactly the sequence [xs]: size() is its length, the object in slot
    i has the value xs[i], and no other slot holds an object. *)
Definition represents (Capacity : nat) (s : @sv V) (xs : list V) : Prop :=
  length (data s) = Capacity /\
  size s = length xs /\
  length xs <= Capacity /\
  forall i, i < Capacity ->
    nth_error (data s) i =
    Some (match nth_error xs i with Some v => Live v | None => Raw end).

(** An object is alive in a slot exactly if the slot's index is below size(). *)
Definition exactly_first_alive (Capacity : nat) (s : @sv V) : Prop :=
  length (data s) = Capacity /\
  size s <= Capacity /\
  forall i, i < Capacity ->
    (i < size s <-> exists v, nth_error (data s) i = Some (Live v)).

(** The calls allowed in a history: those std::vector allows ([in_range]), except an
    empty erase before the end ([C03]); and counts whose sum with the size fits into
    size_t ([C04]). *)
Definition call_ok (xs : list V) (o : vop V) : Prop :=
  in_range xs o /\
  match o with
  | EraseRange first last => first = last -> first = length xs
  | InsertN _ n _ => (N.of_nat (length xs) + N.of_nat n < two64)%N
  | InsertRange _ l => (N.of_nat (length xs) + N.of_nat (length l) < two64)%N
  | _ => True
  end.

(** The vector can go on being used and be destroyed: it holds some sequence. *)
Definition usable (Capacity : nat) (s : @sv V) : Prop := exists xs, represents Capacity s xs.

(** However the call ends, it ends, without undefined behaviour, in a usable vector. *)
Definition leaves_usable (Capacity : nat) {A} (r : res (@sv V) A) : Prop :=
  match r with
  | Ok _ s => usable Capacity s
  | Throw _ s => usable Capacity s
  | UB => False
  | Diverge => False
  end.

(** Every call but insertion at a position. *)
Definition not_insert (o : vop V) : Prop :=
  match o with
  | Insert _ _ | InsertN _ _ _ | InsertRange _ _ => False
  | _ => True
  end.
End Spec.
