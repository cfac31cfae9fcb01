(** Specification: what is left of a small_vector when a constructor of an element or the
    allocator throws in the middle of a call. *)
From Coq Require Import List Arith NArith Lia.
From Verif Require Import Base SeqSpec VecCommon SmallVectorModel SmallVectorSpec.
Import ListNotations.

Section Spec.
Context {V : Type}.
Variable dflt : V.
Variable SC RB : nat.

(** The number of elements a call has to construct from something other than an element of
    the vector (moves are not counted: they do not throw here). *)
Definition built (xs : list V) (o : @smallop V) : nat :=
  match o with
  | Seq (PushBack _) | Seq (Insert _ _) => 1
  | Seq (InsertN _ n _) => n
  | Seq (InsertRange _ l) => length l
  | Seq (Resize n) | Seq (ResizeVal n _) => n - length xs
  | Seq (AssignN n _) => n
  | Seq (AssignRange l) => length l
  | _ => 0
  end.

(** The contents an assignment asks for. *)
Definition assigned (o : @smallop V) : option (list V) :=
  match o with
  | Seq (AssignN n v) => Some (repeat v n)
  | Seq (AssignRange l) => Some l
  | _ => None
  end.

(** [n] elements stay in the buffer the vector has. *)
Definition in_place (s : @vec V) (n : nat) : Prop := n <= vcap s /\ (vb s = 0 \/ RB <= n).

(** The call would be answered without an exception by a vector whose elements do not throw. *)
Definition succeeds (xs : list V) (o : @smallop V) : Prop :=
  forall e, snd (small_step dflt xs o) <> RThrow e.

(** What is left after the [k]-th construction of a call on [s] threw: the elements assigned
    so far if it was an assignment which needed no other buffer, and otherwise something that
    cannot be destroyed. *)
Definition left_by (s : @vec V) (o : @smallop V) (k : nat) (s' : @vec V) : Prop :=
  match assigned o with
  | Some l =>
      (in_place s (length l) -> holds SC s' (firstn k l)) /\
      (~ in_place s (length l) -> destructor s' = UB)
  | None => destructor s' = UB
  end.
End Spec.
