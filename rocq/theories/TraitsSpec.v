(** Specification: what makes a cast a no-op, and where the trait is right about it. *)
From Coq Require Import List ZArith NArith Bool.
From Verif Require Import Base VecCommon TraitsModel.
Import ListNotations.

Section Spec.
Variable base : nat -> nat -> option N.
Variable float_to_float : nat -> nat -> N -> N.
Variable float_to_int : nat -> N -> option Z.
Variable int_to_float : nat -> Z -> N.
Notation cast := (cast base float_to_float float_to_int int_to_float).

(** Casting from one type to the other is a no-op: every value can be cast, and has the same
    bytes then. *)
Definition noop (from to : ty) : Prop :=
  forall v, has_type from v -> exists w, cast from to v = Some w /\ bytes to w = bytes from v.

Definition of_bool (t : ty) : bool :=
  match t with TInt IBool | TEnum IBool => true | _ => false end.
(** No base class is away from the start of the classes c and d. *)
Definition aligned (c d : nat) : Prop :=
  (forall o, base c d = Some o -> o = 0%N) /\ (forall o, base d c = Some o -> o = 0%N).
(** Left out: casts to enumerations of bool from other numbers, between different floating point formats,
    between classes at an offset, and those of pointers to enumerations, of null to enumerations
    and to pointers to members, of anything else from or to pointers to members and to null. Whatever
    else the trait claims has to be right, for scalar types or not. *)
Definition harmless (from to : ty) : Prop :=
  match from, to with
  | (TInt _ | TEnum _), TEnum IBool => of_bool from = true
  | TFloat f _, TFloat g _ => f = g
  | TPtr c, TPtr d => aligned c d
  | TMember c, TMember d => aligned c d
  | TNull, TNull => True
  | TMember _, TInt IBool => True
  | TMember _, _ | _, TMember _ | _, TNull => False
  | (TPtr _ | TVoidPtr | TNull), TEnum _ => False
  | _, _ => True
  end.
End Spec.
