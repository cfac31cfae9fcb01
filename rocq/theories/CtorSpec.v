(** Specification vocabulary for the constructors of static_vector and small_vector. *)
From Coq Require Import List Arith NArith.
From Verif Require Import Base VecCommon CtorModel.
From Verif Require StaticVectorModel SmallVectorModel.
Import ListNotations.

Section Spec.
Context {V : Type}.

(** What the vector is to contain. *)
Definition contents (dflt : V) (c : ctor V) : list V :=
  match c with
  | FromCount n => repeat dflt n
  | FromFill n v => repeat v n
  | FromRange l | FromList l => l
  end.

(** No element construction among the first [n] throws. *)
Definition none_throws (fuse0 : option nat) (n : nat) : Prop :=
  match fuse0 with None => True | Some k => n <= k end.

(** No object is alive in a static_vector's storage. *)
Definition no_object (s : @StaticVectorModel.sv V) : Prop :=
  forall i v, nth_error (StaticVectorModel.data s) i <> Some (Live v).

(** No object is alive anywhere and no block is held but the static buffer. *)
Definition nothing_held (s : @SmallVectorModel.vec V) : Prop :=
  forall b l, nth_error (SmallVectorModel.blocks s) b = Some (SmallVectorModel.Blk l) ->
    b = 0 /\ Forall (fun x => x = Raw) l.
End Spec.
