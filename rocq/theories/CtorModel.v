(** Model of the constructors of /repo/include/itlib/static_vector.hpp and
    /repo/include/itlib/small_vector.hpp, as seen when something in them throws.

    static_vector: no constructor delegates to another one, so when a body throws, the
    destructor does not run (C++ [except.ctor]); m_data is raw storage, whose own
    destruction does nothing to the objects in it.  What the storage holds when the
    exception leaves the constructor is what stays behind.

    small_vector: all constructors modelled here delegate to small_vector(alloc)
    (224-229), directly or through another one; the object counts as constructed once
    that one is done, so when the delegating body throws, the destructor runs.

    [fuse0] says which element construction throws (see StaticVectorModel.fuse).  The
    move constructors are in StaticVectorModel and SmallVectorModel (moves do not throw). *)
From Coq Require Import List Arith NArith Bool.
From Verif Require Import Base VecCommon.
From Verif Require StaticVectorModel SmallVectorModel.
Import ListNotations.

(** The constructors which make elements, with their arguments: (count), (count, value),
    (first, last), (initializer_list). *)
Inductive ctor (V : Type) : Type :=
| FromCount (count : nat)
| FromFill (count : nat) (v : V)
| FromRange (l : list V)
| FromList (l : list V).
Arguments FromCount {V} count.
Arguments FromFill {V} count v.
Arguments FromRange {V} l.
Arguments FromList {V} l.

Module Static.
Import StaticVectorModel.
Section Ctor.
Context {V : Type}.
Variable moved : V -> V.
Variable dflt : V.
Variable Capacity : nat.

(** The storage before the constructor's body: m_size = 0 (static_vector.hpp:672-673). *)
Definition blank (fuse0 : option nat) : @sv V := with_fuse fuse0 (init_sv Capacity).

(** static_vector.hpp:593-601 assign_impl_val. *)
Definition impl_val (count : nat) (v : V) : M sv unit :=
  throw_if (Capacity <? count) OutOfRange ;;;
  push_n Capacity count (CopyOf v).

(** static_vector.hpp:603-612 assign_impl_iter (its comparison is made in [long], see
    StaticVectorModel.assign_range) and 614-622 assign_impl_ilist. *)
Definition impl_iter (l : list V) : M sv unit :=
  throw_if (Capacity <? length l) OutOfRange ;;;
  push_list Capacity l.

(** static_vector.hpp:187-190 (count), 192-195 (count, value), 197-201 (first, last),
    203-206 (initializer_list). *)
Definition body (c : ctor V) : M sv unit :=
  match c with
  | FromCount count => resize moved dflt Capacity count
  | FromFill count v => impl_val count v
  | FromRange l => impl_iter l
  | FromList l => impl_iter l
  end.

(** The constructor as a whole: [Ok]: the vector; [Throw]: what is left in the storage. *)
Definition make (c : ctor V) (fuse0 : option nat) : res (@sv V) unit := body c (blank fuse0).

(** static_vector.hpp:216-225 the constructor from a static_vector of another capacity,
    *this on the left. *)
Definition copy_other (v : @sv V) (fuse0 : option nat) : res (sv * sv) unit :=
  (let* st := get in
   throw_if (Capacity <? size (snd st)) OutOfRange ;;;
   let* st := get in
   copy_from_loop Capacity 0 (size (snd st))) (blank fuse0, v).

(** static_vector.hpp:208-214 the copy constructor, *this on the left. *)
Definition copy_same (v : @sv V) (fuse0 : option nat) : res (sv * sv) unit :=
  (let* st := get in copy_from_loop Capacity 0 (size (snd st))) (blank fuse0, v).
End Ctor.
End Static.

Module Small.
Import SmallVectorModel.
Section Ctor.
Context {V : Type}.
Variable moved : V -> V.
Variable dflt : V.
Variable SC RB : nat.
Variable maxn : N.

(** small_vector.hpp:224-229, the constructor all others delegate to. *)
Definition blank (fuse0 : option nat) : @vec V := with_fuse fuse0 (init_vec SC).

(** small_vector.hpp:231-235 (count), 237-241 (count, value), 243-248 (first, last),
    250-254 (initializer_list). *)
Definition body (c : ctor V) : M vec unit :=
  match c with
  | FromCount count => resize moved dflt SC RB maxn (N.of_nat count)
  | FromFill count v => assign_copy SC RB maxn (repeat v count)
  | FromRange l => assign_copy SC RB maxn l
  | FromList l => assign_copy SC RB maxn l
  end.

(** A delegating constructor: an exception from the body runs the destructor
    (small_vector.hpp:273-281) and goes on. *)
Definition delegating (m : M vec unit) : M (@vec V) unit := fun s =>
  match m s with
  | Throw e s' =>
      match destructor s' with
      | Ok _ s'' => Throw e s''
      | Throw e' s'' => Throw e' s''
      | UB => UB
      | Diverge => Diverge
      end
  | r => r
  end.

Definition make (c : ctor V) (fuse0 : option nat) : res (@vec V) unit :=
  delegating (body c) (blank fuse0).

(** small_vector.hpp:256-264 the copy constructors, reading the other vector; *this on the
    left. *)
Definition copy_same (v : @vec V) (fuse0 : option nat) : res (vec * vec) unit :=
  (let* l := onR read_all in onL (delegating (assign_copy SC RB maxn l))) (blank fuse0, v).
End Ctor.
End Small.
