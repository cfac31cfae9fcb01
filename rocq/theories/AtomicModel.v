(** Model of /repo/include/itlib/atomic.hpp: atomic_relaxed_counter<I>.

    The type I is any integral type with [bits] bits, signed or not.  Its values are integers.
    One std::atomic<I> is one atomic action per operation.  The memory orders are relaxed; for
    one location that makes no difference to interleaving, because all operations on one
    atomic object are in one total order (its modification order, with every load placed after
    the write it reads) which agrees with the order in each thread.  How operations on this
    counter are ordered with those on other objects is not modelled. *)
From Coq Require Import ZArith List Bool.
From Verif Require Import Base ConcModel.
Open Scope Z_scope.

Section Atomic.
Variable bits : Z.        (* sizeof(I) * 8 *)
Variable sgn : bool.      (* std::is_signed<I> *)

(** The values of I. *)
Definition lo : Z := if sgn then - 2 ^ (bits - 1) else 0.
Definition hi : Z := if sgn then 2 ^ (bits - 1) - 1 else 2 ^ bits - 1.

(** Conversion to I: modulo 2^bits (for signed I implementation defined before C++20, but so
    on every implementation; C++20 requires it). *)
Definition norm (z : Z) : Z := (z - lo) mod 2 ^ bits + lo.

(** a + d in an expression with a of type I (the "+ 1", "- i" after fetch_add and fetch_sub,
    atomic.hpp 77-82), the result converted to I by the return.  Types narrower than int are
    promoted and never overflow; unsigned ones wrap; the others overflow: undefined. *)
Definition wide_signed : bool := sgn && (32 <=? bits).
Definition plus (a d : Z) : option Z :=
  if wide_signed then
    if (lo <=? a + d) && (a + d <=? hi) then Some (a + d) else None
  else Some (norm (a + d)).

Definition ac := code Z (option Z).

(** std::atomic<I>: load, store, fetch_add and fetch_sub (which wrap around without undefined
    behaviour, also for signed I: [atomics.types.int]). *)
Definition a_load : code Z Z := atom (fun v => (v, v)).
Definition a_store (i : Z) : code Z unit := atom (fun _ => (i, tt)).
Definition a_fetch_add (d : Z) : code Z Z := atom (fun v => (norm (v + d), v)).
Definition a_fetch_sub (d : Z) : code Z Z := atom (fun v => (norm (v - d), v)).

Definition ret_plus (old d : Z) : ac :=
  match plus old d with
  | Some r => Ret (Some r)
  | None => cbad
  end.

Open Scope c_scope.

(** atomic.hpp 72: load *)
Definition load : ac := do* v := a_load in Ret (Some v).
(** atomic.hpp 73: store *)
Definition store (i : Z) : ac := a_store i ;;; Ret None.
(** atomic.hpp 75: operator I *)
Definition conv : ac := load.
(** atomic.hpp 77: operator++() *)
Definition pre_inc : ac := do* o := a_fetch_add 1 in ret_plus o 1.
(** atomic.hpp 78: operator++(int) *)
Definition post_inc : ac := do* o := a_fetch_add 1 in Ret (Some o).
(** atomic.hpp 79: operator+= *)
Definition add_assign (i : Z) : ac := do* o := a_fetch_add i in ret_plus o i.
(** atomic.hpp 80: operator--() *)
Definition pre_dec : ac := do* o := a_fetch_sub 1 in ret_plus o (- (1)).
(** atomic.hpp 81: operator--(int) *)
Definition post_dec : ac := do* o := a_fetch_sub 1 in Ret (Some o).
(** atomic.hpp 82: operator-= *)
Definition sub_assign (i : Z) : ac := do* o := a_fetch_sub i in ret_plus o (- i).
(** atomic.hpp 84-87: operator=(I) *)
Definition assign (i : Z) : ac := store i ;;; Ret (Some i).
(** atomic.hpp 67-70: operator=(const atomic_relaxed_counter&) from another counter, whose
    load() gave [v] *)
Definition assign_from (v : Z) : ac := a_store v ;;; Ret None.
(** The same from itself: load, then store. *)
Definition assign_self : ac := do* v := a_load in a_store v ;;; Ret None.

Inductive acall : Type :=
| CLoad | CConv | CStore (i : Z) | CAssign (i : Z) | CFrom (v : Z) | CSelf
| CPreInc | CPostInc | CAdd (i : Z) | CPreDec | CPostDec | CSub (i : Z).

Definition aimpl (_ : nat) (c : acall) : ac :=
  match c with
  | CLoad => load | CConv => conv | CStore i => store i | CAssign i => assign i
  | CFrom v => assign_from v | CSelf => assign_self
  | CPreInc => pre_inc | CPostInc => post_inc | CAdd i => add_assign i
  | CPreDec => pre_dec | CPostDec => post_dec | CSub i => sub_assign i
  end.
Definition acview (_ : Z) (c : acall) : acall := c.
Definition arview (_ : Z) (r : option Z) : option Z := r.

(** Arguments are values of I. *)
Definition aarg (c : acall) : Prop :=
  match c with
  | CStore i | CAssign i | CFrom i | CAdd i | CSub i => lo <= i <= hi
  | _ => True
  end.
End Atomic.
