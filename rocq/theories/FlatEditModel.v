(** Model: what users can do to the elements of a flat_map or flat_set without its calls.

    The iterators of both classes are those of the container (flat_map.hpp 154, flat_set.hpp
    117), and not only the const ones: [*it = e] compiles for a flat_set, [it->first = k] for a
    flat_map.  modify_container() gives the container itself (flat_map.hpp 385-389,
    flat_set.hpp 317-321). *)
From Coq Require Import List Arith Bool.
From Verif Require Import Base SeqSpec VecCommon FlatModel.
Import ListNotations.

Inductive uop (O E : Type) : Type :=
| UCall (o : O)                (* a call of the map or set *)
| UWrite (pos : nat) (e : E)   (* *(begin() + pos) = e *)
| UPut (pos : nat) (e : E)     (* modify_container().insert(begin() + pos, e) *)
| UDrop (pos : nat).           (* modify_container().erase(begin() + pos) *)
Arguments UCall {O E} o.
Arguments UWrite {O E} pos e.
Arguments UPut {O E} pos e.
Arguments UDrop {O E} pos.

Section Edit.
Context {E C CT T O : Type}.
Variable cont : container E CT.
(** The calls: [fcall] for sets, [mcall] for maps. *)
Variable call : O -> M (flat C CT) (fret T).

Definition ucall (o : uop O E) : M (flat C CT) (fret T) :=
  match o with
  | UCall o' => call o'
  | UWrite pos e => onc (c_put cont pos e) ;;; ret ANone
  | UPut pos e => onc (c_call cont (Insert pos e)) ;;; ret ANone
  | UDrop pos => onc (c_call cont (Erase pos)) ;;; ret ANone
  end.
End Edit.
