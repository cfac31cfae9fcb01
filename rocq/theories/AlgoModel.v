(** Model of include/itlib/qalgorithm.hpp.

    The state is the sequence of elements of a container; iterators are positions. std::find,
    std::find_if, std::remove and std::remove_if are the loops the standard describes: one
    application of the predicate per element, in order; remove moves each kept element down to
    the first free place. A moved-from element holds [moved] of its value. Predicates may throw.
    The value searched for is given by reference: it may be a part of an element of the
    container itself. *)
From Coq Require Import List Arith Bool.
From Verif Require Import Base.
Import ListNotations.

Section Algo.
Context {X V : Type}.
Variable eqb : X -> V -> bool.      (* *it == val *)
Variable moved : X -> X.
Variable part : X -> V.             (* the part of an element a reference may refer to *)

Definition size : M (list X) nat := fun l => Ok (length l) l.
Definition read (i : nat) : M (list X) X :=
  fun l => match nth_error l i with Some x => Ok x l | None => UB end.
Definition write (i : nat) (x : X) : M (list X) unit :=
  fun l => if i <? length l then Ok tt (upd l i x) else UB.
(** Container::erase of one position and of a range *)
Definition erase (i : nat) : M (list X) unit :=
  fun l => if i <? length l then Ok tt (firstn i l ++ skipn (S i) l) else UB.
Definition erase_range (i j : nat) : M (list X) unit :=
  fun l => if (i <=? j) && (j <=? length l) then Ok tt (firstn i l ++ skipn j l) else UB.

Inductive value : Type := Outside (v : V) | PartOf (i : nat).
Definition deref (v : value) : M (list X) V :=
  match v with
  | Outside v => ret v
  | PartOf i => let* x := read i in ret (part x)
  end.

(** A test of an element: comparison to the value, or a call of a predicate. *)
Definition equals (v : value) (x : X) : M (list X) bool := let* w := deref v in ret (eqb x w).
Definition call (p : X -> option bool) (x : X) : M (list X) bool :=
  match p x with Some b => ret b | None => throw ElemThrow end.

(** std::find, std::find_if *)
Fixpoint find_loop (test : X -> M (list X) bool) (n i : nat) : M (list X) nat :=
  match n with
  | O => ret i
  | S n' =>
      let* x := read i in
      let* b := test x in
      if (b : bool) then ret i else find_loop test n' (S i)
  end.
Definition find (test : X -> M (list X) bool) : M (list X) nat :=
  let* n := size in find_loop test n 0.

(** std::remove, std::remove_if *)
Fixpoint remove_loop (test : X -> M (list X) bool) (n i result : nat) : M (list X) nat :=
  match n with
  | O => ret result
  | S n' =>
      let* x := read i in
      let* b := test x in
      if (b : bool) then remove_loop test n' (S i) result
      else (write result x ;;; write i (moved x) ;;; remove_loop test n' (S i) (S result))
  end.
Definition remove (test : X -> M (list X) bool) : M (list X) nat :=
  let* n := size in
  let* f := find_loop test n 0 in
  if f =? n then ret f else remove_loop test (n - S f) (S f) f.

(** 86-90, 100-104 *)
Definition qfind (v : value) : M (list X) nat := find (equals v).
Definition qfind_if (p : X -> option bool) : M (list X) nat := find (call p).
(** 92-98, 106-112: a pointer to the element at the position, or null *)
Definition pointer (f : M (list X) nat) : M (list X) (option nat) :=
  let* i := f in let* n := size in
  if i =? n then ret None else (let* x := read i in ret (Some i)).
Definition pfind (v : value) : M (list X) (option nat) := pointer (find (equals v)).
Definition pfind_if (p : X -> option bool) : M (list X) (option nat) := pointer (find (call p)).
(** 114-130 *)
Definition erase_found (f : M (list X) nat) : M (list X) bool :=
  let* i := f in let* n := size in
  if i =? n then ret false else (erase i ;;; ret true).
Definition erase_first (v : value) : M (list X) bool := erase_found (qfind v).
Definition erase_first_if (p : X -> option bool) : M (list X) bool := erase_found (qfind_if p).
(** 132-148 *)
Definition erase_removed (r : M (list X) nat) : M (list X) nat :=
  let* newend := r in let* n := size in
  let result := n - newend in
  erase_range newend n ;;; ret result.
Definition erase_all (v : value) : M (list X) nat := erase_removed (remove (equals v)).
Definition erase_all_if (p : X -> option bool) : M (list X) nat := erase_removed (remove (call p)).
(** 150-167; std::all_of, any_of, none_of are defined by find_if(_not) *)
Definition negated (p : X -> option bool) (x : X) : option bool := option_map negb (p x).
Definition qall_of (p : X -> option bool) : M (list X) bool :=
  let* i := find (call (negated p)) in let* n := size in ret (i =? n).
Definition qany_of (p : X -> option bool) : M (list X) bool :=
  let* i := find (call p) in let* n := size in ret (negb (i =? n)).
Definition qnone_of (p : X -> option bool) : M (list X) bool :=
  let* i := find (call p) in let* n := size in ret (i =? n).
(** The forms without a predicate use identity: the element itself, as a bool. *)
Definition identity (as_bool : X -> bool) (x : X) : option bool := Some (as_bool x).
End Algo.
Arguments value : clear implicits.
