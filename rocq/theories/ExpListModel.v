(** itlib/expected.hpp once more: expecteds whose values own further expecteds (ExpectedModel.v
    has expecteds of which none is a part of another).

    The value is a node of a list, as in

      struct Node { D data; std::unique_ptr<expected<Node, E>> next; };

    so an expected is a variable, or what the next of a node points to, and what it is reached
    through may be destroyed while it is used. Use of an expected which is gone, or of a value
    or an error which is not there, is [UB].

    Both expected<T, E> and expected<T, void> are modelled; [tv] says which one it is.

    Simplified: data and errors are plain, so a move leaves them as they are, and copying,
    moving and destroying them does nothing else; memory does not run out; a temporary is an
    expected like all others, at an address of its own. Recursion is on a number of steps;
    [Diverge] when they do not suffice. Copies are not modelled: a Node has none. *)
From Coq Require Import List Arith Bool.
From Verif Require Import Base.
Import ListNotations.

Section ExpList.
Context {D E : Type}.
Variable tv : bool.                  (* expected<Node, void>? *)

(** Node, as above: the data and the pointer *)
Definition node : Type := D * option nat.
(** expected.hpp 304-309, 629-634 (of expected<T, void>, there is no m_error): the members of
    the union which are there, m_has_value *)
Record ex : Type := mkEx { value : option node; error : option E; has : bool }.
Record st : Type := mkSt { heap : nat -> option ex; fresh : nat }.

Definition set_heap (a : nat) (x : option ex) (s : st) : st :=
  mkSt (fun y => if y =? a then x else heap s y) (fresh s).
Definition getx (a : nat) : M st ex := fun s =>
  match heap s a with Some x => Ok x s | None => UB end.
Definition putx (a : nat) (x : ex) : M st unit := fun s =>
  match heap s a with Some _ => Ok tt (set_heap a (Some x) s) | None => UB end.
(** Memory for one more expected, and the expected in it; then none *)
Definition make (x : ex) : M st nat := fun s =>
  Ok (fresh s) (mkSt (fun y => if y =? fresh s then Some x else heap s y) (S (fresh s))).
Definition gone (a : nat) : M st unit := fun s =>
  match heap s a with Some _ => Ok tt (set_heap a None s) | None => UB end.

(** m_value, m_error of the expected at a: they must be there. *)
Definition get_value (a : nat) : M st node :=
  let* x := getx a in match value x with Some v => ret v | None => ub end.
Definition get_error (a : nat) : M st E :=
  let* x := getx a in match error x with Some e => ret e | None => ub end.
Definition set_value (a : nat) (v : node) : M st unit :=
  let* x := getx a in match value x with Some _ => putx a (mkEx (Some v) (error x) (has x)) | None => ub end.
Definition set_error (a : nat) (e : E) : M st unit :=
  let* x := getx a in match error x with Some _ => putx a (mkEx (value x) (Some e) (has x)) | None => ub end.
(** ::new (&m_value) T, ::new (&m_error) E: nothing may be in the union. *)
Definition new_value (a : nat) (v : node) : M st unit :=
  let* x := getx a in
  match value x, error x with None, None => putx a (mkEx (Some v) None (has x)) | _, _ => ub end.
Definition new_error (a : nat) (e : E) : M st unit :=
  let* x := getx a in
  match value x, error x with None, None => putx a (mkEx None (Some e) (has x)) | _, _ => ub end.
Definition set_has (a : nat) (b : bool) : M st unit :=
  let* x := getx a in putx a (mkEx (value x) (error x) b).
Definition get_has (a : nat) : M st bool := let* x := getx a in ret (has x).

(** m_error.~E() (240) *)
Definition drop_error (a : nat) : M st unit :=
  get_error a ;;; let* x := getx a in putx a (mkEx (value x) None (has x)).
(** delete of what a unique_ptr has: ~expected (232-242, 565-571) and the memory *)
Fixpoint delete (n : nat) (p : option nat) : M st unit :=
  match p with
  | None => ret tt
  | Some b =>
      match n with
      | 0 => fun _ => Diverge
      | S n' =>
          let* h := get_has b in
          (if h
           then
             (* m_value.~T(): ~unique_ptr *)
             let* v := get_value b in
             delete n' (snd v) ;;;
             let* x := getx b in putx b (mkEx None (error x) (has x))
           else if tv then ret tt else drop_error b) ;;;
          gone b
      end
  end.
(** m_value.~T(): ~unique_ptr of the node *)
Definition drop_value (n : nat) (a : nat) : M st unit :=
  let* v := get_value a in
  delete n (snd v) ;;;
  let* x := getx a in putx a (mkEx None (error x) (has x)).

(** T(std::move(other.m_value)): data is copied, next gets what the other pointer releases. *)
Definition take (b : nat) : M st node :=
  let* v := get_value b in
  set_value b (fst v, None) ;;;
  ret v.
(** m_value = std::move(other.m_value): data, then unique_ptr's assignment, which is
    reset(other.release()): release; what was pointed to is deleted when next has the new
    pointer already. *)
Definition node_assign (n : nat) (a b : nat) : M st unit :=
  let* v := get_value b in
  let* w := get_value a in
  set_value a (fst v, snd w) ;;;
  let* v1 := get_value b in
  set_value b (fst v1, None) ;;;
  let* w1 := get_value a in
  set_value a (fst w1, snd v1) ;;;
  delete n (snd w1).

(** 195-206 expected(expected&&) of expected<T, E>, 536-543 of expected<T, void>: in memory of
    its own *)
Definition make_moved (b : nat) : M st nat :=
  let* h := get_has b in
  let* a := make (mkEx None None h) in
  (if h then let* v := take b in new_value a v
   else if tv then ret tt
   else let* e := get_error b in new_error a e) ;;;
  ret a.

(** 208-231 operator=(expected&&) of expected<T, E> *)
Definition te_assign (n : nat) (a b : nat) : M st unit :=
  let* ha := get_has a in
  let* hb := get_has b in
  if ha && hb then node_assign n a b
  else if ha && negb hb then
    set_has a false ;;;
    drop_value n a ;;;
    let* e := get_error b in
    new_error a e
  else if negb ha && hb then
    set_has a true ;;;
    drop_error a ;;;
    let* v := take b in
    new_value a v
  else
    let* e := get_error b in
    set_error a e.
(** 545-562 operator=(expected&&) of expected<T, void> *)
Definition tv_assign (n : nat) (a b : nat) : M st unit :=
  let* ha := get_has a in
  let* hb := get_has b in
  if ha && hb then node_assign n a b
  else if ha && negb hb then
    set_has a false ;;;
    drop_value n a
  else if negb ha && hb then
    set_has a true ;;;
    let* v := take b in
    new_value a v
  else ret tt.
Definition assign (n : nat) (a b : nat) : M st unit :=
  if tv then tv_assign n a b else te_assign n a b.

(** 579-584 clear, of expected<T, void> *)
Definition clear (n : nat) (a : nat) : M st unit :=
  let* h := get_has a in
  if negb h then ret tt else drop_value n a ;;; set_has a false.
(** 585-591 emplace, of expected<T, void>: with data and a null pointer; with a Node&& which is
    the value of another expected *)
Definition emplace (n : nat) (a : nat) (d : D) : M st unit :=
  clear n a ;;; new_value a (d, None) ;;; set_has a true.
Definition emplace_from (n : nat) (a b : nat) : M st unit :=
  clear n a ;;; let* v := take b in new_value a v ;;; set_has a true.

(** The next of the value of an expected, its next, and so on: value() (251-255, 594-598) asserts has_value(), and the
    pointer must have something to point to. *)
Fixpoint walk (a : nat) (j : nat) : M st nat :=
  match j with
  | 0 => ret a
  | S j' =>
      let* h := get_has a in
      if h then
        let* v := get_value a in
        match snd v with Some b => walk b j' | None => ub end
      else ub
  end.

(** What a program does with m variables, which are the expecteds at 0, ..., m - 1. A place is
    a variable and a number of nexts. *)
Definition place : Type := nat * nat.
Inductive op : Type :=
| SetValue (p : place) (d : D)       (* x = expected(Node{d, nullptr}) *)
| SetError (p : place) (e : E)       (* x = unexpected(e); x = unexpected() *)
| Push (p : place) (d : D)           (* x = expected(Node{d, make_unique<expected>(move(x))}) *)
| Move (p q : place)                 (* x = move(y) *)
| Emplace (p : place) (d : D)        (* x.emplace(Node{d, nullptr}) *)
| EmplaceFrom (p q : place)          (* x.emplace(move(y.value())) *)
| Peek (p : place).                  (* x ? x->data : x.error() *)
Inductive ans : Type :=
| Done
| SawValue (d : D)
| SawError (e : option E).

(** x = a temporary: the temporary is destroyed afterwards. *)
Definition assign_temporary (n : nat) (a : nat) (x : ex) : M st unit :=
  let* t := make x in
  assign n a t ;;;
  delete n (Some t).

Definition call (n : nat) (o : op) : M st ans :=
  match o with
  | SetValue (i, j) d =>
      let* a := walk i j in
      (* 181, 506 *)
      assign_temporary n a (mkEx (Some (d, None)) None true) ;;; ret Done
  | SetError (i, j) e =>
      let* a := walk i j in
      (* 184, 507 *)
      assign_temporary n a (mkEx None (if tv then None else Some e) false) ;;; ret Done
  | Push (i, j) d =>
      let* a := walk i j in
      let* f := make_moved a in
      assign_temporary n a (mkEx (Some (d, Some f)) None true) ;;; ret Done
  | Move (i, j) (k, h) =>
      let* a := walk i j in
      let* b := walk k h in
      assign n a b ;;; ret Done
  | Emplace (i, j) d =>
      if tv then let* a := walk i j in emplace n a d ;;; ret Done else ub
  | EmplaceFrom (i, j) (k, h) =>
      if tv then
        let* a := walk i j in
        let* b := walk k h in
        let* x := get_has b in
        if x then emplace_from n a b ;;; ret Done else ub
      else ub
  | Peek (i, j) =>
      let* a := walk i j in
      let* h := get_has a in
      if h then let* v := get_value a in ret (SawValue (fst v))
      else if tv then ret (SawError None)
      else let* e := get_error a in ret (SawError (Some e))
  end.
Fixpoint run (n : nat) (os : list op) : M st (list ans) :=
  match os with
  | [] => ret []
  | o :: os' => let* a := call n o in let* l := run n os' in ret (a :: l)
  end.

(** m variables, default constructed (180, 505); the end of their scope *)
Definition start (m : nat) (d0 : D) : st :=
  mkSt (fun a => if a <? m then Some (mkEx (Some (d0, None)) None true) else None) m.
Fixpoint leave (n : nat) (m : nat) : M st unit :=
  match m with
  | 0 => ret tt
  | S m' => delete n (Some m') ;;; leave n m'
  end.
End ExpList.
Arguments node : clear implicits.
Arguments ex : clear implicits.
Arguments st : clear implicits.
Arguments op : clear implicits.
Arguments ans : clear implicits.
