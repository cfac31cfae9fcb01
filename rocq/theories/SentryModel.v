(** Model of include/itlib/sentry.hpp, and of the programs which use it.

    A program is a tree of statements: declarations of sentries in blocks, sentries created by
    new and destroyed by delete, moves, throw, return, try and function calls. It describes one
    path through a C++ function: conditions are taken and loops unrolled. Objects are numbered;
    using one which does not exist, or constructing over one which does, is [Undefined].

    [F] is the function object kept in m_func: a value if make_sentry is given an rvalue, the
    reference itself if it is given an lvalue. [ctor_throws], [move_throws] and [call_throws]
    tell for which of them the constructor of m_func from the argument, the move and the call
    throw. What the function does besides is not modelled. *)
From Coq Require Import List Arith Bool.
From Verif Require Import Base.
Import ListNotations.

Section Sentry.
Context {F : Type}.
Variable cxx17 : bool.                       (* __cplusplus >= 201700 *)
Variable moved : F -> F.                     (* what is left of a function moved from *)
Variables ctor_throws move_throws call_throws : F -> bool.

(** Members 101, 119. In C++17 there is no m_has_func: [has_func] is then never read. *)
Record sentry : Type := mkSentry { func : F; has_func : bool }.

(** What happens to sentries, and the calls of their functions. The log has the last first. *)
Inductive event : Type :=
| Made (x : nat) (f : F)          (* constructed from a function *)
| MovedTo (x y : nat)             (* x constructed from y *)
| Destroyed (x : nat)
| Ran (f : F).

Record store : Type := mkStore {
  objs : nat -> option sentry;
  autos : list nat;               (* the automatic objects of the current block, last first *)
  log : list event
}.

(** How a statement ends: normally, by an exception, by return, in std::terminate. *)
Inductive out : Type :=
| Normal (s : store)
| Threw (s : store)
| Returned (s : store)
| Terminated (s : store)
| Undefined.

Definition and_then (o : out) (k : store -> out) : out :=
  match o with Normal s => k s | o => o end.

Definition set_obj (s : store) (x : nat) (o : option sentry) (e : event) : store :=
  mkStore (setm (objs s) x o) (autos s) (e :: log s).

(** 92, 119 *)
Definition construct (x : nat) (f : F) (s : store) : out :=
  match objs s x with
  | Some _ => Undefined
  | None => if ctor_throws f then Threw s
            else Normal (set_obj s x (Some (mkSentry f true)) (Made x f))
  end.

(** 111-116. noexcept: a throwing move of m_func terminates. Deleted in C++17 (105). *)
Definition move_construct (x y : nat) (s : store) : out :=
  if cxx17 then Undefined
  else match objs s x, objs s y with
       | None, Some o =>
           if move_throws (func o) then Terminated s
           else Normal (set_obj (mkStore (setm (objs s) y (Some (mkSentry (moved (func o)) false)))
                                         (autos s) (log s))
                                x (Some (mkSentry (func o) (has_func o))) (MovedTo x y))
       | _, _ => Undefined
       end.

(** 106, 117. Destructors are noexcept: a throwing call terminates. *)
Definition destroy (x : nat) (s : store) : out :=
  match objs s x with
  | None => Undefined
  | Some o =>
      let s' := set_obj s x None (Destroyed x) in
      if cxx17 || has_func o
      then let s'' := mkStore (objs s') (autos s') (Ran (func o) :: log s') in
           if call_throws (func o) then Terminated s'' else Normal s''
      else Normal s'
  end.

(** make_sentry 122-126. [via]: the temporaries through which the result travels where the
    moves are not elided, each one destroyed once the next one is constructed. In C++17 there
    are none. *)
Fixpoint pass_on (from : nat) (via : list nat) (x : nat) (s : store) : out :=
  match via with
  | [] => and_then (move_construct x from s) (destroy from)
  | t :: via' => and_then (move_construct t from s)
                   (fun s => and_then (destroy from s) (pass_on t via' x))
  end.
Definition make_sentry (x : nat) (f : F) (via : list nat) (s : store) : out :=
  match via with
  | [] => construct x f s
  | t :: via' => and_then (construct t f s) (pass_on t via' x)
  end.

(** An automatic object: destroyed on leaving the block. *)
Definition add_auto (x : nat) (s : store) : out :=
  Normal (mkStore (objs s) (x :: autos s) (log s)).

(** Leaving a block: its objects are destroyed in reverse order of declaration. *)
Fixpoint destroy_all (l : list nat) (s : store) : out :=
  match l with
  | [] => Normal s
  | x :: l' => and_then (destroy x s) (destroy_all l')
  end.
Definition leave (outer : list nat) (s : store) : out :=
  and_then (destroy_all (autos s) s) (fun s => Normal (mkStore (objs s) outer (log s))).
(** ... however it is left: an exception or a return goes on afterwards. *)
Definition leave_block (outer : list nat) (o : out) : out :=
  match o with
  | Normal s => leave outer s
  | Threw s => and_then (leave outer s) Threw
  | Returned s => and_then (leave outer s) Returned
  | o => o
  end.

Inductive stmt : Type :=
| Make (x : nat) (f : F) (via : list nat)      (* auto x = make_sentry(f); *)
| New (x : nat) (f : F)                        (* new sentry(f) *)
| Move (x y : nat)                             (* sentry x(std::move(y)); *)
| NewMove (x y : nat)                          (* new sentry(std::move(y)) *)
| Delete (x : nat)
| ThrowStmt
| ReturnStmt
| Block (b : list stmt)                        (* { b } *)
| TryCatch (b h : list stmt)                   (* try { b } catch (...) { h } *)
| CallFun (b : list stmt).                     (* a call of a function with the body { b } *)

Definition run_list (run : stmt -> store -> out) : list stmt -> store -> out :=
  fix go (b : list stmt) (s : store) : out :=
    match b with
    | [] => Normal s
    | c :: b' => and_then (run c s) (go b')
    end.
Definition enter (s : store) : store := mkStore (objs s) [] (log s).

Fixpoint run (c : stmt) (s : store) : out :=
  match c with
  | Make x f via => and_then (make_sentry x f via s) (add_auto x)
  | New x f => construct x f s
  | Move x y => and_then (move_construct x y s) (add_auto x)
  | NewMove x y => move_construct x y s
  | Delete x => if existsb (Nat.eqb x) (autos s) then Undefined else destroy x s
  | ThrowStmt => Threw s
  | ReturnStmt => Returned s
  | Block b => leave_block (autos s) (run_list run b (enter s))
  | TryCatch b h =>
      match leave_block (autos s) (run_list run b (enter s)) with
      | Threw s' => leave_block (autos s') (run_list run h (enter s'))
      | o => o
      end
  | CallFun b =>
      match leave_block (autos s) (run_list run b (enter s)) with
      | Returned s' => Normal s'
      | o => o
      end
  end.

Definition init : store := mkStore (fun _ => None) [] [].
(** A whole program: the body of a function, run from nothing. *)
Definition program (b : list stmt) : out := run (CallFun b) init.
End Sentry.
Arguments sentry : clear implicits.
Arguments event : clear implicits.
Arguments store : clear implicits.
Arguments out : clear implicits.
Arguments stmt : clear implicits.
