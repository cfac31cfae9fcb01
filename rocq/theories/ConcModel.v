(** Threads which run calls of a shared object, step by step.

    Nothing in this file models code of /repo: it is the machine on which the concurrent
    components (atomic.hpp, atomic_shared_ptr_storage.hpp, mutex.hpp, data_mutex.hpp) run.

    A method is a [code]: a sequence of atomic actions on the shared state.  Threads are
    interleaved between any two actions, in any order, and any number of them may run: the
    executions are all sequences of [step]s.  The threads' own programs are not restricted
    beyond [allowed]: at any moment an idle thread may call anything it is allowed to call,
    so that every program of the users is covered. *)
From Coq Require Import List Arith.
From Verif Require Import Base.
Import ListNotations.

(** What one atomic action does: go on in a new state; wait (a spin or a blocked lock: the
    action is tried again later, nothing has changed); or undefined behaviour. *)
Inductive aout (S C : Type) : Type :=
| Next (s : S) (c : C)
| Wait
| Bad.
Arguments Next {S C} s c.
Arguments Wait {S C}.
Arguments Bad {S C}.

(** A method under way.  The number given to an action stands for whatever the machine is
    free to choose (a spurious failure, an exception of a mutex). *)
Inductive code (S R : Type) : Type :=
| Ret (r : R)
| Act (a : nat -> S -> aout S (code S R)).
Arguments Ret {S R} r.
Arguments Act {S R} a.

Fixpoint cbind {S A B} (c : code S A) (f : A -> code S B) : code S B :=
  match c with
  | Ret r => f r
  | Act a => Act (fun n s => match a n s with
                             | Next s' c' => Next s' (cbind c' f)
                             | Wait => Wait
                             | Bad => Bad
                             end)
  end.

(** One action and what follows it. *)
Definition atom {S A} (f : S -> S * A) : code S A :=
  Act (fun _ s => Next (fst (f s)) (Ret (snd (f s)))).
Definition cbad {S A} : code S A := Act (fun _ _ => Bad).

Declare Scope c_scope.
Delimit Scope c_scope with c.
Notation "'do*' x := e 'in' f" := (cbind e (fun x => f))
  (at level 200, x binder, e at level 100, f at level 200) : c_scope.
Notation "e ;;; f" := (cbind e (fun _ => f))
  (at level 199, right associativity) : c_scope.

(** What is seen of an execution from outside: calls beginning and ending. *)
Inductive event (VC VR : Type) : Type :=
| EInv (t : nat) (c : VC)
| ERes (t : nat) (r : VR).
Arguments EInv {VC VR} t c.
Arguments ERes {VC VR} t r.

Section Machine.
Context {Sh Call Rs VC VR : Type}.
(** The object: its methods, as run by a thread; how calls and results look from outside
    (the values of their arguments); and what the users may do. *)
Variable impl : nat -> Call -> code Sh Rs.
Variable cview : Sh -> Call -> VC.
Variable rview : Sh -> Rs -> VR.
Variable allowed : list (event VC VR) -> Sh -> nat -> Call -> Prop.

Record cfg := Cfg {
  sh : Sh;                              (* the shared state *)
  th : nat -> option (code Sh Rs);      (* per thread, the call it is in *)
  hist : list (event VC VR)             (* what happened, in order *)
}.

Inductive step : cfg -> cfg -> Prop :=
| s_inv s T h t c :
    T t = None -> allowed h s t c ->
    step (Cfg s T h) (Cfg s (setm T t (Some (impl t c))) (h ++ [EInv t (cview s c)]))
| s_act s T h t a n s' k :
    T t = Some (Act a) -> a n s = Next s' k ->
    step (Cfg s T h) (Cfg s' (setm T t (Some k)) h)
| s_ret s T h t r :
    T t = Some (Ret r) ->
    step (Cfg s T h) (Cfg s (setm T t None) (h ++ [ERes t (rview s r)])).

Inductive reach (c0 : cfg) : cfg -> Prop :=
| r_refl : reach c0 c0
| r_step c c' : reach c0 c -> step c c' -> reach c0 c'.

(** Some thread can run into undefined behaviour now. *)
Definition bad (c : cfg) : Prop :=
  exists t a n, th c t = Some (Act a) /\ a n (sh c) = Bad.

Definition start (s : Sh) : cfg := Cfg s (fun _ => None) [].

(** No call is under way. *)
Definition quiet (c : cfg) : Prop := forall t, th c t = None.
End Machine.
Arguments cfg : clear implicits.
