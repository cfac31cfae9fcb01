(** Model of include/itlib/generator.hpp with coroutine bodies which use generator objects themselves, also the one
    they are run by.

    A coroutine body is an arbitrary machine: from a state it goes on to a co_yield, to the end, to an exception, or
    to a call on a generator object, with whose answer it goes on. A frame is suspended, running or finished. It is
    undefined to use a null handle or one whose frame was destroyed, to resume, destroy or ask done() of a coroutine
    which is running, and to resume a finished one. [fuel] bounds the steps of all bodies together; a call which
    needs more has no answer (Diverge).

    Simplified: an exception which leaves next() inside a body is an answer the body goes on with; range-for over a
    generator is not a call of bodies, and what its user does between the steps is not here. *)
From Coq Require Import List Arith Bool.
From Verif Require Import Base.
Import ListNotations.

(** Calls on generator objects, which have names. *)
Inductive op (St : Type) : Type :=
| Create (g : nat) (st : St)
| MoveCtor (g from : nat)
| MoveAssign (g from : nat)
| Destroy (g : nat)
| Clear (g : nat)
| HasHandle (g : nat)
| IsDone (g : nat)
| Next (g : nat).
Arguments Create {St}. Arguments MoveCtor {St}. Arguments MoveAssign {St}. Arguments Destroy {St}.
Arguments Clear {St}. Arguments HasHandle {St}. Arguments IsDone {St}. Arguments Next {St}.
Inductive out (V E : Type) : Type :=
| Nothing
| Bool (b : bool)
| Value (v : option V)
| Thrown (e : E).
Arguments Nothing {V E}. Arguments Bool {V E}. Arguments Value {V E}. Arguments Thrown {V E}.

Inductive act (St V E : Type) : Type :=
| Yields (v : V) (st : St)
| Returns
| Throws (e : E)
| Calls (o : op St) (k : out V E -> St).
Arguments Yields {St V E}. Arguments Returns {St V E}. Arguments Throws {St V E}. Arguments Calls {St V E}.

Inductive status : Type := Suspended | Running | Finished.

Section Reent.
Context {St V E : Type}.
Variable run : St -> act St V E.
Variable moved : V -> V.

(** The coroutine frame with its promise_type, 113-148 *)
Record frame : Type := mkFrame { body : St; state : status; m_val : option V; m_exception : option E }.
(** The frames; the generator objects with their handles, [Some None] being null. *)
Record store : Type := mkStore { frames : nat -> option frame; fresh : nat; gens : nat -> option (option nat) }.

Definition get_frame (h : nat) : M store frame :=
  fun s => match frames s h with Some f => Ok f s | None => UB end.
Definition put_frame (h : nat) (f : frame) : M store unit :=
  fun s => Ok tt (mkStore (setm (frames s) h (Some f)) (fresh s) (gens s)).
Definition get_gen (g : nat) : M store (option nat) :=
  fun s => match gens s g with Some h => Ok h s | None => UB end.
Definition put_gen (g : nat) (h : option (option nat)) : M store unit :=
  fun s => Ok tt (mkStore (frames s) (fresh s) (setm (gens s) g h)).
Definition handle (g : nat) : M store nat :=
  let* h := get_gen g in match h with Some h => ret h | None => ub end.

(** coroutine_handle::destroy, of a coroutine which is not running *)
Definition destroy_frame (h : nat) : M store unit :=
  let* f := get_frame h in
  match state f with
  | Running => ub
  | _ => fun s => Ok tt (mkStore (setm (frames s) h None) (fresh s) (gens s))
  end.
Definition destroy_handle (h : option nat) : M store unit :=
  match h with Some h => destroy_frame h | None => ret tt end.
(** coroutine_handle::done, 176-178, of a coroutine which is not running *)
Definition handle_done (h : nat) : M store bool :=
  let* f := get_frame h in
  match state f with Running => ub | Finished => ret true | Suspended => ret false end.

(** 120-123, 238: get_return_object, initial_suspend *)
Definition create (g : nat) (st : St) : M store unit := fun s =>
  match gens s g with
  | Some _ => UB
  | None => Ok tt (mkStore (setm (frames s) (fresh s) (Some (mkFrame st Suspended None None)))
                           (S (fresh s)) (setm (gens s) g (Some (Some (fresh s)))))
  end.
(** 152 *)
Definition move_ctor (g from : nat) : M store unit := fun s =>
  match gens s g with
  | Some _ => UB
  | None => (let* h := get_gen from in put_gen from (Some None) ;;; put_gen g (Some h)) s
  end.
(** 154-158 *)
Definition move_assign (g from : nat) : M store unit :=
  let* old := get_gen g in
  destroy_handle old ;;;
  let* h := get_gen from in
  put_gen from (Some None) ;;; put_gen g (Some h).
(** 160-162 *)
Definition destroy (g : nat) : M store unit :=
  let* old := get_gen g in destroy_handle old ;;; put_gen g None.
(** 164-167 *)
Definition reset (g : nat) : M store unit :=
  let* old := get_gen g in destroy_handle old ;;; put_gen g (Some None).

(** What the calls do, given how bodies run on. *)
Section Calls.
Variable goes : nat -> St -> M store unit.

(** coroutine_handle::resume *)
Definition resume (h : nat) : M store unit :=
  let* f := get_frame h in
  match state f with
  | Suspended => put_frame h (mkFrame (body f) Running (m_val f) (m_exception f)) ;;; goes h (body f)
  | _ => ub
  end.
(** 228-235: the exception rethrown, if any. The promise is the one of the coroutine resumed. *)
Definition safe_resume (h : nat) : M store (option E) :=
  let* f := get_frame h in
  put_frame h (mkFrame (body f) (state f) None (m_exception f)) ;;;
  resume h ;;;
  let* f' := get_frame h in
  ret (m_exception f').
(** 180-184: behind safe_resume the handle is read from the generator object again *)
Definition next (g : nat) : M store (out V E) :=
  let* h := handle g in
  let* d := handle_done h in
  if (d : bool) then ret (Value None)
  else
    let* e := safe_resume h in
    match e with
    | Some e => ret (Thrown e)
    | None =>
        let* h' := handle g in
        let* f := get_frame h' in
        put_frame h' (mkFrame (body f) (state f) (option_map moved (m_val f)) (m_exception f)) ;;;
        ret (Value (m_val f))
    end.

(** One call; operator bool is 169-171, done() 176-178. *)
Definition call_with (o : op St) : M store (out V E) :=
  match o with
  | Create g st => create g st ;;; ret Nothing
  | MoveCtor g from => move_ctor g from ;;; ret Nothing
  | MoveAssign g from => move_assign g from ;;; ret Nothing
  | Destroy g => destroy g ;;; ret Nothing
  | Clear g => reset g ;;; ret Nothing
  | HasHandle g => let* h := get_gen g in ret (Bool (match h with Some _ => true | None => false end))
  | IsDone g => let* h := handle g in let* d := handle_done h in ret (Bool d)
  | Next g => next g
  end.
End Calls.

(** The body of coroutine [h] runs on: yield_value 125-133, return_void 134, unhandled_exception 135-137. *)
Fixpoint go (fuel : nat) (h : nat) (st : St) : M store unit :=
  match fuel with
  | 0 => diverge
  | S n =>
      match run st with
      | Calls o k => let* a := call_with (go n) o in go n h (k a)
      | Yields v st' => let* f := get_frame h in put_frame h (mkFrame st' Suspended (Some v) (m_exception f))
      | Returns => let* f := get_frame h in put_frame h (mkFrame st Finished (m_val f) (m_exception f))
      | Throws e => let* f := get_frame h in put_frame h (mkFrame st Finished (m_val f) (Some e))
      end
  end.
Definition call (fuel : nat) (o : op St) : M store (out V E) := call_with (go fuel) o.
Fixpoint calls (fuel : nat) (os : list (op St)) : M store (list (out V E)) :=
  match os with
  | [] => ret []
  | o :: os' => let* x := call fuel o in let* xs := calls fuel os' in ret (x :: xs)
  end.

(** 218-221: the handle is read from the generator object behind safe_resume; it may be null then *)
Definition begin (fuel : nat) (g : nat) : M store (option E * option nat) :=
  let* h := handle g in
  let* e := safe_resume (go fuel) h in
  match e with
  | Some e => ret (Some e, None)
  | None => let* it := get_gen g in ret (None, it)
  end.
(** The pseudo_iterator, 189-209, which has a handle of its own *)
Definition the_handle (it : option nat) : M store nat :=
  match it with Some h => ret h | None => ub end.
(** 200-202 with val(), 139-141 *)
Definition deref (it : option nat) : M store V :=
  let* h := the_handle it in let* f := get_frame h in match m_val f with Some v => ret v | None => ub end.
(** 204-207 *)
Definition advance (fuel : nat) (it : option nat) : M store (option E) :=
  let* h := the_handle it in safe_resume (go fuel) h.
(** 212-215 *)
Definition at_end (it : option nat) : M store bool :=
  let* h := the_handle it in handle_done h.
(** for (auto&& v : gen): the values met and the exception which ended it; [n] bounds the number of values. *)
Fixpoint loop (fuel n : nat) (it : option nat) : M store (list V * option E) :=
  match n with
  | 0 => diverge
  | S n' =>
      let* d := at_end it in
      if (d : bool) then ret ([], None)
      else
        let* v := deref it in
        let* e := advance fuel it in
        match e with
        | Some e => ret ([v], Some e)
        | None => let* r := loop fuel n' it in ret (v :: fst r, snd r)
        end
  end.
Definition range_for (fuel n : nat) (g : nat) : M store (list V * option E) :=
  let* b := begin fuel g in
  match fst b with
  | Some e => ret ([], Some e)
  | None => loop fuel n (snd b)
  end.
Definition init : store := mkStore (fun _ => None) 0 (fun _ => None).
End Reent.
