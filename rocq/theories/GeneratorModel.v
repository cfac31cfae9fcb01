(** Model of include/itlib/generator.hpp.

    A coroutine body is an arbitrary machine: a state (its local variables and the point where
    it is suspended) and what running on from there leads to: the next co_yield, the end, or an
    exception. Bodies which run forever between two suspensions, and bodies which resume or
    destroy their own generator, are not modelled. Using a handle which is null or whose frame was destroyed,
    and resuming a finished coroutine, is undefined behaviour. T and T& differ only in what a
    moved-from generator_value holds ([moved], which for T& is the identity). *)
From Coq Require Import List Arith Bool.
From Verif Require Import Base.
Import ListNotations.

Section Generator.
Context {St V E : Type}.
Inductive step : Type :=
| Yielded (v : V) (st : St)
| Returned
| Threw (e : E).
Variable run : St -> step.
Variable moved : V -> V.

(** The coroutine frame with its promise_type, 113-148. final_suspend always suspends: a
    finished frame stays until it is destroyed. *)
Record frame : Type := mkFrame {
  body : St;
  finished : bool;
  m_val : option V;
  m_exception : option E
}.
(** The frames; the generator objects: [None] if there is none of that name, otherwise its
    handle, [Some None] being null. *)
Record store : Type := mkStore {
  frames : nat -> option frame;
  fresh : nat;
  gens : nat -> option (option nat)
}.

Definition get_frame (h : nat) : M store frame :=
  fun s => match frames s h with Some f => Ok f s | None => UB end.
Definition put_frame (h : nat) (f : frame) : M store unit :=
  fun s => Ok tt (mkStore (setm (frames s) h (Some f)) (fresh s) (gens s)).
Definition get_gen (g : nat) : M store (option nat) :=
  fun s => match gens s g with Some h => Ok h s | None => UB end.
Definition put_gen (g : nat) (h : option (option nat)) : M store unit :=
  fun s => Ok tt (mkStore (frames s) (fresh s) (setm (gens s) g h)).
(** the handle of a generator, which must not be null *)
Definition handle (g : nat) : M store nat :=
  let* h := get_gen g in match h with Some h => ret h | None => ub end.

(** coroutine_handle::destroy *)
Definition destroy_frame (h : nat) : M store unit :=
  let* f := get_frame h in
  fun s => Ok tt (mkStore (setm (frames s) h None) (fresh s) (gens s)).

(** Calling the coroutine: a frame suspended at the start, and the returned generator
    (get_return_object, initial_suspend 121-124, 238). *)
Definition create (g : nat) (st : St) : M store unit :=
  fun s => match gens s g with
           | Some _ => UB
           | None => Ok tt (mkStore (setm (frames s) (fresh s) (Some (mkFrame st false None None)))
                                    (S (fresh s)) (setm (gens s) g (Some (Some (fresh s)))))
           end.

(** coroutine_handle::resume, with yield_value 126-134, return_void 135 and
    unhandled_exception 136-138 *)
Definition resume (h : nat) : M store unit :=
  let* f := get_frame h in
  if finished f then ub
  else match run (body f) with
       | Yielded v st => put_frame h (mkFrame st false (Some v) (m_exception f))
       | Returned => put_frame h (mkFrame (body f) true (m_val f) (m_exception f))
       | Threw e => put_frame h (mkFrame (body f) true (m_val f) (Some e))
       end.

(** 228-235: the exception rethrown, if any *)
Definition safe_resume (h : nat) : M store (option E) :=
  let* f := get_frame h in
  put_frame h (mkFrame (body f) (finished f) None (m_exception f)) ;;;
  resume h ;;;
  let* f' := get_frame h in
  ret (m_exception f').

(** 152 *)
Definition move_ctor (g from : nat) : M store unit :=
  fun s => match gens s g with
           | Some _ => UB
           | None => (let* h := get_gen from in
                      put_gen from (Some None) ;;; put_gen g (Some h)) s
           end.
Definition destroy_handle (h : option nat) : M store unit :=
  match h with Some h => destroy_frame h | None => ret tt end.
(** 154-158 *)
Definition move_assign (g from : nat) : M store unit :=
  let* old := get_gen g in
  destroy_handle old ;;;
  let* h := get_gen from in
  put_gen from (Some None) ;;;
  put_gen g (Some h).
(** 160-162 *)
Definition destroy (g : nat) : M store unit :=
  let* old := get_gen g in
  destroy_handle old ;;;
  put_gen g None.
(** 164-167 *)
Definition reset (g : nat) : M store unit :=
  let* old := get_gen g in
  destroy_handle old ;;;
  put_gen g (Some None).
(** 169-171 *)
Definition has_handle (g : nat) : M store bool :=
  let* h := get_gen g in ret (match h with Some _ => true | None => false end).
(** 176-178 *)
Definition done (g : nat) : M store bool :=
  let* h := handle g in
  let* f := get_frame h in
  ret (finished f).

Inductive out : Type :=
| Nothing
| Bool (b : bool)
| Value (v : option V)
| Thrown (e : E)
| Visited (l : list V) (e : option E).

(** 180-184: the value is moved out of the promise *)
Definition next (g : nat) : M store out :=
  let* d := done g in
  if (d : bool) then ret (Value None)
  else
    let* h := handle g in
    let* e := safe_resume h in
    match e with
    | Some e => ret (Thrown e)
    | None =>
        let* f := get_frame h in
        put_frame h (mkFrame (body f) (finished f) (option_map moved (m_val f)) (m_exception f)) ;;;
        ret (Value (m_val f))
    end.

(** pseudo_iterator 189-216 *)
Definition iter_end (h : nat) : M store bool := let* f := get_frame h in ret (finished f).
Definition iter_deref (h : nat) : M store V :=
  let* f := get_frame h in
  match m_val f with Some v => ret v | None => ub end.
(** for (auto& v : gen), left by break after [n] values; 218-225 *)
Fixpoint range_loop (n : nat) (h : nat) : M store (list V * option E) :=
  let* d := iter_end h in
  if (d : bool) then ret ([], None)
  else
    let* v := iter_deref h in
    match n with
    | O => ret ([v], None)
    | S n' =>
        let* e := safe_resume h in
        match e with
        | Some e => ret ([v], Some e)
        | None => let* r := range_loop n' h in ret (v :: fst r, snd r)
        end
    end.
Definition range_for (g n : nat) : M store out :=
  let* h := handle g in
  let* e := safe_resume h in
  match e with
  | Some e => ret (Visited [] (Some e))
  | None => let* r := range_loop n h in ret (Visited (fst r) (snd r))
  end.

Inductive op : Type :=
| Create (g : nat) (st : St)
| MoveCtor (g from : nat)
| MoveAssign (g from : nat)
| Destroy (g : nat)
| Clear (g : nat)
| HasHandle (g : nat)
| IsDone (g : nat)
| Next (g : nat)
| RangeFor (g n : nat).      (* at most n + 1 values *)

Definition call (o : op) : M store out :=
  match o with
  | Create g st => create g st ;;; ret Nothing
  | MoveCtor g from => move_ctor g from ;;; ret Nothing
  | MoveAssign g from => move_assign g from ;;; ret Nothing
  | Destroy g => destroy g ;;; ret Nothing
  | Clear g => reset g ;;; ret Nothing
  | HasHandle g => let* b := has_handle g in ret (Bool b)
  | IsDone g => let* b := done g in ret (Bool b)
  | Next g => next g
  | RangeFor g n => range_for g n
  end.
Fixpoint calls (os : list op) : M store (list out) :=
  match os with
  | [] => ret []
  | o :: os' => let* x := call o in let* xs := calls os' in ret (x :: xs)
  end.
Definition init : store := mkStore (fun _ => None) 0 (fun _ => None).
End Generator.
Arguments step : clear implicits.
Arguments frame : clear implicits.
Arguments store : clear implicits.
Arguments out : clear implicits.
Arguments op : clear implicits.
