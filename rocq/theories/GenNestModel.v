(** Model of include/itlib/generator.hpp where the coroutines have generators themselves.

    A coroutine body is an arbitrary machine: a state (its local variables and the point where
    it is) and what it does next: co_yield, return, throw, or a call on a generator among its
    local variables, after which it goes on as the answer says (an exception out of such a call
    is an answer: the body may catch it or throw in turn).  Local generators are declared, and
    destroyed, last in first out.  Destroying a suspended coroutine destroys its local variables,
    as does leaving the body by return or an exception, before final_suspend.

    Using a handle which is null or whose frame was destroyed, resuming a coroutine which is
    finished or running, and destroying one which is running is undefined behaviour.

    Simplified: bodies reach no generators but their own, so that none resumes itself; T and T&
    differ only in what a moved-from generator_value holds ([moved], which for T& is the
    identity). The number [n] bounds the steps; [Diverge] when they do not suffice. *)
From Coq Require Import List Arith Bool.
From Verif Require Import Base.
Import ListNotations.

Section Nest.
Context {St V E : Type}.

(** Calls on generators, which are numbered as they were declared. *)
Inductive gop : Type :=
| Make (b : St)             (* auto g = coroutine(...) *)
| Next (i : nat)            (* g.next() *)
| Advance (i : nat)         (* g.begin(), and ++it *)
| Deref (i : nat)           (* *it *)
| IsDone (i : nat)          (* g.done(), it == g.end() *)
| HasHandle (i : nat)       (* if (g) *)
| Clear (i : nat)           (* g.reset() *)
| MoveNew (j : nat)         (* auto g = std::move(other) *)
| MoveTo (i j : nat)        (* g = std::move(other) *)
| Leave.                    (* the last one goes out of scope *)
Inductive gout : Type :=
| Nothing
| Bool (b : bool)
| Value (v : option V)
| Got (v : V)
| Thrown (e : E).

Inductive act : Type :=
| Yields (v : V) (st : St)
| Returns
| Throws (e : E)
| Does (o : gop) (k : gout -> St).
Variable run : St -> act.
Variable moved : V -> V.

(** Where a coroutine is. *)
Inductive place : Type := Suspended (st : St) | Running | Over.
(** The coroutine frame: the promise_type (113-148) and the local generators, by their handles,
    [None] being null. final_suspend always suspends: a finished frame stays until it is destroyed. *)
Record frame : Type := mkFrame {
  at_ : place;
  locals : list (option nat);
  m_val : option V;
  m_exception : option E
}.
Record store : Type := mkStore { frames : nat -> option frame; fresh : nat }.

Definition get_frame (h : nat) : M store frame :=
  fun s => match frames s h with Some f => Ok f s | None => UB end.
Definition put_frame (h : nat) (f : frame) : M store unit :=
  fun s => Ok tt (mkStore (setm (frames s) h (Some f)) (fresh s)).
Definition drop_frame (h : nat) : M store unit :=
  fun s => Ok tt (mkStore (setm (frames s) h None) (fresh s)).

(** Calling the coroutine: get_return_object, initial_suspend 121-124, 238 *)
Definition new_frame (b : St) : M store nat :=
  fun s => Ok (fresh s) (mkStore (setm (frames s) (fresh s) (Some (mkFrame (Suspended b) [] None None))) (S (fresh s))).

(** coroutine_handle::destroy, with the destructors of the local generators, 160-162, last one first *)
Fixpoint destroy (n : nat) (h : nat) : M store unit :=
  match n with
  | O => diverge
  | S n' =>
      let* f := get_frame h in
      match at_ f with
      | Running => ub
      | _ =>
          (fix each (l : list (option nat)) : M store unit :=
             match l with
             | [] => ret tt
             | o :: l' => each l' ;;; match o with Some h' => destroy n' h' | None => ret tt end
             end) (locals f) ;;;
          drop_frame h
      end
  end.
Definition destroy_handle (n : nat) (o : option nat) : M store unit :=
  match o with Some h => destroy n h | None => ret tt end.
(** The local variables at the end of a body *)
Fixpoint destroy_all (n : nat) (l : list (option nat)) : M store unit :=
  match l with
  | [] => ret tt
  | o :: l' => destroy_all n l' ;;; destroy_handle n o
  end.

Definition the (l : list (option nat)) (i : nat) : M store (option nat) :=
  match nth_error l i with Some o => ret o | None => ub end.
(** the handle of a generator, which must not be null *)
Definition handle (l : list (option nat)) (i : nat) : M store nat :=
  let* o := the l i in match o with Some h => ret h | None => ub end.

(** 176-178, 212-215 *)
Definition is_done (h : nat) : M store bool :=
  let* f := get_frame h in
  ret (match at_ f with Over => true | _ => false end).

Section Calls.
Variable n : nat.                        (* of destructors *)
Variable resume : nat -> M store unit.    (* coroutine_handle::resume *)

(** 228-235: the exception rethrown, if any *)
Definition safe_resume (h : nat) : M store (option E) :=
  let* f := get_frame h in
  put_frame h (mkFrame (at_ f) (locals f) None (m_exception f)) ;;;
  resume h ;;;
  let* f' := get_frame h in
  ret (m_exception f').

(** 180-184: the value is moved out of the promise *)
Definition next (h : nat) : M store gout :=
  let* d := is_done h in
  if (d : bool) then ret (Value None)
  else
    let* e := safe_resume h in
    match e with
    | Some e => ret (Thrown e)
    | None =>
        let* f := get_frame h in
        put_frame h (mkFrame (at_ f) (locals f) (option_map moved (m_val f)) (m_exception f)) ;;;
        ret (Value (m_val f))
    end.

(** A call on the generators [l]; what they are afterwards, and the answer. *)
Definition do_op (l : list (option nat)) (o : gop) : M store (list (option nat) * gout) :=
  match o with
  | Make b => let* h := new_frame b in ret (l ++ [Some h], Nothing)
  | Next i => let* h := handle l i in let* x := next h in ret (l, x)
  | Advance i =>                                            (* 203-206, 218-221 *)
      let* h := handle l i in
      let* e := safe_resume h in
      ret (l, match e with Some e => Thrown e | None => Nothing end)
  | Deref i =>                                              (* 139-141, 199-201 *)
      let* h := handle l i in
      let* f := get_frame h in
      match m_val f with Some v => ret (l, Got v) | None => ub end
  | IsDone i => let* h := handle l i in let* b := is_done h in ret (l, Bool b)
  | HasHandle i =>                                          (* 169-171 *)
      let* o := the l i in ret (l, Bool (match o with Some _ => true | None => false end))
  | Clear i =>                                              (* 164-167 *)
      let* o := the l i in
      destroy_handle n o ;;;
      ret (upd l i None, Nothing)
  | MoveNew j =>                                            (* 152 *)
      let* o := the l j in
      ret (upd l j None ++ [o], Nothing)
  | MoveTo i j =>                                           (* 154-158 *)
      let* old := the l i in
      destroy_handle n old ;;;
      let* o := the l j in
      ret (upd (upd l j None) i o, Nothing)
  | Leave =>                                                (* 160-162 *)
      match l with
      | [] => ub
      | _ => destroy_handle n (last l None) ;;; ret (removelast l, Nothing)
      end
  end.
End Calls.

(** The body of the running coroutine [h], from [st] to where it suspends; yield_value 126-134,
    return_void 135, unhandled_exception 136-138. *)
Fixpoint run_body (n : nat) (h : nat) (st : St) : M store unit :=
  match n with
  | O => diverge
  | S n' =>
      match run st with
      | Yields v st' =>
          let* f := get_frame h in
          put_frame h (mkFrame (Suspended st') (locals f) (Some v) (m_exception f))
      | Returns =>
          let* f := get_frame h in
          destroy_all n' (locals f) ;;;
          put_frame h (mkFrame Over [] (m_val f) (m_exception f))
      | Throws e =>
          let* f := get_frame h in
          destroy_all n' (locals f) ;;;
          put_frame h (mkFrame Over [] (m_val f) (Some e))
      | Does o k =>
          let* f := get_frame h in
          let* r := do_op n'
            (fun h' => let* f' := get_frame h' in
                       match at_ f' with
                       | Suspended st' =>
                           put_frame h' (mkFrame Running (locals f') (m_val f') (m_exception f')) ;;;
                           run_body n' h' st'
                       | _ => ub
                       end) (locals f) o in
          let* f := get_frame h in
          put_frame h (mkFrame (at_ f) (fst r) (m_val f) (m_exception f)) ;;;
          run_body n' h (k (snd r))
      end
  end.
(** coroutine_handle::resume *)
Definition resume (n : nat) (h : nat) : M store unit :=
  let* f := get_frame h in
  match at_ f with
  | Suspended st =>
      put_frame h (mkFrame Running (locals f) (m_val f) (m_exception f)) ;;;
      run_body n h st
  | _ => ub
  end.

(** What the user, who is no coroutine, does with their generators. *)
Fixpoint calls (n : nat) (l : list (option nat)) (os : list gop) : M store (list (option nat) * list gout) :=
  match os with
  | [] => ret (l, [])
  | o :: os' =>
      let* r := do_op n (resume n) l o in
      let* r' := calls n (fst r) os' in
      ret (fst r', snd r :: snd r')
  end.
Definition init : store := mkStore (fun _ => None) 0.
End Nest.
Arguments gop : clear implicits.
Arguments gout : clear implicits.
Arguments act : clear implicits.
Arguments place : clear implicits.
Arguments frame : clear implicits.
Arguments store : clear implicits.
