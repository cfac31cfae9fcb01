(** Model of /repo/include/itlib/mutex.hpp: strong_try_rec_mutex.

    std::mutex is modelled as what it promises: a lock which one thread holds at a time, whose
    lock() blocks; that std::mutex::lock may throw std::system_error is not modelled.  The two
    other members are plain variables: touching one without holding m_mutex is a data race
    (undefined behaviour).  A failing assert is treated like undefined behaviour. *)
From Coq Require Import ZArith List Bool.
From Verif Require Import Base ConcModel.
Open Scope Z_scope.

(** mutex.hpp 101-103; m_owner is None for std::thread::id() *)
Record mst := Mst {
  inner : option nat;     (* m_mutex: the thread which holds it *)
  owner : option nat;     (* m_owner *)
  depth : Z               (* m_depth *)
}.
Definition mst0 : mst := Mst None None 0.

Section Mutex.
Variable dmax : Z.        (* the largest std::int_fast32_t *)

Definition holds (t : nat) (s : mst) : bool :=
  match inner s with Some u => (u =? t)%nat | None => false end.

(** std::mutex::lock and unlock, as std::lock_guard calls them *)
Definition m_lock (t : nat) : code mst unit :=
  Act (fun _ s => match inner s with
                  | None => Next (Mst (Some t) (owner s) (depth s)) (Ret tt)
                  | Some _ => Wait
                  end).
Definition m_unlock (t : nat) : code mst unit :=
  Act (fun _ s => if holds t s then Next (Mst None (owner s) (depth s)) (Ret tt) else Bad).

(** Reading and writing m_owner and m_depth *)
Definition get_owner (t : nat) : code mst (option nat) :=
  Act (fun _ s => if holds t s then Next s (Ret (owner s)) else Bad).
Definition set_owner (t : nat) (o : option nat) : code mst unit :=
  Act (fun _ s => if holds t s then Next (Mst (inner s) o (depth s)) (Ret tt) else Bad).
Definition get_depth (t : nat) : code mst Z :=
  Act (fun _ s => if holds t s then Next s (Ret (depth s)) else Bad).
Definition set_depth (t : nat) (d : Z) : code mst unit :=
  Act (fun _ s => if holds t s then Next (Mst (inner s) (owner s) d) (Ret tt) else Bad).
(** A signed overflow is undefined. *)
Definition inc_depth (t : nat) : code mst unit :=
  (do* d := get_depth t in if d <? dmax then set_depth t (d + 1) else cbad)%c.
Definition dec_depth (t : nat) : code mst unit :=
  (do* d := get_depth t in if - dmax - 1 <? d then set_depth t (d - 1) else cbad)%c.
Definition assert_that (b : bool) : code mst unit := if b then Ret tt else cbad.

Definition is_thread (o : option nat) (t : nat) : bool :=
  match o with Some u => (u =? t)%nat | None => false end.

Open Scope c_scope.

(** mutex.hpp 70-85: try_lock.  The lock_guard unlocks when the function is left. *)
Definition try_lock (t : nat) : code mst (option bool) :=
  m_lock t ;;;
  do* o := get_owner t in
  match o with
  | None =>
      do* d := get_depth t in
      assert_that (d =? 0) ;;;
      set_owner t (Some t) ;;;
      inc_depth t ;;;
      m_unlock t ;;; Ret (Some true)
  | Some _ =>
      do* o' := get_owner t in
      if negb (is_thread o' t) then
        m_unlock t ;;; Ret (Some false)
      else
        inc_depth t ;;;
        m_unlock t ;;; Ret (Some true)
  end.

(** mutex.hpp 87-97: unlock *)
Definition unlock (t : nat) : code mst (option bool) :=
  m_lock t ;;;
  do* o := get_owner t in
  assert_that (is_thread o t) ;;;
  do* d := get_depth t in
  assert_that (0 <? d) ;;;
  dec_depth t ;;;
  do* d' := get_depth t in
  (if d' =? 0 then set_owner t None else Ret tt) ;;;
  m_unlock t ;;; Ret None.

Inductive mcall : Type := CTry | CUnlock.
Definition mimpl (t : nat) (c : mcall) : code mst (option bool) :=
  match c with CTry => try_lock t | CUnlock => unlock t end.
Definition mcview (_ : mst) (c : mcall) : mcall := c.
Definition mrview (_ : mst) (r : option bool) : option bool := r.
End Mutex.
