(** Model of /repo/include/itlib/data_mutex.hpp (lines 61-177), as DmutexModel.v, but with
    happens-before as the C++ memory model has it.

    The mutex does what it does in DmutexModel.v, and synchronizes as the standard says of
    std::mutex, std::recursive_mutex and std::shared_mutex: every unlock() happens before the
    lock(), try_lock(), lock_shared() and try_lock_shared() which succeed later; every
    unlock_shared() happens before the lock() and try_lock() which succeed later.  (A
    lock_shared() need not know of an earlier unlock_shared().)

    The data is plain memory: each access is noted, with the time at which the thread did it.  An
    access which is not ordered by happens-before with an earlier one, one of the two being a
    write, is a data race (undefined behaviour), whoever has locked what at that moment.

    A guard is used by the thread which made it, so that accesses to the guard itself need not be
    noted.  Locking does not throw here (C52 has what happens otherwise). *)
From Coq Require Import List Arith Bool.
From Verif Require Import Base ConcModel WmModel MutexWeakModel DmutexModel.
Import ListNotations.
Open Scope nat_scope.

Record est := Est {
  base : dst;               (* the mutex, the guards, the data; its [wr] and [rd] are not used *)
  relx : clock;             (* what the exclusive unlocks so far have before them *)
  rels : clock;             (* what the shared unlocks so far have before them *)
  eclk : nat -> clock;      (* what happens before a thread's next step *)
  elog : list access        (* the accesses to the data *)
}.
Definition with_base (e : est) (s : dst) : est := Est s (relx e) (rels e) (eclk e) (elog e).

(** An action on the mutex or the guards. *)
Fixpoint on_base {A} (c : code dst A) : code est A :=
  match c with
  | Ret r => Ret r
  | Act a => Act (fun n e => match a n (base e) with
                             | Next s' c' => Next (with_base e s') (on_base c')
                             | Wait => Wait
                             | Bad => Bad
                             end)
  end.

(** Thread [t] has locked the mutex. *)
Definition acquire (ex : bool) (t : nat) (e : est) : est :=
  Est (base e) (relx e) (rels e)
      (setm (eclk e) t (if ex then cjoin (cjoin (eclk e t) (relx e)) (rels e) else cjoin (eclk e t) (relx e)))
      (elog e).
(** Thread [t] unlocks it. *)
Definition release (ex : bool) (t : nat) (e : est) : est :=
  if ex then Est (base e) (cjoin (relx e) (eclk e t)) (rels e) (eclk e) (elog e)
  else Est (base e) (relx e) (cjoin (rels e) (eclk e t)) (eclk e) (elog e).

(** Locking, as [c] says; when it has succeeded the thread has acquired. *)
Definition e_locking (ex : bool) (t : nat) (c : code dst locked) : code est locked :=
  match c with
  | Ret r => Ret r
  | Act a => Act (fun n e => match a n (base e) with
                             | Next s' (Ret LOk) => Next (acquire ex t (with_base e s')) (Ret LOk)
                             | Next s' c' => Next (with_base e s') (on_base c')
                             | Wait => Wait
                             | Bad => Bad
                             end)
  end.

Section DMutex.
Variable recur : bool.

(** lock, try_lock, unlock, and the same _shared *)
Definition e_lock (ex : bool) (t : nat) : code est locked := e_locking ex t (m_lock recur false ex t).
Definition e_try (ex : bool) (t : nat) : code est locked := e_locking ex t (m_try recur false ex t).
Definition e_unlock (ex : bool) (t : nat) : code est unit :=
  Act (fun n e =>
    match m_unlock ex t with
    | Act a => match a n (base e) with
               | Next s' c' => Next (release ex t (with_base e s')) (on_base c')
               | Wait => Wait
               | Bad => Bad
               end
    | Ret r => Bad
    end).

Definition e_new (t : nat) (k : kind) (p : ptr) : code est nat := on_base (g_new t k p).
Definition e_get (t l : nat) : code est guard := on_base (g_get t l).
Definition e_put (t l : nat) (x : option ptr) : code est unit := on_base (g_put t l x).

Open Scope c_scope.

(** data_mutex.hpp 100: ~unique_lock_base_t, and 135: ~shared_lock_base_t *)
Definition e_dtor (t l : nat) : code est unit :=
  do* g := e_get t l in
  (match gp g with
   | PSet => e_unlock (is_ex (gk g)) t
   | PNull => Ret tt
   | PRaw => cbad
   end) ;;;
  e_put t l None.

(** 79, 103-107 unique_lock_t, 118-122 const_unique_lock_t, 138-142 shared_lock_t *)
Definition e_ctor_lock (t : nat) (k : kind) : code est (option nat) :=
  do* l := e_new t k PSet in
  do* r := e_lock (is_ex k) t in
  match r with
  | LThrow => e_dtor t l ;;; Ret None
  | _ => Ret (Some l)
  end.
(** 80, 109-115 try_unique_lock_t, 124-130 try_const_unique_lock_t, 144-150 try_shared_lock_t *)
Definition e_ctor_try (t : nat) (k : kind) : code est (option nat) :=
  do* l := e_new t k PRaw in
  do* r := e_try (is_ex k) t in
  match r with
  | LOk => e_put t l (Some PSet) ;;; Ret (Some l)
  | LNo => e_put t l (Some PNull) ;;; Ret (Some l)
  | LThrow => e_dtor t l ;;; Ret None
  end.
(** 84-86: the move constructor *)
Definition e_move (t l : nat) : code est nat :=
  do* g := e_get t l in
  do* l' := e_new t (gk g) (gp g) in
  e_put t l (Some PNull) ;;; Ret l'.
(** Returning a guard by value: the move may be elided (152-155: NRVO; 157-175). *)
Definition e_return (t l : nat) : code est nat :=
  Act (fun n e => Next e (match n with
                          | 0 => Ret l
                          | S _ => do* l' := e_move t l in e_dtor t l ;;; Ret l'
                          end)).

(** 89-92: access by * and -> *)
Definition e_read (t l : nat) : code est nat :=
  do* g := e_get t l in
  match gp g with
  | PSet =>
      Act (fun _ e =>
        match dat (base e) with
        | Some v => if may t false (eclk e) (elog e) then
                      Next (Est (base e) (relx e) (rels e) (tick t (eclk e)) (note t false (eclk e) (elog e)))
                           (Ret v)
                    else Bad
        | None => Bad
        end)
  | _ => cbad
  end.
Definition e_write (t l v : nat) : code est unit :=
  do* g := e_get t l in
  match gp g, gk g with
  | PSet, KUniq =>
      Act (fun _ e =>
        if may t true (eclk e) (elog e) then
          Next (Est (with_d (base e) (Some v) None []) (relx e) (rels e) (tick t (eclk e))
                    (note t true (eclk e) (elog e))) (Ret tt)
        else Bad)
  | _, _ => cbad
  end.

(** What the threads do: the calls of DmutexModel. *)
Definition eimpl (t : nat) (c : dcall) : code est drs :=
  match c with
  | CNew k try =>
      do* o := (if try then e_ctor_try t k else e_ctor_lock t k) in
      match o with
      | Some l => do* r := e_return t l in Ret (RGuard r)
      | None => Ret RThrow
      end
  | CMove l => do* r := e_move t l in Ret (RGuard r)
  | CDrop l => e_dtor t l ;;; Ret RUnit
  | CTest l => do* g := e_get t l in
               match gp g with PSet => Ret (RBool true) | PNull => Ret (RBool false) | PRaw => cbad end
  | CRead l => do* v := e_read t l in Ret (RVal v)
  | CWrite l v => e_write t l v ;;; Ret RUnit
  end.
End DMutex.

Definition ecview (e : est) (c : dcall) : dvcall := dcview (base e) c.
Definition erview (e : est) (r : drs) : dvres := drview (base e) r.

(** 66-67: the constructor *)
Definition est0 (v : nat) : est := Est (dst0 v) czero czero (fun _ => czero) [].
