(** Model of /repo/include/itlib/mutex.hpp: strong_try_rec_mutex, as MutexModel.v, but with
    happens-before as the C++ memory model has it (WmModel.v's clocks), and with data which the
    users guard by the mutex.

    std::mutex is what the standard says of it: one thread holds it at a time, and unlock()
    synchronizes with the lock() that comes next.  Everything else is plain memory: m_owner,
    m_depth and the users' data.  An access which is not ordered by happens-before with an
    earlier conflicting one is a data race (undefined behaviour), whoever holds what. *)
From Coq Require Import ZArith List Bool.
From Verif Require Import Base ConcModel WmModel MutexModel.
Import ListNotations.
Open Scope Z_scope.

Record hst := Hst {
  hinner : option nat;        (* m_mutex: the thread which holds it *)
  hrel : clock;               (* what happens before its next lock() *)
  howner : option nat;        (* m_owner *)
  hdepth : Z;                 (* m_depth *)
  hdata : nat;                (* the users' data *)
  hclk : nat -> clock;        (* what happens before a thread's next step *)
  olog : list access;         (* the accesses to m_owner, m_depth and the data *)
  dlog : list access;
  ulog : list access
}.
Definition hst0 (v : nat) : hst := Hst None czero None 0 v (fun _ => czero) [] [] [].

(** An access of thread [t] to memory with accesses [l]: allowed; noted; and time goes on. *)
Definition may (t : nat) (w : bool) (clk : nat -> clock) (l : list access) : bool :=
  forallb (ordered t w (clk t)) l.
Definition note (t : nat) (w : bool) (clk : nat -> clock) (l : list access) : list access :=
  l ++ [Acc t (S (clk t t)) w].
Definition tick (t : nat) (clk : nat -> clock) : nat -> clock :=
  setm clk t (setm (clk t) t (S (clk t t))).

Section Mutex.
Variable dmax : Z.

(** std::mutex::lock and unlock, as std::lock_guard calls them *)
Definition h_lock (t : nat) : wcode hst unit :=
  WAct (fun _ s =>
    match hinner s with
    | None => WNext (Hst (Some t) (hrel s) (howner s) (hdepth s) (hdata s)
                         (setm (hclk s) t (cjoin (hclk s t) (hrel s))) (olog s) (dlog s) (ulog s))
                    (WRet tt)
    | Some _ => WStay s
    end).
Definition h_unlock (t : nat) : wcode hst unit :=
  WAct (fun _ s =>
    if is_thread (hinner s) t then
      WNext (Hst None (hclk s t) (howner s) (hdepth s) (hdata s) (hclk s) (olog s) (dlog s) (ulog s))
            (WRet tt)
    else WBad).

(** Reading and writing m_owner and m_depth *)
Definition h_get_owner (t : nat) : wcode hst (option nat) :=
  WAct (fun _ s => if may t false (hclk s) (olog s) then
    WNext (Hst (hinner s) (hrel s) (howner s) (hdepth s) (hdata s) (tick t (hclk s))
               (note t false (hclk s) (olog s)) (dlog s) (ulog s)) (WRet (howner s))
    else WBad).
Definition h_set_owner (t : nat) (o : option nat) : wcode hst unit :=
  WAct (fun _ s => if may t true (hclk s) (olog s) then
    WNext (Hst (hinner s) (hrel s) o (hdepth s) (hdata s) (tick t (hclk s))
               (note t true (hclk s) (olog s)) (dlog s) (ulog s)) (WRet tt)
    else WBad).
Definition h_get_depth (t : nat) : wcode hst Z :=
  WAct (fun _ s => if may t false (hclk s) (dlog s) then
    WNext (Hst (hinner s) (hrel s) (howner s) (hdepth s) (hdata s) (tick t (hclk s))
               (olog s) (note t false (hclk s) (dlog s)) (ulog s)) (WRet (hdepth s))
    else WBad).
Definition h_set_depth (t : nat) (d : Z) : wcode hst unit :=
  WAct (fun _ s => if may t true (hclk s) (dlog s) then
    WNext (Hst (hinner s) (hrel s) (howner s) d (hdata s) (tick t (hclk s))
               (olog s) (note t true (hclk s) (dlog s)) (ulog s)) (WRet tt)
    else WBad).
Definition h_bad {A} : wcode hst A := WAct (fun _ _ => WBad).
Definition h_inc_depth (t : nat) : wcode hst unit :=
  (do* d := h_get_depth t in if d <? dmax then h_set_depth t (d + 1) else h_bad)%w.
Definition h_dec_depth (t : nat) : wcode hst unit :=
  (do* d := h_get_depth t in if - dmax - 1 <? d then h_set_depth t (d - 1) else h_bad)%w.
Definition h_assert (b : bool) : wcode hst unit := if b then WRet tt else h_bad.

Open Scope w_scope.

(** mutex.hpp 70-85: try_lock *)
Definition h_try_lock (t : nat) : wcode hst (option bool) :=
  h_lock t ;;;
  do* o := h_get_owner t in
  match o with
  | None =>
      do* d := h_get_depth t in
      h_assert (d =? 0) ;;;
      h_set_owner t (Some t) ;;;
      h_inc_depth t ;;;
      h_unlock t ;;; WRet (Some true)
  | Some _ =>
      do* o' := h_get_owner t in
      if negb (is_thread o' t) then
        h_unlock t ;;; WRet (Some false)
      else
        h_inc_depth t ;;;
        h_unlock t ;;; WRet (Some true)
  end.

(** mutex.hpp 87-97: unlock *)
Definition h_unlock_rec (t : nat) : wcode hst (option bool) :=
  h_lock t ;;;
  do* o := h_get_owner t in
  h_assert (is_thread o t) ;;;
  do* d := h_get_depth t in
  h_assert (0 <? d) ;;;
  h_dec_depth t ;;;
  do* d' := h_get_depth t in
  (if d' =? 0 then h_set_owner t None else WRet tt) ;;;
  h_unlock t ;;; WRet None.

(** What the users do with their data: read it and write it. *)
Definition h_read (t : nat) : wcode hst nat :=
  WAct (fun _ s => if may t false (hclk s) (ulog s) then
    WNext (Hst (hinner s) (hrel s) (howner s) (hdepth s) (hdata s) (tick t (hclk s))
               (olog s) (dlog s) (note t false (hclk s) (ulog s))) (WRet (hdata s))
    else WBad).
Definition h_write (t v : nat) : wcode hst unit :=
  WAct (fun _ s => if may t true (hclk s) (ulog s) then
    WNext (Hst (hinner s) (hrel s) (howner s) (hdepth s) v (tick t (hclk s))
               (olog s) (dlog s) (note t true (hclk s) (ulog s))) (WRet tt)
    else WBad).

Inductive hcall : Type := HMutex (c : mcall) | HRead | HWrite (v : nat).
Inductive hres : Type := HM (r : option bool) | HVal (v : nat) | HUnit.
Definition himpl (t : nat) (c : hcall) : wcode hst hres :=
  match c with
  | HMutex CTry => do* r := h_try_lock t in WRet (HM r)
  | HMutex CUnlock => do* r := h_unlock_rec t in WRet (HM r)
  | HRead => do* v := h_read t in WRet (HVal v)
  | HWrite v => h_write t v ;;; WRet HUnit
  end.
Definition hcview (_ : hst) (c : hcall) : hcall := c.
Definition hrview (_ : hst) (r : hres) : hres := r.
End Mutex.
