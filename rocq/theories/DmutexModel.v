(** Model of /repo/include/itlib/data_mutex.hpp (lines 61-177).

    The mutex is any type with lock, try_lock and unlock, and lock_shared, try_lock_shared and
    unlock_shared, as the standard specifies them: it knows who has locked it and how often
    ([recur]: it allows that more than once), a thread which has to wait waits, try_lock may fail
    for no reason, and where the standard leaves the behaviour undefined (unlocking what is not
    locked, locking what one has locked when it is not recursive) the step is [Bad].
    [throws]: locking may throw, having done nothing.

    A guard is an object with a pointer to the data; m_mutex always refers to the mutex.  Access
    to the data takes time: it begins and ends, and another thread's access in between, one of the
    two being a write, is a data race, [Bad].  Which things happen, where the language leaves a
    choice (elided moves) or the environment has one, is the number an action is given. *)
From Coq Require Import List Arith Bool.
From Verif Require Import Base ConcModel.
Import ListNotations.

(** unique_lock_t and try_unique_lock_t; const_unique_lock_t and try_const_unique_lock_t;
    shared_lock_t and try_shared_lock_t. *)
Inductive kind : Type := KUniq | KConst | KShared.
Definition is_ex (k : kind) : bool := match k with KShared => false | _ => true end.

(** m_data: not initialised, null, or the address of the data. *)
Inductive ptr : Type := PRaw | PNull | PSet.

Record guard := Guard { gt : nat; gk : kind; gp : ptr }.

Record dst := Dst {
  mex : option (nat * nat);     (* who has locked the mutex exclusively, and how often *)
  msh : list nat;               (* who has locked it shared *)
  gs : list (option guard);     (* the guards; None: destroyed *)
  dat : option nat;             (* the data; None while being written *)
  wr : option nat;              (* who writes *)
  rd : list nat                 (* who reads *)
}.
Definition with_m (s : dst) (e : option (nat * nat)) (h : list nat) : dst := Dst e h (gs s) (dat s) (wr s) (rd s).
Definition with_gs (s : dst) (g : list (option guard)) : dst := Dst (mex s) (msh s) g (dat s) (wr s) (rd s).
Definition with_d (s : dst) (d : option nat) (w : option nat) (r : list nat) : dst :=
  Dst (mex s) (msh s) (gs s) d w r.

Definition is_in (t : nat) (l : list nat) : bool := existsb (Nat.eqb t) l.
Fixpoint remove1 (t : nat) (l : list nat) : list nat :=
  match l with
  | [] => []
  | u :: l' => if u =? t then l' else u :: remove1 t l'
  end.

Inductive locked : Type := LOk | LNo | LThrow.

Section DMutex.
Variables recur throws : bool.

(** * The mutex *)

(** What locking does when it may: exclusively or shared. *)
Definition m_take (ex : bool) (t : nat) (s : dst) (busy : aout dst (code dst locked)) : aout dst (code dst locked) :=
  match mex s with
  | Some (u, d) =>
      if u =? t then
        if ex && recur then Next (with_m s (Some (t, S d)) (msh s)) (Ret LOk) else Bad
      else busy
  | None =>
      if ex then
        match msh s with
        | [] => Next (with_m s (Some (t, 1)) []) (Ret LOk)
        | _ => if is_in t (msh s) then Bad else busy
        end
      else if is_in t (msh s) && negb recur then Bad
      else Next (with_m s None (t :: msh s)) (Ret LOk)
  end.
Definition m_lock (ex : bool) (t : nat) : code dst locked :=
  Act (fun n s => match n with
                  | S _ => if throws then Next s (Ret LThrow) else m_take ex t s Wait
                  | 0 => m_take ex t s Wait
                  end).
Definition m_try (ex : bool) (t : nat) : code dst locked :=
  Act (fun n s => match n with
                  | 0 => m_take ex t s (Next s (Ret LNo))
                  | 1 => Next s (Ret LNo)
                  | _ => if throws then Next s (Ret LThrow) else Next s (Ret LNo)
                  end).
Definition m_unlock (ex : bool) (t : nat) : code dst unit :=
  Act (fun _ s =>
    if ex then
      match mex s with
      | Some (u, d) => if u =? t then Next (with_m s (if d =? 1 then None else Some (t, d - 1)) (msh s)) (Ret tt)
                       else Bad
      | None => Bad
      end
    else if is_in t (msh s) then Next (with_m s (mex s) (remove1 t (msh s))) (Ret tt) else Bad).

(** * Guards *)

(** A guard of the thread. *)
Definition mine (t l : nat) (s : dst) : option guard :=
  match nth_error (gs s) l with
  | Some (Some g) => if gt g =? t then Some g else None
  | _ => None
  end.

Definition g_new (t : nat) (k : kind) (p : ptr) : code dst nat :=
  Act (fun _ s => Next (with_gs s (gs s ++ [Some (Guard t k p)])) (Ret (length (gs s)))).
Definition g_get (t l : nat) : code dst guard :=
  Act (fun _ s => match mine t l s with Some g => Next s (Ret g) | None => Bad end).
Definition g_put (t l : nat) (x : option ptr) : code dst unit :=
  Act (fun _ s => match mine t l s with
                  | Some g => Next (with_gs s (upd (gs s) l
                                (match x with Some p => Some (Guard t (gk g) p) | None => None end))) (Ret tt)
                  | None => Bad
                  end).

Open Scope c_scope.

(** data_mutex.hpp 100: ~unique_lock_base_t, and 135: ~shared_lock_base_t *)
Definition g_dtor (t l : nat) : code dst unit :=
  do* g := g_get t l in
  (match gp g with
   | PSet => m_unlock (is_ex (gk g)) t
   | PNull => Ret tt
   | PRaw => cbad
   end) ;;;
  g_put t l None.

(** 79, 103-107 unique_lock_t, 118-122 const_unique_lock_t, 138-142 shared_lock_t: the base is
    made with the pointer set, then the mutex is locked; when that throws the base is destroyed. *)
Definition ctor_lock (t : nat) (k : kind) : code dst (option nat) :=
  do* l := g_new t k PSet in
  do* r := m_lock (is_ex k) t in
  match r with
  | LThrow => g_dtor t l ;;; Ret None
  | _ => Ret (Some l)
  end.
(** 80, 109-115 try_unique_lock_t, 124-130 try_const_unique_lock_t, 144-150 try_shared_lock_t *)
Definition ctor_try (t : nat) (k : kind) : code dst (option nat) :=
  do* l := g_new t k PRaw in
  do* r := m_try (is_ex k) t in
  match r with
  | LOk => g_put t l (Some PSet) ;;; Ret (Some l)
  | LNo => g_put t l (Some PNull) ;;; Ret (Some l)
  | LThrow => g_dtor t l ;;; Ret None
  end.
(** 84-86: the move constructor *)
Definition g_move (t l : nat) : code dst nat :=
  do* g := g_get t l in
  do* l' := g_new t (gk g) (gp g) in
  g_put t l (Some PNull) ;;; Ret l'.
(** Returning a guard by value: the move may be elided (152-155: NRVO; 157-175). *)
Definition g_return (t l : nat) : code dst nat :=
  Act (fun n s => Next s (match n with
                          | 0 => Ret l
                          | S _ => do* l' := g_move t l in g_dtor t l ;;; Ret l'
                          end)).

(** 89-92: access by * and -> *)
Definition d_read (t l : nat) : code dst nat :=
  do* g := g_get t l in
  match gp g with
  | PSet =>
      Act (fun _ s => match wr s with
                      | None => Next (with_d s (dat s) None (t :: rd s)) (Ret tt)
                      | Some _ => Bad
                      end) ;;;
      Act (fun _ s => match dat s with
                      | Some v => Next (with_d s (dat s) (wr s) (remove1 t (rd s))) (Ret v)
                      | None => Bad
                      end)
  | _ => cbad
  end.
Definition d_write (t l v : nat) : code dst unit :=
  do* g := g_get t l in
  match gp g, gk g with
  | PSet, KUniq =>
      Act (fun _ s => match wr s, rd s with
                      | None, [] => Next (with_d s None (Some t) []) (Ret tt)
                      | _, _ => Bad
                      end) ;;;
      Act (fun _ s => Next (with_d s (Some v) None (rd s)) (Ret tt))
  | _, _ => cbad
  end.

(** * What the threads do *)
Inductive dcall : Type :=
| CNew (k : kind) (try : bool)     (* 152-175: the six functions *)
| CMove (l : nat) | CDrop (l : nat)
| CTest (l : nat)                  (* 114, 129, 149: operator bool *)
| CRead (l : nat) | CWrite (l v : nat).
Inductive drs : Type := RGuard (l : nat) | RThrow | RUnit | RBool (b : bool) | RVal (v : nat).

Definition dimpl (t : nat) (c : dcall) : code dst drs :=
  match c with
  | CNew k try =>
      do* o := (if try then ctor_try t k else ctor_lock t k) in
      match o with
      | Some l => do* r := g_return t l in Ret (RGuard r)
      | None => Ret RThrow
      end
  | CMove l => do* r := g_move t l in Ret (RGuard r)
  | CDrop l => g_dtor t l ;;; Ret RUnit
  | CTest l => do* g := g_get t l in
               match gp g with PSet => Ret (RBool true) | PNull => Ret (RBool false) | PRaw => cbad end
  | CRead l => do* v := d_read t l in Ret (RVal v)
  | CWrite l v => d_write t l v ;;; Ret RUnit
  end.
End DMutex.

(** What is seen of a call when one asks about the data only. *)
Inductive dvcall : Type := VRead | VWrite (v : nat) | VOther.
Inductive dvres : Type := VVal (v : nat) | VNone.
Definition dcview (_ : dst) (c : dcall) : dvcall :=
  match c with
  | CRead _ => VRead
  | CWrite _ v => VWrite v
  | _ => VOther
  end.
Definition drview (_ : dst) (r : drs) : dvres :=
  match r with
  | RVal v => VVal v
  | _ => VNone
  end.

(** 66-67: the constructor *)
Definition dst0 (v : nat) : dst := Dst None [] [] (Some v) None [].
