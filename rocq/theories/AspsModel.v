(** Model of /repo/include/itlib/atomic_shared_ptr_storage.hpp (the branch without
    std::atomic<std::shared_ptr>, lines 61-139, and the wrapper, lines 141-163).

    std::shared_ptr is modelled as the standard describes it: a stored pointer and a control
    block with a use count; every std::shared_ptr object of the program, also parameters,
    results and temporaries, is an object of its own.  Counts change atomically, one action
    each.  The plain members of m_ptr may only be touched by the thread that has set the flag,
    anything else is counted as a data race (undefined behaviour); likewise the objects of a
    thread by other threads.  The flag's test_and_set (acquire) and clear (release) order the
    critical sections, so that interleaving is exact for programs without races.

    When the last owner goes, the managed object is destroyed: user code, which may itself use
    the storage ([uses]: it calls load() and drops the result; nested at most [n] deep, for
    any n). *)
From Coq Require Import List Arith Bool.
From Verif Require Import Base ConcModel.
Import ListNotations.

(** A std::shared_ptr: get(), 0 for null, and the control block, none when it owns nothing. *)
Record sp := Sp { px : nat; cb : option nat }.
Definition sp_empty : sp := Sp 0 None.

Record ast := Ast {
  flag : option nat;              (* m_spinlock.flag: None when clear, else who has set it *)
  objs : list (option sp);        (* all std::shared_ptr objects; None: destroyed; 0 is m_ptr *)
  own : nat -> nat;               (* the thread which uses an object (not of 0) *)
  cnt : nat -> nat;               (* use counts *)
  ncb : nat;                      (* how many control blocks have been made *)
  gone : list (nat * nat * bool)  (* destroyed managed objects: which, by whom, and whether that
                                     thread had the flag set *)
}.
Definition with_flag (s : ast) (f : option nat) : ast := Ast f (objs s) (own s) (cnt s) (ncb s) (gone s).
Definition with_objs (s : ast) (o : list (option sp)) : ast := Ast (flag s) o (own s) (cnt s) (ncb s) (gone s).
Definition with_cnt (s : ast) (k : nat -> nat) : ast := Ast (flag s) (objs s) (own s) k (ncb s) (gone s).
Definition push (s : ast) (t : nat) (p : sp) : ast :=
  Ast (flag s) (objs s ++ [Some p]) (setm (own s) (length (objs s)) t) (cnt s) (ncb s) (gone s).

Definition has_flag (t : nat) (s : ast) : bool :=
  match flag s with Some u => u =? t | None => false end.
(** May thread [t] touch object [l]? *)
Definition acc (t l : nat) (s : ast) : bool :=
  if l =? 0 then has_flag t s else own s l =? t.
Definition obj (s : ast) (l : nat) : option sp :=
  match nth_error (objs s) l with Some (Some p) => Some p | _ => None end.

(** * std::shared_ptr *)

(** Reading an object's two members. *)
Definition sp_get (t l : nat) : code ast sp :=
  Act (fun _ s => if acc t l s then match obj s l with Some p => Next s (Ret p) | None => Bad end
                  else Bad).
(** One more owner, and the object that is it. *)
Definition sp_add (t : nat) (p : sp) : code ast nat :=
  Act (fun _ s => match cb p with
                  | None => Next (push s t p) (Ret (length (objs s)))
                  | Some b => if cnt s b =? 0 then Bad
                              else Next (push (with_cnt s (setm (cnt s) b (S (cnt s b)))) t p)
                                        (Ret (length (objs s)))
                  end).
(** The copy constructor. *)
Definition sp_copy (t l : nat) : code ast nat :=
  (do* p := sp_get t l in sp_add t p)%c.
(** The move constructor. *)
Definition sp_move (t l : nat) : code ast nat :=
  Act (fun _ s => if acc t l s then
                    match obj s l with
                    | Some p => Next (push (with_objs s (upd (objs s) l (Some sp_empty))) t p)
                                     (Ret (length (objs s)))
                    | None => Bad
                    end
                  else Bad).
(** swap *)
Definition sp_swap (t k l : nat) : code ast unit :=
  Act (fun _ s => if acc t k s && acc t l s then
                    match obj s k, obj s l with
                    | Some p, Some q => Next (with_objs s (upd (upd (objs s) k (Some q)) l (Some p))) (Ret tt)
                    | _, _ => Bad
                    end
                  else Bad).
(** The destructor: one owner less; says which managed object has lost its last owner. *)
Definition sp_release (t l : nat) : code ast (option nat) :=
  Act (fun _ s => if acc t l s then
                    match obj s l with
                    | Some p =>
                        let s' := with_objs s (upd (objs s) l None) in
                        match cb p with
                        | None => Next s' (Ret None)
                        | Some b => if cnt s b =? 0 then Bad
                                    else Next (with_cnt s' (setm (cnt s) b (cnt s b - 1)))
                                              (Ret (if cnt s b =? 1 then Some b else None))
                        end
                    | None => Bad
                    end
                  else Bad).
(** The managed object is destroyed. *)
Definition dispose (t b : nat) : code ast unit :=
  Act (fun _ s => if existsb (fun e => fst (fst e) =? b) (gone s) then Bad
                  else Next (Ast (flag s) (objs s) (own s) (cnt s) (ncb s) (gone s ++ [(b, t, has_flag t s)]))
                            (Ret tt)).

(** * The storage *)

(** atomic_shared_ptr_storage.hpp 70-72: asps_spinlock::lock; the loop is [Wait]. *)
Definition sl_lock (t : nat) : code ast unit :=
  Act (fun _ s => match flag s with
                  | None => Next (with_flag s (Some t)) (Ret tt)
                  | Some _ => Wait
                  end).
(** atomic_shared_ptr_storage.hpp 73-75: asps_spinlock::unlock *)
Definition sl_unlock (t : nat) : code ast unit :=
  Act (fun _ s => Next (with_flag s None) (Ret tt)).

Open Scope c_scope.

(** atomic_shared_ptr_storage.hpp 99-102: asps_holder::load, and 152: the wrapper's load.  The
    result is made before the lock_guard goes. *)
Definition load (t : nat) : code ast nat :=
  sl_lock t ;;;
  do* r := sp_copy t 0 in
  sl_unlock t ;;; Ret r.

Section Destroy.
Variable uses : nat -> bool.

(** ~shared_ptr, with the managed object's destructor. *)
Fixpoint destroy (n t l : nat) : code ast unit :=
  do* o := sp_release t l in
  match o with
  | None => Ret tt
  | Some b =>
      dispose t b ;;;
      if uses b then
        match n with
        | 0 => Ret tt
        | S n' => do* r := load t in destroy n' t r
        end
      else Ret tt
  end.

Variable n : nat.

(** The copy assignment: shared_ptr(r).swap( *this ). *)
Definition sp_assign (t d l : nat) : code ast unit :=
  do* x := sp_copy t l in
  sp_swap t x d ;;;
  destroy n t x.

(** atomic_shared_ptr_storage.hpp 104-107: asps_holder::store; the guard goes before the
    parameter. *)
Definition holder_store (t q : nat) : code ast unit :=
  sl_lock t ;;;
  sp_swap t 0 q ;;;
  sl_unlock t ;;;
  destroy n t q.
(** 109-119: asps_holder::exchange; the parameter is moved to the result. *)
Definition holder_exchange (t q : nat) : code ast nat :=
  sl_lock t ;;;
  sp_swap t 0 q ;;;
  sl_unlock t ;;;
  do* r := sp_move t q in
  destroy n t q ;;; Ret r.
(** 122-132: asps_holder::compare_exchange_strong; == compares get() *)
Definition holder_cas (t e q : nat) : code ast bool :=
  sl_lock t ;;;
  do* a := sp_get t 0 in
  do* b := sp_get t e in
  if px a =? px b then
    sp_swap t 0 q ;;;
    sl_unlock t ;;;
    destroy n t q ;;; Ret true
  else
    sp_assign t e 0 ;;;
    sl_unlock t ;;;
    destroy n t q ;;; Ret false.

(** 153: store *)
Definition store (t p : nat) : code ast unit :=
  do* q := sp_move t p in holder_store t q ;;; destroy n t p.
(** 155: exchange *)
Definition exchange (t p : nat) : code ast nat :=
  do* q := sp_move t p in
  do* r := holder_exchange t q in
  destroy n t p ;;; Ret r.
(** 157-159: compare_exchange *)
Definition compare_exchange (t e p : nat) : code ast bool :=
  do* q := sp_move t p in
  do* b := holder_cas t e q in
  destroy n t p ;;; Ret b.

(** * What the threads do *)
Inductive call : Type :=
| CLoad | CStore (p : nat) | CExchange (p : nat) | CCas (e p : nat)
(* and, without the storage: std::make_shared and the like, a pointer without owner, a copy with
   another get(), destruction, handing an object to another thread *)
| CMake (x : nat) | CBare (x : nat) | CAlias (l x : nat) | CDrop (l : nat) | CGive (l u : nat).

Inductive rs : Type := RLoc (l : nat) | RUnit | RBool (b : bool) (e : nat).

Definition make (t x : nat) : code ast rs :=
  Act (fun _ s => Next (push (Ast (flag s) (objs s) (own s) (setm (cnt s) (ncb s) 1) (S (ncb s)) (gone s))
                             t (Sp x (Some (ncb s))))
                       (Ret (RLoc (length (objs s))))).
Definition bare (t x : nat) : code ast rs :=
  do* l := sp_add t (Sp x None) in Ret (RLoc l).
Definition alias (t l x : nat) : code ast rs :=
  do* p := sp_get t l in do* r := sp_add t (Sp x (cb p)) in Ret (RLoc r).
Definition give (t l u : nat) : code ast rs :=
  Act (fun _ s => if acc t l s then
                    Next (Ast (flag s) (objs s) (setm (own s) l u) (cnt s) (ncb s) (gone s)) (Ret RUnit)
                  else Bad).

Definition impl (t : nat) (c : call) : code ast rs :=
  match c with
  | CLoad => do* r := load t in Ret (RLoc r)
  | CStore p => store t p ;;; Ret RUnit
  | CExchange p => do* r := exchange t p in Ret (RLoc r)
  | CCas e p => do* b := compare_exchange t e p in Ret (RBool b e)
  | CMake x => make t x
  | CBare x => bare t x
  | CAlias l x => alias t l x
  | CDrop l => destroy n t l ;;; Ret RUnit
  | CGive l u => give t l u
  end.
End Destroy.

(** How calls and results look from outside: the values of the pointers. *)
Inductive vcall : Type :=
| VLoad | VStore (p : option sp) | VExchange (p : option sp) | VCas (e p : option sp) | VOther.
Inductive vres : Type :=
| VVal (p : option sp) | VUnit | VBool (b : bool) (e : option sp).

Definition cview (s : ast) (c : call) : vcall :=
  match c with
  | CLoad => VLoad
  | CStore p => VStore (obj s p)
  | CExchange p => VExchange (obj s p)
  | CCas e p => VCas (obj s e) (obj s p)
  | _ => VOther
  end.
Definition rview (s : ast) (r : rs) : vres :=
  match r with
  | RLoc l => VVal (obj s l)
  | RUnit => VUnit
  | RBool b e => VBool b (obj s e)
  end.

(** 91-98, 146-147: the storage constructed with a pointer, here empty (the default
    constructor); a storage constructed with a pointer is one stored to. *)
Definition ast0 : ast := Ast None [Some sp_empty] (fun _ => 0) (fun _ => 0) 0 [].
