(** Model of /repo/include/itlib/atomic.hpp: atomic_relaxed_counter<I>, as AtomicModel.v, but with
    the counter as an atomic object of the C++ memory model (WmModel.v): a load may read an old
    value, a store need not become the last in the modification order.

    The threads synchronize with each other by means outside of the counter ([KSync]). *)
From Coq Require Import ZArith List Bool.
From Verif Require Import Base ConcModel WmModel AtomicModel.
Open Scope Z_scope.

Section Counter.
Variable bits : Z.
Variable sgn : bool.

Definition kst : Type := loc Z.
Definition noclk : nat -> clock := fun _ => czero.
Definition kc := wcode kst (option Z).

(** std::atomic<I>.  The number chosen says which message is read, or behind which one the new
    one comes; an impossible choice is made again. *)
Definition k_load (t : nat) : wcode kst Z :=
  WAct (fun n L => match wread Relaxed t n L noclk with
                   | Some (v, L', _) => WNext L' (WRet v)
                   | None => WStay L
                   end).
Definition k_store (o : order) (t : nat) (i : Z) : wcode kst unit :=
  WAct (fun n L => match wstore o i t n L noclk with
                   | Some L' => WNext L' (WRet tt)
                   | None => WStay L
                   end).
Definition k_rmw (t : nat) (f : Z -> Z) : wcode kst Z :=
  WAct (fun n L => match rmw Relaxed f t n L noclk with
                   | Some (v, L', _) => WNext L' (WRet v)
                   | None => WStay L
                   end).
Definition k_fetch_add (t : nat) (d : Z) : wcode kst Z := k_rmw t (fun v => norm bits sgn (v + d)).
Definition k_fetch_sub (t : nat) (d : Z) : wcode kst Z := k_rmw t (fun v => norm bits sgn (v - d)).

Definition wret_plus (old d : Z) : kc :=
  match plus bits sgn old d with
  | Some r => WRet (Some r)
  | None => WAct (fun _ _ => WBad)
  end.

Open Scope w_scope.

(** atomic.hpp 72: load *)
Definition kload (t : nat) : kc := do* v := k_load t in WRet (Some v).
(** atomic.hpp 73: store *)
Definition kstore (t : nat) (i : Z) : kc := k_store Relaxed t i ;;; WRet None.
(** atomic.hpp 75: operator I *)
Definition kconv (t : nat) : kc := kload t.
(** atomic.hpp 77: operator++() *)
Definition kpre_inc (t : nat) : kc := do* o := k_fetch_add t 1 in wret_plus o 1.
(** atomic.hpp 78: operator++(int) *)
Definition kpost_inc (t : nat) : kc := do* o := k_fetch_add t 1 in WRet (Some o).
(** atomic.hpp 79: operator+= *)
Definition kadd_assign (t : nat) (i : Z) : kc := do* o := k_fetch_add t i in wret_plus o i.
(** atomic.hpp 80: operator--() *)
Definition kpre_dec (t : nat) : kc := do* o := k_fetch_sub t 1 in wret_plus o (- (1)).
(** atomic.hpp 81: operator--(int) *)
Definition kpost_dec (t : nat) : kc := do* o := k_fetch_sub t 1 in WRet (Some o).
(** atomic.hpp 82: operator-= *)
Definition ksub_assign (t : nat) (i : Z) : kc := do* o := k_fetch_sub t i in wret_plus o (- i).
(** atomic.hpp 84-87: operator=(I) *)
Definition kassign (t : nat) (i : Z) : kc := kstore t i ;;; WRet (Some i).
(** atomic.hpp 67-70: operator=(const atomic_relaxed_counter&) from another counter, whose load()
    gave [v].  The store is sequentially consistent, so it releases; what else this forbids is
    left out (more executions). *)
Definition kassign_from (t : nat) (v : Z) : kc := k_store Release t v ;;; WRet None.
(** The same from itself: load, then store. *)
Definition kassign_self (t : nat) : kc := do* v := k_load t in k_store Release t v ;;; WRet None.

(** The calls of the counter, and synchronization of a thread with another one. *)
Inductive kcall : Type :=
| KOp (c : acall)
| KSync (u : nat).

Definition kimpl (t : nat) (k : kcall) : kc :=
  match k with
  | KOp c =>
      match c with
      | CLoad => kload t | CConv => kconv t | CStore i => kstore t i | CAssign i => kassign t i
      | CFrom v => kassign_from t v | CSelf => kassign_self t
      | CPreInc => kpre_inc t | CPostInc => kpost_inc t | CAdd i => kadd_assign t i
      | CPreDec => kpre_dec t | CPostDec => kpost_dec t | CSub i => ksub_assign t i
      end
  | KSync u => WAct (fun _ L => WNext (learn t u L) (WRet None))
  end.
Definition kcview (_ : kst) (k : kcall) : kcall := k.
Definition krview (_ : kst) (r : option Z) : option Z := r.
End Counter.
