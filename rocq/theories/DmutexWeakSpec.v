(** What data_mutex promises under the C++ memory model. *)
From Coq Require Import List Arith Bool.
From Verif Require Import Base ConcModel ConcSpec WmModel DmutexModel DmutexSpec DmutexWeakModel.
Import ListNotations.
Open Scope nat_scope.

(** The users are those of DmutexSpec. *)
Definition eallowed (recur : bool) (h : list (event dvcall dvres)) (e : est) (t : nat) (c : dcall) : Prop :=
  dallowed recur h (base e) t c.

(** Thread [t] knows of the access [a]: it happens before what [t] does next. *)
Definition known (e : est) (t : nat) (a : access) : Prop := atime a <= eclk e t (athr a).
