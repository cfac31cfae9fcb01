(** What a user of strong_try_rec_mutex relies on: data used only by a thread which has locked it
    is used by one thread at a time. *)
From Coq Require Import ZArith List Bool.
From Verif Require Import Base ConcModel ConcSpec WmModel MutexModel MutexSpec MutexWeakModel.
Import ListNotations.
Open Scope Z_scope.

(** The calls of the mutex. *)
Definition mutex_hist (h : list (event hcall hres)) : list (event mcall (option bool)) :=
  flat_map (fun e => match e with
                     | EInv t (HMutex c) => [EInv t c]
                     | ERes t (HM r) => [ERes t r]
                     | _ => []
                     end) h.

(** The users: as in MutexSpec; and a thread uses the data only when it has locked the mutex more
    often than unlocked. *)
Definition hallowed (dmax : Z) (h : list (event hcall hres)) (_ : hst) (t : nat) (c : hcall) : Prop :=
  match c with
  | HMutex CTry => balance (completed t (mutex_hist h)) < dmax
  | HMutex CUnlock => 0 < balance (completed t (mutex_hist h))
  | HRead | HWrite _ => 0 < balance (completed t (mutex_hist h))
  end.

(** What was written last. *)
Definition last_written (v0 : nat) (h : list (event hcall hres)) : nat :=
  fold_left (fun v e => match e with EInv _ (HWrite w) => w | _ => v end) h v0.
(** Is thread [t] using the data at the end of [h]? *)
Definition in_use (t : nat) (h : list (event hcall hres)) : bool :=
  fold_left (fun b e => match e with
                        | EInv u (HRead | HWrite _) => if (u =? t)%nat then true else b
                        | ERes u (HVal _ | HUnit) => if (u =? t)%nat then false else b
                        | _ => b
                        end) h false.
