(** What strong_try_rec_mutex promises, said with counts of calls only. *)
From Coq Require Import ZArith List Bool.
From Verif Require Import Base ConcModel ConcSpec MutexModel.
Import ListNotations.
Open Scope Z_scope.

(** How many more times a thread has locked than unlocked: in its own calls... *)
Definition one (c : mcall) (r : option bool) : Z :=
  match c, r with
  | CTry, Some true => 1
  | CTry, _ => 0
  | CUnlock, _ => -1
  end.
Definition balance (l : list (mcall * option bool)) : Z :=
  fold_right (fun p z => one (fst p) (snd p) + z) 0 l.
(** ... and in the calls of all threads. *)
Definition held (t : nat) (L : list (nat * mcall * option bool)) : Z :=
  fold_right (fun p z => (if (fst (fst p) =? t)%nat then one (snd (fst p)) (snd p) else 0) + z) 0 L.

(** A history of calls made one after the other: try_lock succeeds if and only if no other
    thread holds the mutex; unlock is called by a thread which holds it. *)
Definition rec_mutex (L : list (nat * mcall * option bool)) : Prop :=
  forall L1 t c r L2, L = L1 ++ (t, c, r) :: L2 ->
    match c with
    | CTry => exists b, r = Some b /\ (b = true <-> forall u, u <> t -> held u L1 = 0)
    | CUnlock => r = None /\ 0 < held t L1
    end.

(** The users: a thread unlocks only what it has locked, and locks no more often than the depth
    can count. *)
Definition mallowed (dmax : Z) (h : list (event mcall (option bool))) (_ : mst) (t : nat) (c : mcall) : Prop :=
  match c with
  | CTry => balance (completed t h) < dmax
  | CUnlock => 0 < balance (completed t h)
  end.
