(** What a relaxed counter promises under the C++ memory model, said without the model's code. *)
From Coq Require Import ZArith List Bool Arith.
From Verif Require Import Base ConcModel ConcSpec WmModel AtomicModel AtomicSpec AtomicWeakModel.
Import ListNotations.
Open Scope nat_scope.

Notation khist := (list (event kcall (option Z))).
Notation korder := (list (nat * acall * option Z)).

(** The operations on the counter which thread [t] has completed. *)
Definition ops (t : nat) (h : khist) : list (acall * option Z) :=
  flat_map (fun p => match fst p with KOp c => [(c, snd p)] | KSync _ => [] end) (completed t h).

(** The operations of [t] in a list of operations of all threads. *)
Definition ops_by (t : nat) (L : korder) : list (acall * option Z) :=
  map (fun e => (snd (fst e), snd e)) (filter (fun e => fst (fst e) =? t) L).

(** Happens-before: how many of [u]'s operations are known to happen before what [t] does next.
    A thread's own operations are; and after it has synchronized with another thread, those
    which that thread knew when the synchronization began. *)
Record known := Known {
  calling : nat -> option kcall;
  source : nat -> nat -> nat;       (* what the thread a call synchronizes with knew *)
  knows_of : nat -> nat -> nat
}.
Definition known0 : known := Known (fun _ => None) (fun _ _ => 0) (fun _ _ => 0).
Definition know1 (k : known) (e : event kcall (option Z)) : known :=
  match e with
  | EInv t c =>
      Known (setm (calling k) t (Some c))
            (match c with KSync u => setm (source k) t (knows_of k u) | KOp _ => source k end)
            (knows_of k)
  | ERes t _ =>
      Known (setm (calling k) t None) (source k)
            (match calling k t with
             | Some (KOp _) => setm (knows_of k) t (setm (knows_of k t) t (S (knows_of k t t)))
             | Some (KSync _) => setm (knows_of k) t (fun u => Nat.max (knows_of k t u) (source k t u))
             | None => knows_of k
             end)
  end.
Definition knows (h : khist) : nat -> nat -> nat := knows_of (fold_left know1 h known0).

Definition now_calling (h : khist) : nat -> option kcall := calling (fold_left know1 h known0).

(** [L] has what happens before an operation before it: if [t] has completed no more than those
    of its operations which are in [A], all it knows is in [A]. *)
Definition respects (h : khist) (L : korder) : Prop :=
  forall A t c r B, L = A ++ (t, c, r) :: B ->
  forall h1 h2, h = h1 ++ h2 -> length (ops t h1) <= length (ops_by t A) ->
  forall u, knows h1 t u <= length (ops_by u A).

(** Only the calls of the counter. *)
Definition counter_calls (h : khist) : list (event acall (option Z)) :=
  flat_map (fun e => match e with EInv t (KOp c) => [EInv t c] | _ => [] end) h.

(** How many calls of the counter thread [u] has begun. *)
Definition begun (u : nat) (h : khist) : nat :=
  length (filter (fun e => match e with EInv t (KOp _) => t =? u | _ => false end) h).

Definition kallowed (bits : Z) (sgn : bool) (_ : khist) (_ : kst) (_ : nat) (k : kcall) : Prop :=
  match k with
  | KOp c => aarg bits sgn c /\ c <> CSelf
  | KSync _ => True
  end.
