(** Vocabulary shared by the container models: storage slots, calls on one object of a
    pair or of a family, and histories of calls. *)
From Coq Require Import List Arith NArith.
From Verif Require Import Base SeqSpec.
Import ListNotations.

(** One element sized piece of storage. *)
Inductive slot (V : Type) : Type :=
| Raw                 (* no object alive here *)
| Live (v : V).       (* an object with value v *)
Arguments Raw {V}.
Arguments Live {V} v.

(** size_t has 64 bits. *)
Definition two64 : N := 18446744073709551616%N.  (* 2^64 *)
Definition two63 : N := 9223372036854775808%N.   (* 2^63 *)

(** * Calls on one of two objects *)

Definition onL {S A} (m : M S A) : M (S * S) A := fun st =>
  match m (fst st) with
  | Ok a s' => Ok a (s', snd st)
  | Throw e s' => Throw e (s', snd st)
  | UB => UB
  | Diverge => Diverge
  end.
Definition onR {S A} (m : M S A) : M (S * S) A := fun st =>
  match m (snd st) with
  | Ok a s' => Ok a (fst st, s')
  | Throw e s' => Throw e (fst st, s')
  | UB => UB
  | Diverge => Diverge
  end.

Definition flip_pair {S} (st : S * S) : S * S := (snd st, fst st).
Definition flip_res {S A} (r : res (S * S) A) : res (S * S) A :=
  match r with
  | Ok a st => Ok a (flip_pair st)
  | Throw e st => Throw e (flip_pair st)
  | UB => UB
  | Diverge => Diverge
  end.

(** * Families of objects *)

Definition no_answer {S A} (m : M S A) : M S (option nat) := m ;;; ret None.
Definition position_answer {S} (m : M S nat) : M S (option nat) :=
  let* p := m in ret (Some p).

(** Two objects of a family, updated by a call which involves both. *)
Definition on_two {S} (m : M (S * S) unit) (i j : nat) : M (list S) (option nat) := fun st =>
  match nth_error st i, nth_error st j with
  | Some a, Some b =>
      match m (a, b) with
      | Ok _ (a', b') => Ok None (upd (upd st i a') j b')
      | Throw e (a', b') => Throw e (upd (upd st i a') j b')
      | UB => UB
      | Diverge => Diverge
      end
  | _, _ => UB
  end.

Definition on_one {S A} (m : M S A) (i : nat) : M (list S) A := fun st =>
  match nth_error st i with
  | Some a =>
      match m a with
      | Ok r a' => Ok r (upd st i a')
      | Throw e a' => Throw e (upd st i a')
      | UB => UB
      | Diverge => Diverge
      end
  | None => UB
  end.

(** What the caller sees of a call; [None] when the program is broken (undefined
    behaviour or an endless loop). The state after an exception is kept: the caller may
    catch it and go on. *)
Definition observe {S} (r : res S (option nat)) : option (S * vret) :=
  match r with
  | Ok None s => Some (s, RNone)
  | Ok (Some p) s => Some (s, RPos p)
  | Throw e s => Some (s, RThrow e)
  | UB => None
  | Diverge => None
  end.

(** A history of calls, with all the answers. *)
Fixpoint run_calls {S O} (call : O -> M S (option nat)) (s : S) (os : list O)
  : option (S * list vret) :=
  match os with
  | [] => Some (s, [])
  | o :: os' =>
      match observe (call o s) with
      | None => None
      | Some (s', r) =>
          match run_calls call s' os' with
          | None => None
          | Some (s'', rs) => Some (s'', r :: rs)
          end
      end
  end.
