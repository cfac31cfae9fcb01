(** What it means for the calls of concurrent threads to look as if each of them happened at
    one moment between its beginning and its end. *)
From Coq Require Import List Arith.
From Verif Require Import Base ConcModel.
Import ListNotations.

Section Lin.
Context {VC VR : Type}.

(** A history with the moments added at which the calls take effect. *)
Inductive xevent : Type :=
| XInv (t : nat) (c : VC)
| XLin (t : nat) (c : VC) (r : VR)
| XRes (t : nat) (r : VR).

(** Without them. *)
Fixpoint erase (x : list xevent) : list (event VC VR) :=
  match x with
  | [] => []
  | XInv t c :: x' => EInv t c :: erase x'
  | XLin _ _ _ :: x' => erase x'
  | XRes t r :: x' => ERes t r :: erase x'
  end.

(** Only them. *)
Fixpoint lins (x : list xevent) : list (nat * VC * VR) :=
  match x with
  | [] => []
  | XLin t c r :: x' => (t, c, r) :: lins x'
  | _ :: x' => lins x'
  end.

(** Where a thread is: in no call, in one that has not taken effect, in one that has. *)
Inductive lst : Type :=
| LFree
| LPend (c : VC)
| LDone (c : VC) (r : VR).

(** Each thread begins a call, the call takes effect once, with the arguments it was called
    with, and it returns the result it took effect with; in that order. *)
Inductive runs (t : nat) : list xevent -> lst -> Prop :=
| run_nil : runs t [] LFree
| run_inv x c : runs t x LFree -> runs t (x ++ [XInv t c]) (LPend c)
| run_lin x c r : runs t x (LPend c) -> runs t (x ++ [XLin t c r]) (LDone c r)
| run_res x c r : runs t x (LDone c r) -> runs t (x ++ [XRes t r]) LFree
| run_other_inv x l t' c : runs t x l -> t' <> t -> runs t (x ++ [XInv t' c]) l
| run_other_lin x l t' c r : runs t x l -> t' <> t -> runs t (x ++ [XLin t' c r]) l
| run_other_res x l t' r : runs t x l -> t' <> t -> runs t (x ++ [XRes t' r]) l.

(** [legal l]: [l] is a history of calls made one after the other. *)
Definition linearizable (legal : list (nat * VC * VR) -> Prop) (h : list (event VC VR)) :=
  exists x, erase x = h /\ (forall t, exists l, runs t x l) /\ legal (lins x).

(** The calls completed in a history of thread [t], with their results. *)
Fixpoint completed_from (t : nat) (cur : option VC) (h : list (event VC VR)) : list (VC * VR) :=
  match h with
  | [] => []
  | EInv t' c :: h' => completed_from t (if t' =? t then Some c else cur) h'
  | ERes t' r :: h' =>
      if t' =? t then
        match cur with
        | Some c => (c, r) :: completed_from t None h'
        | None => completed_from t None h'
        end
      else completed_from t cur h'
  end.
Definition completed (t : nat) (h : list (event VC VR)) := completed_from t None h.
End Lin.
Arguments xevent : clear implicits.
Arguments lst : clear implicits.

(** Calls made one after the other, by a rule which says what one call does. *)
Inductive seq_run {A VC VR} (spec : nat -> A -> VC -> VR -> A -> Prop) (a0 : A) :
  list (nat * VC * VR) -> A -> Prop :=
| sr_nil : seq_run spec a0 [] a0
| sr_snoc l a t c r a' : seq_run spec a0 l a -> spec t a c r a' ->
    seq_run spec a0 (l ++ [(t, c, r)]) a'.
