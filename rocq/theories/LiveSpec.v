(** What it means that calls come to an end, on the machine of ConcModel.

    Only waiting is no step of that machine: a thread which waits (spins, or is blocked) does so
    until it can go on. *)
From Coq Require Import List Arith.
From Verif Require Import Base ConcModel.
Import ListNotations.

Section Live.
Context {Sh Rs VC VR : Type}.
Variable rview : Sh -> Rs -> VR.

(** A call under way goes one action further, or returns. *)
Inductive goes : cfg Sh Rs VC VR -> cfg Sh Rs VC VR -> Prop :=
| g_act s T h t a n s' k :
    T t = Some (Act a) -> a n s = Next s' k -> goes (Cfg s T h) (Cfg s' (setm T t (Some k)) h)
| g_ret s T h t r :
    T t = Some (Ret r) -> goes (Cfg s T h) (Cfg s (setm T t None) (h ++ [ERes t (rview s r)])).

(** That many times, and no new call begins. *)
Inductive goes_on : nat -> cfg Sh Rs VC VR -> cfg Sh Rs VC VR -> Prop :=
| go_none c : goes_on 0 c c
| go_more m c c1 c2 : goes c c1 -> goes_on m c1 c2 -> goes_on (S m) c c2.

Definition can_go (c : cfg Sh Rs VC VR) : Prop := exists c', goes c c'.

(** How many calls have begun, and how many have returned. *)
Fixpoint begun (h : list (event VC VR)) : nat :=
  match h with [] => 0 | EInv _ _ :: h' => S (begun h') | ERes _ _ :: h' => begun h' end.
Fixpoint returned (h : list (event VC VR)) : nat :=
  match h with [] => 0 | EInv _ _ :: h' => returned h' | ERes _ _ :: h' => S (returned h') end.
Definition under_way (c : cfg Sh Rs VC VR) : nat := begun (hist c) - returned (hist c).

(** Thread [t] is in a call and finds itself waiting. *)
Definition waiting (c : cfg Sh Rs VC VR) (t : nat) : Prop :=
  exists a, th c t = Some (Act a) /\ forall n, a n (sh c) = Wait.
End Live.
