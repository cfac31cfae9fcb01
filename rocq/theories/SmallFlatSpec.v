(** Specification vocabulary for C83. *)
From Coq Require Import List.
From Verif Require Import Base FlatModel SmallVectorModel SmallVectorSpec.
Import ListNotations.

(** A history without the member swap, which does not compile over small_vector. *)
Definition no_swap {O} (os : list (fsysop O)) : Prop :=
  Forall (fun o => forall i j, o <> FSwap i j) os.

(** A small_vector which holds at most [n] elements, namely [l]; no construction of an
    element is about to throw. *)
Definition small_rep {V} (SC n : nat) (t : @vec V) (l : list V) : Prop :=
  SmallVectorSpec.holds SC t l /\ vfuse t = None /\ length l <= n.
