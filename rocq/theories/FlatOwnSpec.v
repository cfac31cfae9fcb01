(** Specification vocabulary for C112. *)
From Coq Require Import List Arith.
From Verif Require Import Base SeqSpec FlatModel FlatSpec SmallVectorModel.
Import ListNotations.

(** [p] is where an element with key [k] belongs among the elements [l]: the elements less
    than [k] are those before it. *)
Definition belongs {E K} (key : E -> K) (lt : K -> K -> bool) (l : list E) (k : K) (p : nat)
  : Prop := border (fun e => lt (key e) k = true) l p.

(** A small_vector of [n] elements goes to another buffer when it gets one element more. *)
Definition changes_buffer {V} (RB n : nat) (t : @vec V) : Prop :=
  vcap t < n + 1 \/ (vb t <> 0 /\ n + 1 < RB).
