(** Specification of how flat_map and flat_set stand exceptions (C81).  Nothing here
    mentions searching or insertion positions. *)
From Coq Require Import List Arith Bool.
From Verif Require Import Base SeqSpec FlatModel.
Import ListNotations.

(** A comparison which answers what [f] says or throws, without touching the object. *)
Definition may_throw {A B C CT} (f : C -> A -> B -> bool)
  (m : A -> B -> M (flat C CT) bool) : Prop :=
  forall a b s, m a b s = Ok (f (fcmp s) a b) s \/ exists x, m a b s = Throw x s.

(** A comparison which answers anything or throws, without touching the object. *)
Definition leaves_alone {A B S} (m : A -> B -> M S bool) : Prop :=
  forall a b s,
  match m a b s with
  | Ok _ s' => s' = s
  | Throw _ s' => s' = s
  | _ => True
  end.

(** Reading elements neither throws nor changes the container. *)
Definition plain_reads {E CT} (cont : container E CT) : Prop :=
  forall i t,
  match c_get cont i t with
  | Ok _ t' => t' = t
  | Throw _ _ => False
  | _ => True
  end.

(** The calls which flat_map and flat_set make of a container. *)
Definition used {E} (o : vop E) : Prop :=
  match o with
  | Insert _ _ | Erase _ | Clear => True
  | _ => False
  end.

(** A container which is as it was after an exception, in the states [I]; assigning to a
    mapped value does not throw. *)
Record strong_container {E CT} (cont : container E CT) (I : CT -> Prop) : Prop := {
  sc_reads : plain_reads cont;
  sc_put : forall i e t x t', c_put cont i e t <> Throw x t';
  sc_call : forall o t x t', used o -> I t -> c_call cont o t = Throw x t' -> t' = t
}.
