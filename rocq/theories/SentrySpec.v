(** What "runs exactly once, when the last owner in a chain of moves is destroyed" means, in
    terms of the log of what happened (the last event first). *)
From Coq Require Import List Arith.
From Verif Require Import SentryModel.
Import ListNotations.

Section Spec.
Context {F : Type}.

(** After the events [l], [x] owns the function [f]: it was made with it, or it is the last in
    a chain of moves from one which was, and it is not destroyed. *)
Inductive owns : list (event F) -> nat -> F -> Prop :=
| o_made l x f : owns (Made x f :: l) x f
| o_moved l x y f : owns l y f -> owns (MovedTo x y :: l) x f
| o_made_other l x y f g : owns l x f -> x <> y -> owns (Made y g :: l) x f
| o_moved_other l x y z f : owns l x f -> x <> y -> x <> z -> owns (MovedTo y z :: l) x f
| o_destroyed_other l x y f : owns l x f -> x <> y -> owns (Destroyed y :: l) x f
| o_ran l x f g : owns l x f -> owns (Ran g :: l) x f.

(** A function runs only as a part of the destruction of its owner, and always then. *)
Definition on_time (l : list (event F)) : Prop :=
  (forall after f before, l = after ++ Ran f :: before ->
     exists x before', before = Destroyed x :: before' /\ owns before' x f) /\
  (forall after x f before, l = after ++ Destroyed x :: before -> owns before x f ->
     exists after', after = after' ++ [Ran f]).

(** How many functions of a kind were given to sentries, and how many were run. *)
Fixpoint made_count (P : F -> bool) (l : list (event F)) : nat :=
  match l with
  | [] => 0
  | Made _ f :: l' => if P f then S (made_count P l') else made_count P l'
  | _ :: l' => made_count P l'
  end.
Fixpoint ran_count (P : F -> bool) (l : list (event F)) : nat :=
  match l with
  | [] => 0
  | Ran f :: l' => if P f then S (ran_count P l') else ran_count P l'
  | _ :: l' => ran_count P l'
  end.

(** The state a program ends in, if it does not end in undefined behaviour. *)
Definition ends (o : out F) (s : store F) : Prop :=
  o = Normal s \/ o = Threw s \/ o = Returned s \/ o = Terminated s.

(** Programs which create no sentries by new. *)
Fixpoint automatic (c : stmt F) : Prop :=
  match c with
  | New _ _ | NewMove _ _ => False
  | Block b | CallFun b => fold_right (fun c r => automatic c /\ r) True b
  | TryCatch b h => fold_right (fun c r => automatic c /\ r) True b /\
                    fold_right (fun c r => automatic c /\ r) True h
  | _ => True
  end.
End Spec.
