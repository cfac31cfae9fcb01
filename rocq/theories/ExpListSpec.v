(** Specification of expecteds in the values of expecteds: lists. *)
From Coq Require Import List Arith Bool.
From Verif Require Import Base ExpListModel.
Import ListNotations.

(** An expected: an error (expected<T, void> has none to show), a value whose next is null, or a
    value which owns an expected. *)
Inductive chain (D E : Type) : Type :=
| Bad (e : option E)
| Last (d : D)
| More (d : D) (c : chain D E).
Arguments Bad {D E} e.
Arguments Last {D E} d.
Arguments More {D E} d c.

(** The expected after j nexts, and another one in its place *)
Fixpoint sub {D E} (c : chain D E) (j : nat) : option (chain D E) :=
  match j, c with
  | 0, _ => Some c
  | S j', More _ c' => sub c' j'
  | S _, _ => None
  end.
Fixpoint swap_in {D E} (c : chain D E) (j : nat) (u : chain D E) : chain D E :=
  match j, c with
  | 0, _ => u
  | S j', More d c' => More d (swap_in c' j' u)
  | S _, _ => c
  end.
Definition at_place {D E} (cs : list (chain D E)) (p : nat * nat) : option (chain D E) :=
  match nth_error cs (fst p) with Some c => sub c (snd p) | None => None end.
Fixpoint with_place {D E} (cs : list (chain D E)) (p : nat * nat) (u : chain D E) : list (chain D E) :=
  match cs, fst p with
  | [], _ => []
  | c :: cs', 0 => swap_in c (snd p) u :: cs'
  | c :: cs', S i => c :: with_place cs' (i, snd p) u
  end.

(** What is left of an expected which was moved from *)
Definition husk {D E} (c : chain D E) : chain D E :=
  match c with
  | Bad e => Bad e
  | Last d => Last d
  | More d _ => Last d
  end.
Definition is_value {D E} (c : chain D E) : bool := match c with Bad _ => false | _ => true end.

Section Spec.
Context {D E : Type}.
Variable tv : bool.

(** What a call does, and its answer. An expected may be assigned from one which lies inside of
    what it holds: it becomes that one, and all which was before it is gone. *)
Inductive step (cs : list (chain D E)) : op D E -> list (chain D E) -> ans D E -> Prop :=
| step_set_value p d c :
    at_place cs p = Some c -> step cs (SetValue p d) (with_place cs p (Last d)) Done
| step_set_error p e c :
    at_place cs p = Some c ->
    step cs (SetError p e) (with_place cs p (Bad (if tv then None else Some e))) Done
| step_push p d c :
    at_place cs p = Some c -> step cs (Push p d) (with_place cs p (More d c)) Done
| step_move p q c u :
    at_place cs p = Some c -> at_place cs q = Some u -> fst p <> fst q ->
    step cs (Move p q) (with_place (with_place cs p u) q (husk u)) Done
| step_move_same p c :
    at_place cs p = Some c -> step cs (Move p p) cs Done
| step_move_from_inside i j k u :
    at_place cs (i, k) = Some u -> j < k -> (tv = true \/ is_value u = true) ->
    step cs (Move (i, j) (i, k)) (with_place cs (i, j) u) Done
| step_emplace p d c :
    tv = true -> at_place cs p = Some c -> step cs (Emplace p d) (with_place cs p (Last d)) Done
| step_emplace_from p q c u :
    tv = true -> at_place cs p = Some c -> at_place cs q = Some u -> is_value u = true -> fst p <> fst q ->
    step cs (EmplaceFrom p q) (with_place (with_place cs p u) q (husk u)) Done
| step_peek p c :
    at_place cs p = Some c ->
    step cs (Peek p) cs (match c with Bad e => SawError e | Last d => SawValue d | More d _ => SawValue d end).
Inductive steps (cs : list (chain D E)) : list (op D E) -> list (chain D E) -> list (ans D E) -> Prop :=
| steps_nil : steps cs [] cs []
| steps_cons o os cs1 a cs2 l :
    step cs o cs1 a -> steps cs1 os cs2 l -> steps cs (o :: os) cs2 (a :: l).
End Spec.
