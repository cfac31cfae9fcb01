(** Specification of generators in generators: a generator is a value, the rest of a body with
    the generators it has, to any depth. *)
From Coq Require Import List Arith Bool.
From Verif Require Import Base GenNestModel.
Import ListNotations.

Section Spec.
Context {St V E : Type}.
Variable run : St -> act St V E.
Variable moved : V -> V.

(** [G (Some st) v gs]: suspended at [st]; [G None v gs]: finished; [v] is what *it is. *)
Inductive gen : Type := G (b : option St) (v : option V) (gs : list (option gen)).

(** How a body, run on, comes to rest. *)
Inductive stop : Type :=
| Gave (v : V) (st : St) (gs : list (option gen))
| Ended
| Failed (e : E).
Definition after (r : stop) : gen :=
  match r with
  | Gave v st gs => G (Some st) (Some v) gs
  | Ended | Failed _ => G None None []
  end.
(** next() moves the value out. *)
Definition after_next (r : stop) : gen :=
  match r with
  | Gave v st gs => G (Some st) (Some (moved v)) gs
  | _ => G None None []
  end.
Definition answer_next (r : stop) : gout V E :=
  match r with
  | Gave v _ _ => Value (Some v)
  | Ended => Value None
  | Failed e => Thrown e
  end.
Definition answer_advance (r : stop) : gout V E :=
  match r with Failed e => Thrown e | _ => Nothing end.

(** [goes st gs r]: a body at [st] with the generators [gs] comes to rest as [r].
    [does gs o gs' x]: the call [o] on the generators [gs] is allowed, makes them [gs'] and answers [x]. *)
Inductive goes : St -> list (option gen) -> stop -> Prop :=
| goes_yield st gs v st' : run st = Yields v st' -> goes st gs (Gave v st' gs)
| goes_return st gs : run st = Returns -> goes st gs Ended
| goes_throw st gs e : run st = Throws e -> goes st gs (Failed e)
| goes_on st gs o k gs' x r :
    run st = Does o k -> does gs o gs' x -> goes (k x) gs' r -> goes st gs r
with does : list (option gen) -> gop St -> list (option gen) -> gout V E -> Prop :=
| does_make gs b : does gs (Make b) (gs ++ [Some (G (Some b) None [])]) Nothing
| does_next_over gs i v gs0 :
    nth_error gs i = Some (Some (G None v gs0)) -> does gs (Next i) gs (Value None)
| does_next gs i st v gs0 r :
    nth_error gs i = Some (Some (G (Some st) v gs0)) -> goes st gs0 r ->
    does gs (Next i) (upd gs i (Some (after_next r))) (answer_next r)
| does_advance gs i st v gs0 r :
    nth_error gs i = Some (Some (G (Some st) v gs0)) -> goes st gs0 r ->
    does gs (Advance i) (upd gs i (Some (after r))) (answer_advance r)
| does_deref gs i b v gs0 :
    nth_error gs i = Some (Some (G b (Some v) gs0)) -> does gs (Deref i) gs (Got v)
| does_done gs i b v gs0 :
    nth_error gs i = Some (Some (G b v gs0)) ->
    does gs (IsDone i) gs (Bool (match b with None => true | Some _ => false end))
| does_handle gs i o :
    nth_error gs i = Some o -> does gs (HasHandle i) gs (Bool (match o with Some _ => true | None => false end))
| does_clear gs i o : nth_error gs i = Some o -> does gs (Clear i) (upd gs i None) Nothing
| does_move_new gs j o : nth_error gs j = Some o -> does gs (MoveNew j) (upd gs j None ++ [o]) Nothing
| does_move_to gs i j old o :
    i <> j -> nth_error gs i = Some old -> nth_error gs j = Some o ->
    does gs (MoveTo i j) (upd (upd gs j None) i o) Nothing
| does_leave gs o : does (gs ++ [o]) Leave gs Nothing.

(** What a user does, one call after the other. *)
Inductive history : list (option gen) -> list (gop St) -> list (option gen) -> list (gout V E) -> Prop :=
| hist_nil gs : history gs [] gs []
| hist_cons gs o gs' x os gs'' xs :
    does gs o gs' x -> history gs' os gs'' xs -> history gs (o :: os) gs'' (x :: xs).
End Spec.
Arguments gen : clear implicits.
Arguments stop : clear implicits.

(** Who has the handle of a frame: the user, or a coroutine among its local variables. *)
Inductive holder : Type := User (i : nat) | Local (h i : nat).
Definition held {St V E} (s : store St V E) (l : list (option nat)) (w : holder) : option nat :=
  match w with
  | User i => match nth_error l i with Some o => o | None => None end
  | Local h i =>
      match frames s h with
      | Some f => match nth_error (locals f) i with Some o => o | None => None end
      | None => None
      end
  end.
(** Every coroutine frame has exactly one holder, what is held exists, and none is running. *)
Definition owned_once {St V E} (s : store St V E) (l : list (option nat)) : Prop :=
  (forall h f, frames s h = Some f -> exists w, held s l w = Some h) /\
  (forall w w' h, held s l w = Some h -> held s l w' = Some h -> w = w') /\
  (forall w h, held s l w = Some h -> exists f, frames s h = Some f /\ at_ f <> Running).

(** A coroutine which walks a tree by coroutines on its subtrees:

      generator<V> walk(tree t) {
          if (t is a leaf) co_return;
          if (t is bad) throw t.e;
          auto l = walk(t.left);
          while (auto v = l.next()) co_yield *v;
          co_yield t.x;
          auto r = walk(t.right);
          while (auto v = r.next()) co_yield *v;
      } *)
Inductive tree (V E : Type) : Type :=
| Leaf
| Bad (e : E)
| Node (l : tree V E) (x : V) (r : tree V E).
Arguments Leaf {V E}.
Arguments Bad {V E} e.
Arguments Node {V E} l x r.

Inductive at_walk (V E : Type) : Type :=
| Start (t : tree V E)
| Left (x : V) (r : tree V E)
| FromLeft (x : V) (r : tree V E) (a : gout V E)
| Middle (r : tree V E)
| Right
| FromRight (a : gout V E).
Arguments Start {V E} t.
Arguments Left {V E} x r.
Arguments FromLeft {V E} x r a.
Arguments Middle {V E} r.
Arguments Right {V E}.
Arguments FromRight {V E} a.

Definition walk {V E} (st : at_walk V E) : act (at_walk V E) V E :=
  match st with
  | Start Leaf => Returns
  | Start (Bad e) => Throws e
  | Start (Node l x r) => Does (Make (Start l)) (fun _ => Left x r)
  | Left x r => Does (Next 0) (FromLeft x r)
  | FromLeft x r (Value (Some v)) => Yields v (Left x r)
  | FromLeft x r (Thrown e) => Throws e
  | FromLeft x r _ => Yields x (Middle r)
  | Middle r => Does (Make (Start r)) (fun _ => Right)
  | Right => Does (Next 1) FromRight
  | FromRight (Value (Some v)) => Yields v Right
  | FromRight (Thrown e) => Throws e
  | FromRight _ => Returns
  end.

(** The values in order, as far as the first bad subtree, and its exception. *)
Fixpoint in_order {V E} (t : tree V E) : list V * option E :=
  match t with
  | Leaf => ([], None)
  | Bad e => ([], Some e)
  | Node l x r =>
      match in_order l with
      | (vs, Some e) => (vs, Some e)
      | (vs, None) => (vs ++ x :: fst (in_order r), snd (in_order r))
      end
  end.
(** What next() answers, the first time, the second time, ...: the values, then the exception if
    there is one, and nothing ever after. *)
Definition answers {V E} (l : list V * option E) (n : nat) : list (gout V E) :=
  firstn n (map (fun v => Value (Some v)) (fst l) ++
            match snd l with Some e => [Thrown e] | None => [] end ++ repeat (Value None) n).
