(** What generators are when bodies use them too: each generator object has the rest of its body, and while this runs
    the generator is busy. What may be done to a busy one is only to ask whether it has a handle. *)
From Coq Require Import List Arith Bool.
From Verif Require Import Base GenReentModel.
Import ListNotations.

Section Spec.
Context {St V E : Type}.
Variable run : St -> act St V E.

Inductive agen : Type := Empty | Rest (st : St) | Busy | Done.
Definition agens : Type := nat -> option agen.
(** How a body stopped. *)
Inductive stop : Type := Yield (v : V) (st : St) | Return | Throw_ (e : E).

Definition free (x : agen) : bool := match x with Busy => false | _ => true end.
Definition answer (e : stop) : out V E :=
  match e with Yield v _ => Value (Some v) | Return => Value None | Throw_ e => Thrown e end.
Definition rest (e : stop) : agen := match e with Yield _ st => Rest st | _ => Done end.

(** None: a call which may not be made, or the steps ran out. *)
Definition acall_with (runs : St -> agens -> option (stop * agens)) (o : op St) (a : agens) : option (out V E * agens) :=
  match o with
  | Create g st => match a g with None => Some (Nothing, setm a g (Some (Rest st))) | Some _ => None end
  | MoveCtor g from =>
      match a g, a from with
      | None, Some x => if free x then Some (Nothing, setm (setm a from (Some Empty)) g (Some x)) else None
      | _, _ => None
      end
  | MoveAssign g from =>
      match a g, a from with
      | Some y, Some x =>
          if free y && free x && negb (g =? from)
          then Some (Nothing, setm (setm a from (Some Empty)) g (Some x)) else None
      | _, _ => None
      end
  | Destroy g =>
      match a g with Some y => if free y then Some (Nothing, setm a g None) else None | None => None end
  | Clear g =>
      match a g with Some y => if free y then Some (Nothing, setm a g (Some Empty)) else None | None => None end
  | HasHandle g =>
      match a g with Some Empty => Some (Bool false, a) | Some _ => Some (Bool true, a) | None => None end
  | IsDone g =>
      match a g with Some (Rest _) => Some (Bool false, a) | Some Done => Some (Bool true, a) | _ => None end
  | Next g =>
      match a g with
      | Some Done => Some (Value None, a)
      | Some (Rest st) =>
          match runs st (setm a g (Some Busy)) with
          | Some (e, a') => Some (answer e, setm a' g (Some (rest e)))
          | None => None
          end
      | _ => None
      end
  end.
Fixpoint ago (fuel : nat) (st : St) (a : agens) : option (stop * agens) :=
  match fuel with
  | 0 => None
  | S n =>
      match run st with
      | Yields v st' => Some (Yield v st', a)
      | Returns => Some (Return, a)
      | Throws e => Some (Throw_ e, a)
      | Calls o k =>
          match acall_with (ago n) o a with
          | Some (x, a') => ago n (k x) a'
          | None => None
          end
      end
  end.
Definition acall (fuel : nat) (o : op St) (a : agens) : option (out V E * agens) := acall_with (ago fuel) o a.
Fixpoint acalls (fuel : nat) (os : list (op St)) (a : agens) : option (list (out V E) * agens) :=
  match os with
  | [] => Some ([], a)
  | o :: os' =>
      match acall fuel o a with
      | Some (x, a') => match acalls fuel os' a' with Some (xs, a'') => Some (x :: xs, a'') | None => None end
      | None => None
      end
  end.
(** Calls which are undefined: on objects which are not there (or, made, there already), without the handle they need,
    and on a generator whose body runs, unless it is asked for its handle or moved from; and next() when the body
    comes to such a call. *)
Definition bad_with (bad : St -> agens -> bool) (o : op St) (a : agens) : bool :=
  match o with
  | Create g _ => match a g with Some _ => true | None => false end
  | MoveCtor g from => match a g, a from with None, Some _ => false | _, _ => true end
  | MoveAssign g from => match a g, a from with Some y, Some _ => negb (free y) | _, _ => true end
  | Destroy g | Clear g => match a g with Some y => negb (free y) | None => true end
  | HasHandle g => match a g with Some _ => false | None => true end
  | IsDone g => match a g with Some (Rest _) | Some Done => false | _ => true end
  | Next g =>
      match a g with
      | Some Done => false
      | Some (Rest st) => bad st (setm a g (Some Busy))
      | _ => true
      end
  end.
Fixpoint bad_body (fuel : nat) (st : St) (a : agens) : bool :=
  match fuel with
  | 0 => false
  | S n =>
      match run st with
      | Calls o k =>
          bad_with (bad_body n) o a ||
          match acall_with (ago n) o a with Some (x, a') => bad_body n (k x) a' | None => false end
      | _ => false
      end
  end.
Definition bad (fuel : nat) (o : op St) (a : agens) : bool := bad_with (bad_body fuel) o a.

(** All which is left in a generator, by asking for the next value until there is none. *)
Fixpoint draw (fuel n : nat) (g : nat) (a : agens) : option (list V * option E * agens) :=
  match n with
  | 0 => None
  | S n' =>
      match acall fuel (Next g) a with
      | Some (Value (Some v), a') =>
          match draw fuel n' g a' with Some (vs, e, a'') => Some (v :: vs, e, a'') | None => None end
      | Some (Thrown e, a') => Some ([], Some e, a')
      | Some (_, a') => Some ([], None, a')
      | None => None
      end
  end.
Definition ainit : agens := fun _ => None.

(** The store has these generators, every frame belongs to exactly one of them. *)
Definition fits (x : agen) (f : frame (St := St) (V := V) (E := E)) : Prop :=
  match x with
  | Empty => False
  | Rest st => state f = Suspended /\ body f = st /\ m_exception f = None
  | Busy => state f = Running /\ m_val f = None /\ m_exception f = None
  | Done => state f = Finished
  end.
Definition has_gens (s : store (St := St) (V := V) (E := E)) (a : agens) : Prop :=
  (forall g, match a g with
             | None => gens s g = None
             | Some Empty => gens s g = Some None
             | Some x => exists h f, gens s g = Some (Some h) /\ frames s h = Some f /\ fits x f
             end) /\
  (forall g g' h, gens s g = Some (Some h) -> gens s g' = Some (Some h) -> g = g') /\
  (forall h, fresh s <= h -> frames s h = None) /\
  (forall h f, frames s h = Some f -> exists g, gens s g = Some (Some h)).
End Spec.
Arguments agen : clear implicits.
Arguments agens : clear implicits.
Arguments stop : clear implicits.
