(** Specification of generators: a generator is empty or holds the rest of a body. *)
From Coq Require Import List Arith Bool.
From Verif Require Import Base GeneratorModel.
Import ListNotations.

Section Spec.
Context {St V E : Type}.
Variable run : St -> step St V E.

Inductive rest : Type := Running (st : St) | Finished.
(** The generators by name: [None] no such object, [Some None] an empty one. *)
Definition world : Type := nat -> option (option rest).

(** next() *)
Definition advance (b : rest) : out V E * rest :=
  match b with
  | Finished => (Value None, Finished)
  | Running st =>
      match run st with
      | Yielded v st' => (Value (Some v), Running st')
      | Returned => (Value None, Finished)
      | Threw e => (Thrown e, Finished)
      end
  end.
(** Visiting at most [n] + 1 values. *)
Fixpoint visit (n : nat) (st : St) : list V * option E * rest :=
  match run st with
  | Yielded v st' =>
      match n with
      | O => ([v], None, Running st')
      | S n' => let '(l, e, r) := visit n' st' in (v :: l, e, r)
      end
  | Returned => ([], None, Finished)
  | Threw e => ([], Some e, Finished)
  end.

(** What a call must do; [None] where it may not be made: on objects which do not exist, next, done and
    range-for on an empty generator, self move assignment, and range-for on a finished one. *)
Definition spec_call (w : world) (o : op St) : option (world * out V E) :=
  match o with
  | Create g st =>
      match w g with None => Some (setm w g (Some (Some (Running st))), Nothing) | _ => None end
  | MoveCtor g from =>
      match w g, w from with
      | None, Some b => Some (setm (setm w from (Some None)) g (Some b), Nothing)
      | _, _ => None
      end
  | MoveAssign g from =>
      match w g, w from with
      | Some _, Some b => if g =? from then None else Some (setm (setm w from (Some None)) g (Some b), Nothing)
      | _, _ => None
      end
  | Destroy g => match w g with Some _ => Some (setm w g None, Nothing) | None => None end
  | Clear g => match w g with Some _ => Some (setm w g (Some None), Nothing) | None => None end
  | HasHandle g =>
      match w g with Some b => Some (w, Bool (match b with Some _ => true | None => false end)) | None => None end
  | IsDone g =>
      match w g with Some (Some b) => Some (w, Bool (match b with Finished => true | _ => false end)) | _ => None end
  | Next g =>
      match w g with
      | Some (Some b) => let '(x, b') := advance b in Some (setm w g (Some (Some b')), x)
      | _ => None
      end
  | RangeFor g n =>
      match w g with
      | Some (Some (Running st)) =>
          let '(l, e, b') := visit n st in Some (setm w g (Some (Some b')), Visited l e)
      | _ => None
      end
  end.
Fixpoint spec_calls (w : world) (os : list (op St)) : option (world * list (out V E)) :=
  match os with
  | [] => Some (w, [])
  | o :: os' =>
      match spec_call w o with
      | None => None
      | Some (w', x) =>
          match spec_calls w' os' with
          | None => None
          | Some (w'', xs) => Some (w'', x :: xs)
          end
      end
  end.

(** From [st] the body yields the values [l] and is then in the state [st']. *)
Inductive yields : St -> list V -> St -> Prop :=
| yields_none st : yields st [] st
| yields_some st v st' l st'' : run st = Yielded v st' -> yields st' l st'' -> yields st (v :: l) st''.

Definition gone (w : world) : Prop := forall g, w g = None.
End Spec.
Arguments rest : clear implicits.
Arguments world : clear implicits.
