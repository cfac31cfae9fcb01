(** Specification of expected: a value or an error. *)
From Coq Require Import List Arith Bool.
From Verif Require Import Base ExpectedModel.
Import ListNotations.

(** What a specialisation keeps as an object of its own, and what it offers. *)
Definition is_ref (k : kind) : bool := match k with RE | RV => true | _ => false end.
Definition stores_value (k : kind) : bool := match k with TE | TV => true | _ => false end.
Definition stores_error (k : kind) : bool := match k with TE | RE | VE => true | _ => false end.
Definition has_values (k : kind) : bool := is_ref k || stores_value k.
Definition optional_like (k : kind) : bool := negb (stores_error k).

Section Spec.
Context {V E : Type}.
Variable U : moves V E.
Variable none : E.       (* stands for the error of the specialisations with E = void *)
Variable k : kind.

Inductive alt : Type :=
| Val (v : V)
| Err (e : E).
Definition is_val (a : alt) : bool := match a with Val _ => true | Err _ => false end.

Definition table : Type := nat -> option alt.
Definition no_alts : table := fun _ => None.

(** What is left of the source of a move, and of an object moved to itself. References
    and the empty alternatives stay what they are. *)
Definition moved (a : alt) : alt :=
  match a with
  | Val v => Val (if stores_value k then mvV U v else v)
  | Err e => Err (if stores_error k then mvE U e else e)
  end.
Definition self_moved (a : alt) : alt :=
  match a with
  | Val v => Val (if stores_value k then selfV U v else v)
  | Err e => Err (if stores_error k then selfE U e else e)
  end.

(** What one call answers and leaves. *)
Definition step (t : table) (o : op V E) : table * ans V E :=
  let at_ i (f : alt -> table * ans V E) :=
    match t i with Some a => f a | None => (t, ANone) end in
  match o with
  | New i v => (setm t i (Some (Val v)), ANone)
  | NewErr i e => (setm t i (Some (Err e)), ANone)
  | NewMove i j => at_ j (fun a => (setm (setm t j (Some (moved a))) i (Some a), ANone))
  | NewCopy i j th =>
      at_ j (fun a =>
        if th && stores_value k && is_val a then (t, AThrew)
        else (setm t i (Some a), ANone))
  | Assign i j =>
      at_ j (fun a =>
        if i =? j then (setm t i (Some (self_moved a)), ANone)
        else (setm (setm t j (Some (moved a))) i (Some a), ANone))
  | CopyAssign i j th =>
      at_ i (fun b => at_ j (fun a =>
        match b, a with
        | Val u, Val v =>
            if th && stores_value k then (setm t i (Some (Val (part U u v))), AThrew)
            else (setm t i (Some a), ANone)
        | _, _ => (setm t i (Some a), ANone)
        end))
  | Destroy i => (setm t i None, ANone)
  | Has i => at_ i (fun a => (t, ABool (is_val a)))
  | Value i => at_ i (fun a => (t, match a with Val v => AVal v | Err _ => ANone end))
  | ValueRv i =>
      at_ i (fun a =>
        (setm t i (Some (moved a)), match a with Val v => AVal v | Err _ => ANone end))
  | ValueOr i d => at_ i (fun a => (t, match a with Val v => AVal v | Err _ => AVal d end))
  | ValueOrRv i d =>
      at_ i (fun a =>
        match a with Val v => (setm t i (Some (moved a)), AVal v) | Err _ => (t, AVal d) end)
  | Error i => at_ i (fun a => (t, match a with Err e => AErr e | Val _ => ANone end))
  | ErrorRv i =>
      at_ i (fun a =>
        (setm t i (Some (moved a)), match a with Err e => AErr e | Val _ => ANone end))
  | Clear i => (setm t i (Some (Err none)), ANone)
  | Emplace i a th =>
      match a with
      | Fresh v =>
          if th && stores_value k then (setm t i (Some (Err none)), AThrew)
          else (setm t i (Some (Val v)), ANone)
      | OwnValue => (t, ANone)
      end
  end.

Definition exists_ (t : table) (i : nat) : Prop := t i <> None.
Definition with_value (t : table) (i : nat) : Prop := exists v, t i = Some (Val v).
Definition with_error (t : table) (i : nat) : Prop := exists e, t i = Some (Err e).

(** The call exists in the specialisation, its objects exist (or do not, for a
    constructor), and accessors are used for the alternative which is there.

    Left out, because they go wrong: assignment of a value to a value for
    expected<void, E>; a copy of a value which throws when assigned to an expected
    without one (C36); emplace with the own value as the argument (C62). *)
Definition legal (t : table) (o : op V E) : Prop :=
  match o with
  | New i _ => t i = None
  | NewErr i _ => t i = None
  | NewMove i j => t i = None /\ exists_ t j
  | NewCopy i j _ => optional_like k = true /\ t i = None /\ exists_ t j
  | Assign i j =>
      exists_ t i /\ exists_ t j /\ (k = VE -> ~ (with_value t i /\ with_value t j))
  | CopyAssign i j th =>
      optional_like k = true /\ exists_ t i /\ exists_ t j /\
      (th = true -> k = TV -> ~ (with_error t i /\ with_value t j))
  | Destroy i | Has i => exists_ t i
  | Value i | ValueRv i => has_values k = true /\ with_value t i
  | ValueOr i _ | ValueOrRv i _ => has_values k = true /\ exists_ t i
  | Error i | ErrorRv i => stores_error k = true /\ with_error t i
  | Clear i => optional_like k = true /\ exists_ t i
  | Emplace i a _ =>
      optional_like k = true /\ exists_ t i /\ (a = OwnValue -> k <> TV /\ with_value t i)
  end.
Fixpoint legal_along (t : table) (os : list (op V E)) : Prop :=
  match os with
  | [] => True
  | o :: os' => legal t o /\ legal_along (fst (step t o)) os'
  end.
Fixpoint spec_run (t : table) (os : list (op V E)) : table * list (ans V E) :=
  match os with
  | [] => (t, [])
  | o :: os' =>
      let '(t', a) := step t o in
      let '(t'', rs) := spec_run t' os' in (t'', a :: rs)
  end.

(** The object holds exactly this alternative: it is the only member alive, and it is
    what the object reports. *)
Definition holds_alt (x : ex V E) (a : alt) : Prop :=
  mem x = match a with
          | Val v => if stores_value k then LiveV v else Dead
          | Err e => if stores_error k then LiveE e else Dead
          end /\
  (if is_ref k then ref x = match a with Val v => Some v | Err _ => None end
   else flag x = is_val a).
Definition holds_all (s : store V E) (t : table) : Prop :=
  forall i, match s i, t i with
            | Some x, Some a => holds_alt x a
            | None, None => True
            | _, _ => False
            end.
End Spec.
Arguments alt : clear implicits.
Arguments table : clear implicits.
