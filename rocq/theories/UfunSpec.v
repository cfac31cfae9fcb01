(** Specification of ufunction: a unique owner of a function, as std::move_only_function. *)
From Coq Require Import List Arith Bool.
From Verif Require Import Base UfunModel.
Import ListNotations.

Section Spec.
Context {St A R : Type}.
Variable apply : St -> A -> R * St.
Notation op := (op St A).
Notation out := (out R).

(** Each ufunction is empty or owns a function: number and what it is now. *)
Record ast : Type := mkA {
  owns : nat -> option (option (nat * callable St));
  count : nat                                  (* functions so far *)
}.
Definition ainit : ast := mkA (fun _ => None) 0.
Definition with_uf (a : ast) u v : ast := mkA (setm (owns a) u v) (count a).
Definition with_fn (a : ast) u (f : callable St) : ast :=
  mkA (setm (owns a) u (Some (Some (count a, f)))) (S (count a)).

(** C68. *)
Inductive sstep : ast -> op -> out -> ast -> Prop :=
| s_make a u : owns a u = None -> sstep a (Make u) Nothing (with_uf a u (Some None))
| s_object a u f : owns a u = None -> sstep a (FromObject u f false false) Nothing (with_fn a u f)
| s_pointer a u st : owns a u = None -> sstep a (FromPointer u (Some st)) Nothing (with_fn a u (Fun st))
| s_null_pointer a u : owns a u = None ->
    sstep a (FromPointer u None) Nothing (with_uf a u (Some None))
| s_other a u w v : owns a u = None -> owns a w = Some v ->
    sstep a (FromOther u w) Nothing (with_uf (with_uf a w (Some None)) u (Some v))
| s_set_null a u v : owns a u = Some v -> sstep a (SetNull u) Nothing (with_uf a u (Some None))
| s_set_object a u v f : owns a u = Some v ->
    sstep a (SetObject u f false false) Nothing (with_fn a u f)
| s_set_pointer a u v st : owns a u = Some v ->
    sstep a (SetPointer u (Some st)) Nothing (with_fn a u (Fun st))
| s_set_null_pointer a u v : owns a u = Some v ->
    sstep a (SetPointer u None) Nothing (with_uf a u (Some None))
| s_set_other a u w v v' : owns a u = Some v -> owns a w = Some v' -> u <> w ->
    sstep a (SetOther u w) Nothing (with_uf (with_uf a w (Some None)) u (Some v'))
| s_set_self a u v : owns a u = Some v -> sstep a (SetOther u u) Nothing a
| s_drop a u v : owns a u = Some v -> sstep a (Drop u) Nothing (with_uf a u None)
| s_has a u v b : owns a u = Some v -> (b = true <-> v <> None) -> sstep a (HasFn u) (Bool b) a
| s_call a u r st x y st' : owns a u = Some (Some (r, Fun st)) -> apply st x = (y, st') ->
    sstep a (Call u x) (Result y) (with_uf a u (Some (Some (r, Fun st'))))
| s_call_empty a u x : owns a u = Some None -> sstep a (Call u x) BadCall a
| s_call_emptyfn a u r x : owns a u = Some (Some (r, EmptyFn)) -> sstep a (Call u x) BadCall a.

Inductive ssteps : ast -> list op -> list out -> ast -> Prop :=
| ss_nil a : ssteps a [] [] a
| ss_cons a o x a' os xs a'' : sstep a o x a' -> ssteps a' os xs a'' ->
    ssteps a (o :: os) (x :: xs) a''.

(** Some ufunction owns function r. *)
Definition owned (a : ast) (r : nat) : Prop := exists u f, owns a u = Some (Some (r, f)).

(** The calls a program may make; none throws. *)
Definition legal (a : ast) (o : op) : Prop :=
  match o with
  | Make u | FromPointer u _ => owns a u = None
  | FromObject u _ al th => owns a u = None /\ al = false /\ th = false
  | FromOther u w => owns a u = None /\ owns a w <> None
  | SetObject u _ al th => owns a u <> None /\ al = false /\ th = false
  | SetOther u w => owns a u <> None /\ owns a w <> None
  | SetNull u | SetPointer u _ | Drop u | HasFn u => owns a u <> None
  | Call u _ => owns a u <> None /\ forall r, owns a u <> Some (Some (r, NullPtr))
  end.

(** C69, as std::move_only_function: made of a null pointer or an empty function it is empty. *)
Definition mof (a : ast) u (f : callable St) : ast :=
  match f with Fun _ => with_fn a u f | _ => with_uf a u (Some None) end.
Inductive mstep : ast -> op -> out -> ast -> Prop :=
| m_object a u f : owns a u = None -> mstep a (FromObject u f false false) Nothing (mof a u f)
| m_set_object a u v f : owns a u = Some v -> mstep a (SetObject u f false false) Nothing (mof a u f)
| m_same a o x a' : sstep a o x a' ->
    (forall u f al th, o <> FromObject u f al th /\ o <> SetObject u f al th) -> mstep a o x a'.
Inductive msteps : ast -> list op -> list out -> ast -> Prop :=
| ms_nil a : msteps a [] [] a
| ms_cons a o x a' os xs a'' : mstep a o x a' -> msteps a' os xs a'' ->
    msteps a (o :: os) (x :: xs) a''.
(** No null pointers (but those to F) and no empty functions are wrapped. *)
Definition solid (o : op) : Prop :=
  match o with
  | FromObject _ f _ _ | SetObject _ f _ _ => exists st, f = Fun st
  | _ => True
  end.
End Spec.
Arguments ast : clear implicits.
