(** Specification vocabulary for C82: the documented reactions to an error. *)
From Coq Require Import List Arith NArith Bool.
From Verif Require Import Base SeqSpec VecCommon SettingsModel.
Import ListNotations.

(** What the documentation of the settings (static_vector.hpp 77-84, small_vector.hpp
    126-131) promises on an error: an exception, a failed assertion, or nothing. An
    assertion does nothing in a program compiled with NDEBUG. *)
Inductive reaction : Type := Reports | Stops | Ignores.
Definition reaction_of (cfg : config) : reaction :=
  match on_error cfg, asserts cfg with
  | HNone, _ => Ignores
  | HThrow, _ => Reports
  | HAssert, true => Stops
  | HAssert, false => Ignores
  | HAssertAndThrow, true => Stops
  | HAssertAndThrow, false => Reports
  end.

(** Accesses are checked by an assertion, unless that is switched off. *)
Definition access_stops (cfg : config) : bool := asserts cfg && bounds cfg.

(** The history has no errors: no call of it is answered by out_of_range. *)
Definition no_errors (answers : list vret) : Prop := ~ In (RThrow OutOfRange) answers.
