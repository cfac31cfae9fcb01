(** Model of include/itlib/throw_ex.hpp, and of the programs which use it.

    A stream is its text, its format (flags, width, fill, precision) and whether it has failed.
    What can be inserted is described by what it does to a stream. A program is a tree of
    statements, one path through a C++ function: conditions are taken and loops unrolled.
    [u] is whether std::uncaught_exception(s)() is not zero.

    Simplified: streams have no exceptions() mask and no locale, and nothing seeks in them;
    memory for the text does not run out (a stream turns that into badbit, as [Fails]). *)
From Coq Require Import List Bool.
From Verif Require Import Base.
Import ListNotations.

Section Throw.
Context {C F : Type}.                          (* characters, formats *)
Variable fmt0 : F.                             (* the format of a new stream *)
Variable used : F -> F.                        (* the format after text: width(0) *)
(** Order in which the compiler evaluates the arguments of << : before C++17 it may evaluate all
    of them first, before the temporary throw_ex exists; since C++17 from left to right. *)
Variable args_first : bool.
(** What the constructor of an exception of type E throws instead, given the text. *)
Variable ctor_throws : nat -> list C -> option nat.

(** What << of a value does, step by step: user defined inserters do many such steps. *)
Inductive step : Type :=
| Text (render : F -> list C)                  (* inserters of the library: format to text *)
| Manip (g : F -> F)                           (* manipulators: std::hex, std::setw *)
| Fails                                        (* setstate: null const char*, a failing inserter *)
| Throws (n : nat).                            (* an inserter which throws *)
(** An operand of <<: its evaluation may throw, its insertion does these steps. *)
Record operand : Type := mkOp { arg_throws : option nat; inserts : list step }.

Record stream : Type := mkStream { text : list C; fmt : F; failed : bool }.
Definition fresh : stream := mkStream [] fmt0 false.

(** std::ostream <<. If the stream has failed no text comes any more. *)
Definition insert1 (o : stream) (x : step) : stream + nat :=
  match x with
  | Text r => if failed o then inl o
              else inl (mkStream (text o ++ r (fmt o)) (used (fmt o)) false)
  | Manip g => inl (mkStream (text o) (g (fmt o)) (failed o))
  | Fails => inl (mkStream (text o) (fmt o) true)
  | Throws n => inr n
  end.
Fixpoint insert (o : stream) (xs : list step) : stream + nat :=
  match xs with
  | [] => inl o
  | x :: xs => match insert1 o x with inl o => insert o xs | inr n => inr n end
  end.

(** Exceptions: those thrown by throw_ex<E>, with their text, and others. *)
Inductive exc : Type :=
| Ex (E : nat) (msg : list C)
| Other (n : nat).
(** How a statement ends. *)
Inductive out : Type :=
| Normal
| Threw (x : exc)
| Terminated.

(** throw_ex.hpp 58-67, the destructor *)
Definition destroy (u : bool) (E : nat) (o : stream) : out :=
  if u then Terminated
  else match ctor_throws E (text o) with
       | Some n => Threw (Other n)
       | None => Threw (Ex E (text o))
       end.
(** 69-79, operator<<, for the operands from left to right. If one throws the stack is unwound
    and the temporary destroyed. *)
Fixpoint shift (u : bool) (E : nat) (o : stream) (xs : list operand) : out :=
  match xs with
  | [] => destroy u E o                        (* end of the full expression *)
  | x :: xs =>
      match (if args_first then None else arg_throws x) with
      | Some n => destroy true E o
      | None => match insert o (inserts x) with
                | inl o => shift u E o xs
                | inr n => destroy true E o
                end
      end
  end.
Fixpoint first_arg (xs : list operand) : option nat :=
  match xs with
  | [] => None
  | x :: xs => match arg_throws x with Some n => Some n | None => first_arg xs end
  end.
(** 57: throw_ex<E>{} << x1 << x2 ...; *)
Definition throw_ex (u : bool) (E : nat) (xs : list operand) : out :=
  match (if args_first then first_arg xs else None) with
  | Some n => Threw (Other n)
  | None => shift u E fresh xs
  end.

Inductive prog : Type :=
| Skip
| ThrowEx (E : nat) (xs : list operand)        (* throw_ex<E>{} << ...; *)
| ThrowOther (n : nat)                         (* throw ...; *)
| Seq (p q : prog)
| Try (p h : prog)                             (* try { p } catch (...) { h } *)
| Scope (p d : prog).                          (* { object with destructor d; p } *)

(** Returns the exceptions which handlers caught, in order, and how the program ends. *)
Fixpoint run (u : bool) (p : prog) : list exc * out :=
  match p with
  | Skip => ([], Normal)
  | ThrowEx E xs => ([], throw_ex u E xs)
  | ThrowOther n => ([], Threw (Other n))
  | Seq p q =>
      match run u p with
      | (c, Normal) => let (c', o) := run u q in (c ++ c', o)
      | r => r
      end
  | Try p h =>
      match run u p with
      | (c, Threw x) => let (c', o) := run u h in (c ++ x :: c', o)
      | r => r
      end
  | Scope p d =>
      match run u p with
      | (c, Terminated) => (c, Terminated)
      | (c, o) =>
          let (c', o') := run (match o with Normal => u | _ => true end) d in
          (c ++ c', match o' with
                    | Normal => o
                    | _ => Terminated          (* destructors are noexcept *)
                    end)
      end
  end.
End Throw.
Arguments operand : clear implicits.
Arguments step : clear implicits.
Arguments prog : clear implicits.
Arguments exc : clear implicits.
Arguments out : clear implicits.
Arguments stream : clear implicits.
