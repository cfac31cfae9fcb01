(** Specification of throw_ex, without streams: what the operands show, one after the other,
    each in the format left by the ones before; and what programs do with an exception. *)
From Coq Require Import List Bool.
From Verif Require Import Base ThrowModel.
Import ListNotations.

Section Spec.
Context {C F : Type}.
Variable fmt0 : F.
Variable used : F -> F.
Variable args_first : bool.
Variable ctor_throws : nat -> list C -> option nat.

(** A list of steps, begun in a format, shows a text and leaves another format. *)
Inductive shows : F -> list (step C F) -> list C -> F -> Prop :=
| sh_nil f : shows f [] [] f
| sh_text f r xs t f' : shows (used f) xs t f' -> shows f (Text r :: xs) (r f ++ t) f'
| sh_manip f g xs t f' : shows (g f) xs t f' -> shows f (Manip g :: xs) t f'.
(** The texts of the operands. *)
Inductive texts : F -> list (operand C F) -> list (list C) -> Prop :=
| tx_nil f : texts f [] []
| tx_cons f x xs t ts f' : arg_throws x = None -> shows f (inserts x) t f' -> texts f' xs ts ->
    texts f (x :: xs) (t :: ts).

(** An operand which neither fails nor throws. *)
Definition quiet (x : operand C F) : Prop :=
  arg_throws x = None /\
  Forall (fun s => match s with Fails | Throws _ => False | _ => True end) (inserts x).

(** The exception made of a message, or what its constructor throws. *)
Definition made (E : nat) (m : list C) (x : exc C) : Prop :=
  (ctor_throws E m = None /\ x = Ex E m) \/ (exists n, ctor_throws E m = Some n /\ x = Other n).

(** C57: a statement throws the exception with the concatenated texts; while another exception
    is propagating it terminates. *)
Inductive ev : bool -> prog C F -> list (exc C) -> out C -> Prop :=
| ev_skip u : ev u Skip [] Normal
| ev_throw E xs ts x : texts fmt0 xs ts -> made E (concat ts) x -> ev false (ThrowEx E xs) [] (Threw x)
| ev_twice E xs ts : texts fmt0 xs ts -> ev true (ThrowEx E xs) [] Terminated
| ev_other u n : ev u (ThrowOther n) [] (Threw (Other n))
| ev_seq u p q c c' o : ev u p c Normal -> ev u q c' o -> ev u (Seq p q) (c ++ c') o
| ev_seq_out u p q c o : ev u p c o -> o <> Normal -> ev u (Seq p q) c o
| ev_try u p h c x c' o : ev u p c (Threw x) -> ev u h c' o -> ev u (Try p h) (c ++ x :: c') o
| ev_try_out u p h c o : ev u p c o -> (forall x, o <> Threw x) -> ev u (Try p h) c o
| ev_scope u p d c c' : ev u p c Normal -> ev u d c' Normal -> ev u (Scope p d) (c ++ c') Normal
| ev_scope_throw u p d c x c' : ev u p c (Threw x) -> ev true d c' Normal ->
    ev u (Scope p d) (c ++ c') (Threw x)
| ev_scope_dtor u p d c c' o : ev u p c Normal -> ev u d c' o -> o <> Normal ->
    ev u (Scope p d) (c ++ c') Terminated
| ev_scope_both u p d c x c' o : ev u p c (Threw x) -> ev true d c' o -> o <> Normal ->
    ev u (Scope p d) (c ++ c') Terminated
| ev_scope_end u p d c : ev u p c Terminated -> ev u (Scope p d) c Terminated.

(** C67: the same with "throw E(text)" in place of the statement; it does not matter whether
    another exception is propagating. *)
Inductive plain : prog C F -> list (exc C) -> out C -> Prop :=
| pl_skip : plain Skip [] Normal
| pl_throw E xs ts x : texts fmt0 xs ts -> made E (concat ts) x -> plain (ThrowEx E xs) [] (Threw x)
| pl_other n : plain (ThrowOther n) [] (Threw (Other n))
| pl_seq p q c c' o : plain p c Normal -> plain q c' o -> plain (Seq p q) (c ++ c') o
| pl_seq_out p q c o : plain p c o -> o <> Normal -> plain (Seq p q) c o
| pl_try p h c x c' o : plain p c (Threw x) -> plain h c' o -> plain (Try p h) (c ++ x :: c') o
| pl_try_out p h c o : plain p c o -> (forall x, o <> Threw x) -> plain (Try p h) c o
| pl_scope p d c c' o : plain p c o -> o <> Terminated -> plain d c' Normal ->
    plain (Scope p d) (c ++ c') o
| pl_scope_dtor p d c c' o o' : plain p c o -> o <> Terminated -> plain d c' o' -> o' <> Normal ->
    plain (Scope p d) (c ++ c') Terminated
| pl_scope_end p d c : plain p c Terminated -> plain (Scope p d) c Terminated.

(** All operands in a program are quiet. *)
Fixpoint calm (p : prog C F) : Prop :=
  match p with
  | ThrowEx _ xs => Forall quiet xs
  | Seq p q | Try p q | Scope p q => calm p /\ calm q
  | _ => True
  end.
(** Destructors do not use throw_ex. *)
Fixpoint without (p : prog C F) : Prop :=
  match p with
  | ThrowEx _ _ => False
  | Seq p q | Try p q | Scope p q => without p /\ without q
  | _ => True
  end.
Fixpoint dtors_without (p : prog C F) : Prop :=
  match p with
  | Seq p q | Try p q => dtors_without p /\ dtors_without q
  | Scope p d => dtors_without p /\ without d
  | _ => True
  end.
End Spec.
