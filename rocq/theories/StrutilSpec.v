(** Specification of the string helpers: texts are lists. *)
From Coq Require Import List Arith NArith Bool.
From Verif Require Import Base VecCommon SpanModel StrutilModel.
Import ListNotations.
Open Scope N_scope.

Section Spec.
Context {C : Type}.
(** The characters of [t] lie in memory from address [a] on. *)
Definition text_at (mem : N -> option C) (a : N) (t : list C) : Prop :=
  (forall i c, nth_error t i = Some c -> mem (a + N.of_nat i) = Some c) /\
  a + N.of_nat (length t) < two64.
(** The view [v] is of the text [t]. *)
Definition views (mem : N -> option C) (v : sv) (t : list C) : Prop :=
  text_at mem (sv_ptr v) t /\ sv_size v = N.of_nat (length t).

Definition prefix_of (p t : list C) : Prop := exists r, t = p ++ r.
Definition suffix_of (s t : list C) : Prop := exists r, t = r ++ s.

(** [k] times the text [p]. *)
Fixpoint times (k : nat) (p : list C) : list C :=
  match k with O => [] | S k' => p ++ times k' p end.
End Spec.
