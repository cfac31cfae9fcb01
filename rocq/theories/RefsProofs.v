(** General lemmas about what calls leave alone. *)
From Coq Require Import List Arith Bool Lia.
From Verif Require Import Base RefsSpec.
Import ListNotations.

Lemma upd_comm {A} (l : list A) : forall i j x y, i <> j -> upd (upd l i x) j y = upd (upd l j y) i x.
Proof. induction l as [|z l IH]; intros [|i] [|j] x y H; cbn; auto; [lia|]. f_equal. apply IH. congruence. Qed.
Lemma upd_twice {A} (l : list A) : forall i x y, upd (upd l i x) i y = upd l i y.
Proof. induction l as [|z l IH]; intros [|i] x y; cbn; auto. now rewrite IH. Qed.

Section General.
Context {S X : Type}.
Variable put : X -> S -> S.

Lemma unt_ret {A} (a : A) s : untouched put (ret a) s.
Proof. intros x. reflexivity. Qed.
Lemma unt_throw {A} e s : untouched put (throw (A := A) e) s.
Proof. intros x. reflexivity. Qed.
Lemma unt_ub {A} s : untouched put (ub (A := A)) s.
Proof. intros x. reflexivity. Qed.
Lemma unt_diverge {A} s : untouched put (diverge (A := A)) s.
Proof. intros x. reflexivity. Qed.
Lemma unt_throw_if c e s : untouched put (throw_if c e) s.
Proof. intros x. unfold throw_if. destruct c; reflexivity. Qed.
Lemma unt_bind {A B} (m : M S A) (f : A -> M S B) s :
  untouched put m s -> (forall a s', m s = Ok a s' -> untouched put (f a) s') -> untouched put (bind m f) s.
Proof. intros H K x. unfold bind. rewrite H. destruct (m s) as [a s'|e s'| |] eqn:Q; cbn; auto. apply K; auto. Qed.
Lemma unt_get {B} (f : S -> M S B) s :
  (forall x, f (put x s) = f s) -> untouched put (f s) s -> untouched put (bind get f) s.
Proof. intros H K x. unfold bind, get. rewrite H. apply K. Qed.
End General.
