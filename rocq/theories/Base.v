(** Outcomes shared by the models, and list facts used by the proofs.

    Nothing in this file models code of /repo: it is the vocabulary in which the
    models speak about "returns", "throws", "undefined behaviour" and "never ends". *)
From Coq Require Import List Arith Lia Bool.
Import ListNotations.

(** What a C++ exception carries, as far as the properties speak of it. *)
Inductive exn : Type :=
| OutOfRange      (* std::out_of_range *)
| ElemThrow       (* an exception thrown by a user supplied constructor / function *)
| BadAlloc        (* std::bad_alloc *)
| BadCast         (* std::bad_cast *)
| BadWeakPtr      (* std::bad_weak_ptr *)
| SystemError     (* std::system_error, thrown by a mutex *)
| LengthError.    (* std::length_error *)

(** The outcome of a call which works on a state [S] and returns an [A].
    [Throw] keeps the state, so that the state after an exception can be examined.
    [UB] is undefined behaviour (use of a dead object or of freed memory, construction
    over a live object, access out of bounds, double free, use of an inactive union
    member, ...).  [Diverge] is a loop which does not end. *)
Inductive res (S A : Type) : Type :=
| Ok (a : A) (s : S)
| Throw (e : exn) (s : S)
| UB
| Diverge.
Arguments Ok {S A} a s.
Arguments Throw {S A} e s.
Arguments UB {S A}.
Arguments Diverge {S A}.

Definition M (S A : Type) := S -> res S A.

Definition ret {S A} (a : A) : M S A := fun s => Ok a s.
Definition bind {S A B} (m : M S A) (f : A -> M S B) : M S B :=
  fun s => match m s with
           | Ok a s' => f a s'
           | Throw e s' => Throw e s'
           | UB => UB
           | Diverge => Diverge
           end.
Definition get {S} : M S S := fun s => Ok s s.
Definition put {S} (s' : S) : M S unit := fun _ => Ok tt s'.
Definition throw {S A} (e : exn) : M S A := fun s => Throw e s.
Definition ub {S A} : M S A := fun _ => UB.
Definition diverge {S A} : M S A := fun _ => Diverge.
Definition throw_if {S} (c : bool) (e : exn) : M S unit :=
  fun s => if c then Throw e s else Ok tt s.

Declare Scope m_scope.
Delimit Scope m_scope with m.
Notation "'let*' x := e 'in' f" := (bind e (fun x => f))
  (at level 200, x binder, e at level 100, f at level 200) : m_scope.
Notation "e ;;; f" := (bind e (fun _ => f))
  (at level 199, right associativity) : m_scope.
Open Scope m_scope.

(** * List helpers *)

(** Replace the element at position [i]; out of range leaves the list as it is
    (the models check the range first, an access out of range being [UB]). *)
Fixpoint upd {A} (l : list A) (i : nat) (x : A) : list A :=
  match l, i with
  | [], _ => []
  | _ :: l', 0 => x :: l'
  | y :: l', S i' => y :: upd l' i' x
  end.

Lemma upd_length {A} (l : list A) i x : length (upd l i x) = length l.
Proof. revert i; induction l as [|y l IH]; intros [|i]; simpl; auto. Qed.

Lemma upd_app_mid {A} (l1 l2 : list A) a b i :
  i = length l1 -> upd (l1 ++ a :: l2) i b = l1 ++ b :: l2.
Proof.
  intros ->. induction l1 as [|y l1 IH]; simpl; [reflexivity|now rewrite IH].
Qed.

Lemma nth_error_app_mid {A} (l1 l2 : list A) a i :
  i = length l1 -> nth_error (l1 ++ a :: l2) i = Some a.
Proof.
  intros ->. induction l1 as [|y l1 IH]; simpl; [reflexivity|exact IH].
Qed.

Lemma nth_error_upd_eq {A} (l : list A) i x :
  i < length l -> nth_error (upd l i x) i = Some x.
Proof.
  revert i; induction l as [|y l IH]; intros [|i] H; simpl in *; try lia; auto.
  apply IH; lia.
Qed.

Lemma nth_error_upd_neq {A} (l : list A) i j x :
  i <> j -> nth_error (upd l i x) j = nth_error l j.
Proof.
  revert i j; induction l as [|y l IH]; intros [|i] [|j] H; simpl; try lia; auto.
Qed.

Lemma upd_out {A} (l : list A) i x : length l <= i -> upd l i x = l.
Proof.
  revert i; induction l as [|y l IH]; intros [|i] H; simpl in *; try lia; auto.
  now rewrite IH by lia.
Qed.

Lemma upd_nth_id {A} (l : list A) i x : nth_error l i = Some x -> upd l i x = l.
Proof.
  revert i; induction l as [|y l IH]; intros [|i] H; simpl in *; try congruence.
  now rewrite IH.
Qed.

(** A table of objects, indexed by number, with one entry replaced. *)
Definition setm {A} (s : nat -> A) (i : nat) (x : A) : nat -> A :=
  fun k => if k =? i then x else s k.
Lemma setm_eq {A} (s : nat -> A) i x : setm s i x i = x.
Proof. unfold setm. now rewrite Nat.eqb_refl. Qed.
Lemma setm_neq {A} (s : nat -> A) i j x : j <> i -> setm s i x j = s j.
Proof. intros H. unfold setm. now rewrite (proj2 (Nat.eqb_neq _ _)). Qed.

Lemma nth_error_split_eq {A} (l : list A) i x :
  nth_error l i = Some x -> l = firstn i l ++ x :: skipn (S i) l.
Proof.
  revert i; induction l as [|y l IH]; intros [|i] H; simpl in *; try congruence.
  f_equal. now apply IH.
Qed.

Lemma upd_firstn_skipn {A} (l : list A) i x :
  i < length l -> upd l i x = firstn i l ++ x :: skipn (S i) l.
Proof.
  revert i; induction l as [|y l IH]; intros [|i] H; simpl in *; try lia; auto.
  f_equal. apply IH; lia.
Qed.

Lemma skipn_S_nth {A} (l : list A) i x :
  nth_error l i = Some x -> skipn i l = x :: skipn (S i) l.
Proof.
  revert i; induction l as [|y l IH]; intros [|i] H; simpl in *; try congruence.
  now apply IH.
Qed.

Lemma firstn_S_nth {A} (l : list A) i x :
  nth_error l i = Some x -> firstn (S i) l = firstn i l ++ [x].
Proof.
  revert i; induction l as [|y l IH]; intros [|i] H; simpl in *; try congruence.
  f_equal. now apply IH.
Qed.

Lemma repeat_S_end {A} (x : A) n : repeat x (S n) = repeat x n ++ [x].
Proof. induction n as [|n IH]; simpl; [reflexivity|]. f_equal. exact IH. Qed.

Lemma repeat_split {A} (x : A) n k : k <= n -> repeat x n = repeat x k ++ repeat x (n - k).
Proof. intros H. rewrite <- repeat_app. f_equal. lia. Qed.

Lemma list_snoc_cases {A} (l : list A) : l = [] \/ exists l' x, l = l' ++ [x].
Proof.
  destruct l as [|a l]; [now left|right].
  destruct (@exists_last _ (a :: l) ltac:(discriminate)) as (l' & x & E). eauto.
Qed.

Lemma nth_error_ext {A} (l l' : list A) :
  (forall i, nth_error l i = nth_error l' i) -> l = l'.
Proof.
  revert l'; induction l as [|x l IH]; intros [|y l'] H; auto.
  - specialize (H 0); discriminate.
  - specialize (H 0); discriminate.
  - pose proof (H 0) as H0; simpl in H0. injection H0 as ->.
    f_equal. apply IH. intros i. exact (H (S i)).
Qed.

Lemma nth_error_firstn {A} (l : list A) n i :
  nth_error (firstn n l) i = if i <? n then nth_error l i else None.
Proof.
  revert n i; induction l as [|x l IH]; intros [|n] [|i]; simpl; auto.
  - now destruct (S i <? S n).
  - rewrite IH. reflexivity.
Qed.

Lemma nth_error_skipn {A} (l : list A) n i :
  nth_error (skipn n l) i = nth_error l (n + i).
Proof.
  revert n; induction l as [|x l IH]; intros [|n]; simpl; auto.
  now destruct i.
Qed.

Lemma nth_error_repeat_lt {A} (x : A) n i : i < n -> nth_error (repeat x n) i = Some x.
Proof. revert i; induction n as [|n IH]; intros [|i] H; simpl; try lia; auto. apply IH; lia. Qed.

Lemma nth_error_map_some {A B} (f : A -> B) l i x :
  nth_error l i = Some x -> nth_error (map f l) i = Some (f x).
Proof. intros H. rewrite nth_error_map, H. reflexivity. Qed.

Lemma skipn_skipn' {A} (l : list A) m n : skipn m (skipn n l) = skipn (m + n) l.
Proof.
  revert l; induction n as [|n IH]; intros l; simpl.
  - now rewrite Nat.add_0_r.
  - destruct l as [|x l]; [now rewrite !skipn_nil|].
    rewrite Nat.add_succ_r. simpl. apply IH.
Qed.

Lemma firstn_skipn_split3 {A} (l : list A) a b :
  a <= b -> l = firstn a l ++ firstn (b - a) (skipn a l) ++ skipn b l.
Proof.
  intros H. rewrite <- (firstn_skipn a l) at 1. f_equal.
  rewrite <- (firstn_skipn (b - a) (skipn a l)) at 1. f_equal.
  rewrite skipn_skipn'. f_equal. lia.
Qed.

Lemma bind_ok {S A B} (m : M S A) (k : A -> M S B) s a s' :
  m s = Ok a s' -> bind m k s = k a s'.
Proof. intros H. unfold bind. now rewrite H. Qed.

Lemma bind_throw {S A B} (m : M S A) (k : A -> M S B) s e s' :
  m s = Throw e s' -> bind m k s = Throw e s'.
Proof. intros H. unfold bind. now rewrite H. Qed.

Lemma bind_ub {S A B} (m : M S A) (k : A -> M S B) s :
  m s = UB -> bind m k s = UB.
Proof. intros H. unfold bind. now rewrite H. Qed.

Lemma bind_get {S B} (k : S -> M S B) s : bind get k s = k s s.
Proof. reflexivity. Qed.

Lemma throw_if_false {S} e (s : S) : throw_if false e s = Ok tt s.
Proof. reflexivity. Qed.
Lemma throw_if_true {S} e (s : S) : throw_if true e s = Throw e s.
Proof. reflexivity. Qed.

Lemma map_repeat' {A B} (g : A -> B) x n : map g (repeat x n) = repeat (g x) n.
Proof. induction n; simpl; congruence. Qed.

(** Normalises lengths and closes linear goals about them. *)
Ltac len := repeat first
  [ rewrite app_length | rewrite map_length | rewrite repeat_length | rewrite firstn_length
  | rewrite skipn_length | rewrite upd_length | progress cbn [length] ]; try lia.

(** Shows that a concrete case meets a hypothesis made of conjunctions, inequalities
    between numerals and existentials with an obvious witness. *)
Ltac meets :=
  cbn;
  repeat (match goal with
          | |- _ /\ _ => split
          | |- exists _, _ => eexists
          | |- Some _ = Some _ => reflexivity
          | |- True => exact I
          | |- _ -> _ => intros
          end; cbn);
  try lia; try discriminate; try reflexivity.
