(** Specification vocabulary for pod_vector with a narrow size_type (C103). *)
From Coq Require Import List Arith NArith Bool.
From Verif Require Import Base SeqSpec VecCommon PodVectorModel PodVectorSpec.
Import ListNotations.

Section Spec.
(** The bits of size_type. *)
Variable W : N.
Variable A : alc.
Variable T : ety.

(** [n] elements, with the spare capacity which comes with them, are a number of bytes of
    size_type. *)
Definition narrow_room (n : nat) : Prop :=
  ((N.of_nat n + N.of_nat n / 2) * N.of_nat (esz T) + N.of_nat (eal T) < 2 ^ W)%N.

(** Exactly [n] elements are. *)
Definition few (n : N) : Prop := (n * N.of_nat (esz T) + N.of_nat (eal T) < 2 ^ W)%N.

(** How many elements a call on a vector which holds [xs] asks for. *)
Definition asked (xs : list (list N)) (o : podop) : nat :=
  match o with
  | PSeq (PushBack _) | PSeq (Insert _ _) | PEmplaceBack => length xs + 1
  | PSeq (InsertN _ n _) => length xs + n
  | PSeq (InsertRange _ l) => length xs + length l
  | PSeq (Resize n) | PSeq (ResizeVal n _) | PSeq (AssignN n _) | PReserve n => n
  | PSeq (AssignRange l) => length l
  | PSeq PopBack | PSeq (Erase _) | PSeq (EraseRange _ _) | PShrinkToFit => length xs
  | PSeq Clear => 0
  end.

Definition narrow_ok (cs : list (list (list N))) (o : podsys) : Prop :=
  match o with
  | POn i op => forall xs, nth_error cs i = Some xs ->
      narrow_room (length xs) /\ narrow_room (asked xs op)
  | PCopyAssign i j => forall ys, nth_error cs j = Some ys -> narrow_room (length ys)
  | PMoveAssign _ _ | PSwap _ _ => True
  end.

(** Wherever the calls before it may have led, what each call asks for fits. *)
Fixpoint narrow_along (cs : list (list (list N))) (os : list podsys) : Prop :=
  match os with
  | [] => True
  | o :: os' => narrow_ok cs o /\ forall cs' r, pod_sys_step A T cs o cs' r -> narrow_along cs' os'
  end.

(** The bytes a block for [n] elements must have. *)
Definition block_bytes (n : N) : N :=
  (n * N.of_nat (esz T) + (if allocator_aligned A T then 0 else N.of_nat (eal T)))%N.
End Spec.
