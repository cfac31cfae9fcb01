(** More about pod_vector.hpp: what its resizing members answer, what happens when the allocator
    has no memory or a size is beyond 64 bits, and what operator== should be. *)
From Coq Require Import List Arith NArith Bool.
From Verif Require Import Base SeqSpec VecCommon PodVectorModel PodVectorSpec.
Import ListNotations.

(** The call answers, and the answer tells whether data() is another address than before. *)
Definition tells_moves (f : M pst bool) (m : mem) (v : pv) : Prop :=
  exists r m' v', f (m, v) = Ok r (m', v') /\
    (r = true <-> addr_of (pb v') m' <> addr_of (pb v) m).

(** operator== of std::vector: the same number of elements, equal one by one. *)
Fixpoint std_equal (eqT : list N -> list N -> bool) (xs ys : list (list N)) : bool :=
  match xs, ys with
  | [], [] => true
  | x :: xs', y :: ys' => eqT x y && std_equal eqT xs' ys'
  | _, _ => false
  end.

(** The size of the block asked for when [n] elements shall have room (in 64 bits). *)
Definition request (A : alc) (T : ety) (n : N) : N :=
  if allocator_aligned A T then e2b T n else ((e2b T n + N.of_nat (eal T)) mod two64)%N.

(** The call needs no more than [c] elements and does not ask to give memory back. *)
Definition within (c : nat) (xs : list (list N)) (o : podop) : Prop :=
  match o with
  | PSeq (PushBack _) | PSeq (Insert _ _) | PEmplaceBack => length xs + 1 <= c
  | PSeq (InsertN _ n _) => length xs + n <= c
  | PSeq (InsertRange _ l) => length xs + length l <= c
  | PSeq (Resize n) | PSeq (ResizeVal n _) | PSeq (AssignN n _) | PReserve n => n <= c
  | PSeq (AssignRange l) => length l <= c
  | PShrinkToFit => length xs = c
  | _ => True
  end.

(** Histories of one vector. *)
Inductive one_history (A : alc) (T : ety) :
  list (list N) -> list podop -> list (list N) -> list vret -> Prop :=
| one_nil xs : one_history A T xs [] xs []
| one_cons xs o xs1 r os xs2 rs :
    pod_step A T xs o xs1 r -> one_history A T xs1 os xs2 rs ->
    one_history A T xs (o :: os) xs2 (r :: rs).
Fixpoint within_along (A : alc) (T : ety) (c : nat) (xs : list (list N)) (os : list podop) : Prop :=
  match os with
  | [] => True
  | o :: os' =>
      (pod_ok T xs o /\ within c xs o) /\
      forall xs' r, pod_step A T xs o xs' r -> within_along A T c xs' os'
  end.
