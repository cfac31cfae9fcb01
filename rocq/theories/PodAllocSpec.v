(** Specification of pod_vectors with allocators which are objects: what each vector contains, and
    which allocator it has. *)
From Coq Require Import List Arith NArith Bool.
From Verif Require Import Base SeqSpec VecCommon PodVectorModel PodVectorSpec PodAllocModel.
Import ListNotations.

(** For each place: nothing, or a vector's allocator and elements. *)
Definition owned : Type := list (option (nat * list (list N))).

Section Spec.
Variable A : alc.
Variable T : ety.
Variable left_of : nat -> nat.

(** Copies keep or are given their allocator; moves take the allocator along with the memory. *)
Inductive a_step (cs : owned) : aop -> owned -> vret -> Prop :=
| a_new i al : a_step cs (ANew i al) (upd cs i (Some (al, []))) RNone
| a_new_count i al n xs :
    pod_step A T [] (PSeq (Resize n)) xs RNone ->
    a_step cs (ANewCount i al n) (upd cs i (Some (al, xs))) RNone
| a_new_fill i al n x : a_step cs (ANewFill i al n x) (upd cs i (Some (al, repeat x n))) RNone
| a_new_range i al l : a_step cs (ANewRange i al l) (upd cs i (Some (al, l))) RNone
| a_copy_new i j al ys :
    nth_error cs j = Some (Some (al, ys)) ->
    a_step cs (ACopyNew i j) (upd cs i (Some (al, ys))) RNone
| a_copy_new_with i j al al' ys :
    nth_error cs j = Some (Some (al', ys)) ->
    a_step cs (ACopyNewWith i j al) (upd cs i (Some (al, ys))) RNone
| a_move_new i j al ys :
    nth_error cs j = Some (Some (al, ys)) ->
    a_step cs (AMoveNew i j) (upd (upd cs i (Some (al, ys))) j (Some (left_of al, []))) RNone
| a_destroy i : a_step cs (ADestroy i) (upd cs i None) RNone
| a_on i o al xs xs' r :
    nth_error cs i = Some (Some (al, xs)) -> pod_step A T xs o xs' r ->
    a_step cs (AOn i o) (upd cs i (Some (al, xs'))) r
| a_copy_assign i j al al' xs ys :
    nth_error cs i = Some (Some (al, xs)) -> nth_error cs j = Some (Some (al', ys)) ->
    a_step cs (ACopyAssign i j) (upd cs i (Some (al, ys))) RNone
| a_move_self i : a_step cs (AMoveAssign i i) cs RNone
| a_move_assign i j al ys :
    i <> j -> nth_error cs j = Some (Some (al, ys)) ->
    a_step cs (AMoveAssign i j) (upd (upd cs i (Some (al, ys))) j (Some (left_of al, []))) RNone
| a_swap i j x y :
    nth_error cs i = Some x -> nth_error cs j = Some y ->
    a_step cs (ASwap i j) (upd (upd cs i y) j x) RNone
| a_recast_copy i j al al' xs ys :
    nth_error cs i = Some (Some (al, xs)) -> nth_error cs j = Some (Some (al', ys)) ->
    a_step cs (ARecastCopy i j) (upd cs i (Some (al, ys))) RNone
| a_recast_take i j al ys :
    nth_error cs j = Some (Some (al, ys)) ->
    a_step cs (ARecastTake i j) (upd (upd cs i (Some (al, ys))) j (Some (left_of al, []))) RNone.

(** Constructors in empty places, all else on vectors; sizes as in C16; no recast from itself,
    of which C97 is. *)
Definition vacant (cs : owned) (i : nat) : Prop := nth_error cs i = Some None.
Definition occupied (cs : owned) (i : nat) : Prop := exists p, nth_error cs i = Some (Some p).
Definition fits_in (cs : owned) (j : nat) : Prop :=
  exists al ys, nth_error cs j = Some (Some (al, ys)) /\ room T (length ys).
Definition a_ok (cs : owned) (o : aop) : Prop :=
  match o with
  | ANew i _ => vacant cs i
  | ANewCount i _ n => vacant cs i /\ room T n
  | ANewFill i _ n x => vacant cs i /\ is_elem T x /\ room T n
  | ANewRange i _ l => vacant cs i /\ Forall (is_elem T) l /\ room T (length l)
  | ACopyNew i j | ACopyNewWith i j _ => vacant cs i /\ fits_in cs j
  | AMoveNew i j => vacant cs i /\ occupied cs j
  | ADestroy i => occupied cs i
  | AOn i o => exists al xs, nth_error cs i = Some (Some (al, xs)) /\ pod_ok T xs o
  | ACopyAssign i j => occupied cs i /\ fits_in cs j
  | AMoveAssign i j | ASwap i j => occupied cs i /\ occupied cs j
  | ARecastCopy i j => i <> j /\ occupied cs i /\ fits_in cs j
  | ARecastTake i j => i <> j /\ occupied cs i /\ occupied cs j
  end.

Inductive a_history : owned -> list aop -> owned -> list vret -> Prop :=
| ahist_nil cs : a_history cs [] cs []
| ahist_cons cs o cs1 r os cs2 rs :
    a_step cs o cs1 r -> a_history cs1 os cs2 rs ->
    a_history cs (o :: os) cs2 (r :: rs).
Fixpoint a_along (cs : owned) (os : list aop) : Prop :=
  match os with
  | [] => True
  | o :: os' => a_ok cs o /\ forall cs' r, a_step cs o cs' r -> a_along cs' os'
  end.
End Spec.

(** The vectors are where the specification has them, with its allocators. *)
Definition allocators (s : avs) : list (option nat) :=
  map (fun a => match a with Some a => Some (av_al a) | None => None end) (av_slots s).
Definition allocators_of (cs : owned) : list (option nat) :=
  map (fun c => match c with Some (al, _) => Some al | None => None end) cs.
(** The vector in place [i] has the elements [xs], read one by one. *)
Definition reads (A : alc) (T : ety) (s : avs) (i : nat) (xs : list (list N)) : Prop :=
  exists a, nth_error (av_slots s) i = Some (Some a) /\
    psize T (av_mem s, av_v a) = Ok (length xs) (av_mem s, av_v a) /\
    forall k x, nth_error xs k = Some x -> pat T k (av_mem s, av_v a) = Ok x (av_mem s, av_v a).
