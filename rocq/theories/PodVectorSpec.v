(** Specification vocabulary for the pod_vector properties. *)
From Coq Require Import List Arith NArith Bool.
From Verif Require Import Base SeqSpec VecCommon PodVectorModel.
Import ListNotations.

(** What is asked of the element type and of the allocator: sizes and alignments as C++
    gives them (powers of two; the code asserts alignof(T) <= 128), and an allocator which
    grants every request below 2^63 bytes at an address aligned as it promises. *)
Definition ety_ok (T : ety) : Prop :=
  1 <= esz T /\ exists k, eal T = 2 ^ k /\ eal T <= 128.
Definition alc_ok (A : alc) : Prop :=
  (exists k, a_align A = 2 ^ k) /\
  forall call size, (size < two63)%N ->
    exists a, a_addr A call size = Some a /\ (a mod N.of_nat (a_align A) = 0)%N.

Section Spec.
Variable A : alc.
Variable T : ety.

Notation SZ := (esz T).
Notation AL := (eal T).

Definition is_elem (x : list N) : Prop := length x = SZ.

(** The start of a block in which an aligned buffer begins after [pre]: nothing if the
    allocator's own alignment is enough, else padding which ends in a byte telling its
    length.  (If the allocator can expand, the padding is not longer than the alignment, for
    a_expand_begin reckons with that.) *)
Definition header (a : N) (pre : list N) : Prop :=
  (if allocator_aligned A T then pre = [] /\ (a mod N.of_nat (a_align A) = 0)%N
   else length pre <= (if a_has_expand A then AL else 255) /\
        exists pad, pre = pad ++ [N.of_nat (length pre)]) /\
  ((a + N.of_nat (length pre)) mod N.of_nat AL = 0)%N.

Definition owner (v : pv) : option nat :=
  match pb v with None => None | Some (b, _) => Some b end.

(** The memory from m_begin to the end of its block is [bytes]. *)
Definition buf (bs : list mblk) (v : pv) (bytes : list N) : Prop :=
  match pb v with
  | None => bytes = []
  | Some (b, o) =>
      exists a pre, nth_error bs b = Some (MBlk a (pre ++ bytes)) /\
        o = length pre /\ header a pre
  end.

(** [p] is [n] bytes after m_begin. *)
Definition after_begin (v : pv) (n : nat) : bptr :=
  match pb v with None => None | Some (b, o) => Some (b, o + n) end.

(** The vector holds the elements [xs]: their bytes are at the start of its buffer, m_end
    is behind them, and the capacity lies within the block. *)
Definition pod_holds (bs : list mblk) (v : pv) (xs : list (list N)) : Prop :=
  Forall is_elem xs /\
  exists rest,
    buf bs v (concat xs ++ rest) /\
    pe v = after_begin v (length xs * SZ) /\
    length xs <= pcap v /\
    pcap v * SZ <= length xs * SZ + length rest.

(** [n] elements, with the spare capacity that comes with them, need less than 2^63 bytes. *)
Definition room (n : nat) : Prop :=
  ((N.of_nat n + N.of_nat n / 2) * N.of_nat SZ + N.of_nat AL < two63)%N.

(** Calls allowed in a history.  Left out: resize(n, v) of a vector which is not empty
    (C18). *)
Definition pod_ok (xs : list (list N)) (o : podop) : Prop :=
  match o with
  | PSeq (PushBack v) => is_elem v /\ room (length xs + 1)
  | PSeq PopBack => xs <> [] /\ room (length xs)
  | PSeq (Insert pos v) => is_elem v /\ pos <= length xs /\ room (length xs + 1)
  | PSeq (InsertN pos n v) => is_elem v /\ pos <= length xs /\ room (length xs + n)
  | PSeq (InsertRange pos l) =>
      Forall is_elem l /\ pos <= length xs /\ room (length xs + length l)
  | PSeq (Erase pos) => pos < length xs /\ room (length xs)
  | PSeq (EraseRange first last) => first <= last /\ last <= length xs /\ room (length xs)
  | PSeq (Resize n) => room n
  | PSeq (ResizeVal n v) => xs = [] /\ is_elem v /\ room n
  | PSeq Clear => True
  | PSeq (AssignN n v) => is_elem v /\ room n
  | PSeq (AssignRange l) => Forall is_elem l /\ room (length l)
  | PEmplaceBack => room (length xs + 1)
  | PReserve n => room n
  | PShrinkToFit => room (length xs)
  end.

(** What a call may do to the sequence, and answer.  New elements without a value are
    anything, except that resize(n) makes them zero if the allocator says so. *)
Inductive pod_step (xs : list (list N)) : podop -> list (list N) -> vret -> Prop :=
| step_seq o dflt :
    (forall n, o <> Resize n) ->
    pod_step xs (PSeq o) (fst (spec_step dflt None xs o)) (snd (spec_step dflt None xs o))
| step_resize n new :
    length new = n - length xs -> Forall is_elem new ->
    (a_zero A = true -> new = repeat (repeat 0%N SZ) (n - length xs)) ->
    pod_step xs (PSeq (Resize n)) (firstn n xs ++ new) RNone
| step_emplace_back x : is_elem x -> pod_step xs PEmplaceBack (xs ++ [x]) RNone
| step_reserve n : pod_step xs (PReserve n) xs RNone
| step_shrink : pod_step xs PShrinkToFit xs RNone.

(** Families of vectors. *)
Inductive pod_sys_step (cs : list (list (list N))) : podsys -> list (list (list N)) -> vret -> Prop :=
| sys_on i o xs xs' r :
    nth_error cs i = Some xs -> pod_step xs o xs' r ->
    pod_sys_step cs (POn i o) (upd cs i xs') r
| sys_copy i j ys :
    nth_error cs j = Some ys -> pod_sys_step cs (PCopyAssign i j) (upd cs i ys) RNone
| sys_move_self i : pod_sys_step cs (PMoveAssign i i) cs RNone
| sys_move i j ys :
    i <> j -> nth_error cs j = Some ys ->
    pod_sys_step cs (PMoveAssign i j) (upd (upd cs i ys) j []) RNone
| sys_swap i j xs ys :
    nth_error cs i = Some xs -> nth_error cs j = Some ys ->
    pod_sys_step cs (PSwap i j) (upd (upd cs i ys) j xs) RNone.

Definition pod_sys_ok (cs : list (list (list N))) (o : podsys) : Prop :=
  match o with
  | POn i op => exists xs, nth_error cs i = Some xs /\ pod_ok xs op
  | PCopyAssign i j => i < length cs /\ exists ys, nth_error cs j = Some ys /\ room (length ys)
  | PMoveAssign i j | PSwap i j => i < length cs /\ j < length cs
  end.

(** A history: each call does something it may do. *)
Inductive pod_history : list (list (list N)) -> list podsys -> list (list (list N)) -> list vret -> Prop :=
| hist_nil cs : pod_history cs [] cs []
| hist_cons cs o cs1 r os cs2 rs :
    pod_sys_step cs o cs1 r -> pod_history cs1 os cs2 rs ->
    pod_history cs (o :: os) cs2 (r :: rs).

(** Every call is allowed wherever the calls before it may have led. *)
Fixpoint pod_sys_along (cs : list (list (list N))) (os : list podsys) : Prop :=
  match os with
  | [] => True
  | o :: os' =>
      pod_sys_ok cs o /\ forall cs' r, pod_sys_step cs o cs' r -> pod_sys_along cs' os'
  end.

(** Each vector has its own block, and every block which no vector has is freed. *)
Definition fam_owns (bs : list mblk) (vs : list pv) : Prop :=
  (forall i j v w b, nth_error vs i = Some v -> nth_error vs j = Some w ->
     owner v = Some b -> owner w = Some b -> i = j) /\
  (forall b, b < length bs -> (forall v, In v vs -> owner v <> Some b) ->
     exists a, nth_error bs b = Some (MFreed a)).

(** data() is aligned, the capacity lies in the block, and the block's start is what is
    given back to the allocator. *)
Definition storage_ok (m : mem) (v : pv) : Prop :=
  match pb v with
  | None => pcap v = 0
  | Some (b, o) =>
      exists a bytes, nth_error (blks m) b = Some (MBlk a bytes) /\
        ((a + N.of_nat o) mod N.of_nat AL = 0)%N /\
        o + pcap v * SZ <= length bytes /\
        forall w, real_addr A T (pb v) (m, w) = Ok (Some (b, 0)) (m, w)
  end.
End Spec.

(** When a buffer of U's may be taken over as a buffer of T's: the static_assert of the code,
    and the padding of the one is good for the other. *)
Definition recastable (A : alc) (T U : ety) : Prop :=
  allocator_aligned A T = allocator_aligned A U /\
  (allocator_aligned A T = true \/ eal T = eal U \/ (eal T <= eal U /\ a_has_expand A = false)).

(** The whole elements of [T] in the bytes of [ys]. *)
Definition recast_to (T : ety) (ys zs : list (list N)) : Prop :=
  Forall (is_elem T) zs /\
  exists tail, concat ys = concat zs ++ tail /\ length tail < esz T.
