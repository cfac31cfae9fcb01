(** The property theorems of static_vector: C01 - C06. *)
From Coq Require Import List Arith NArith Lia.
From Verif Require Import Base SeqSpec VecCommon StaticVectorModel StaticVectorSpec StaticVectorProofs.
Import ListNotations.

(** Shows that a concrete state meets the hypotheses. *)
Ltac met_s :=
  try reflexivity; try discriminate; try solve [cbn; lia]; try solve [cbn; auto];
  repeat split; auto; try discriminate; try solve [cbn; lia];
  let i := fresh in let H := fresh in
  try (intros i H; do 8 (try (destruct i as [|i]; [first [reflexivity | cbn in H; lia]|])); cbn in H; lia).

(** * C01: static_vector is a sequence of at most Capacity elements *)

(** Any number of vectors, any history of calls on them (copy and move assignment and swap
    between them included): every call has the answer and the effect the sequence
    specification gives it. *)
Theorem C01_static_vector_histories :
  forall (V : Type) (moved : V -> V) (dflt : V) (Capacity : nat),
  (N.of_nat Capacity < two63)%N ->
  forall (n : nat) (os : list (sysop V)),
  sys_along dflt (Some Capacity) (fun _ => []) call_ok (repeat [] n) os ->
  exists st,
    run_calls (sys_call moved dflt Capacity) (repeat (init_sv Capacity) n) os =
      Some (st, snd (sys_spec_run dflt (Some Capacity) (fun _ => []) (repeat [] n) os)) /\
    Forall2 (represents Capacity) st
      (fst (sys_spec_run dflt (Some Capacity) (fun _ => []) (repeat [] n) os)).
Proof. exact @history_fact. Qed.
Print Assumptions C01_static_vector_histories.

Example C01_case :
  sys_along 0 (Some 4) (fun _ => []) call_ok (repeat [] 2)
    [On 0 (AssignRange [1; 2; 3]); On 0 (Insert 1 7); On 0 (PushBack 9); CopyAssign 1 0;
     On 1 (EraseRange 0 2); SwapOp 0 1; MoveAssign 0 1; MoveAssign 0 0] /\
  sys_spec_run 0 (Some 4) (fun _ => []) (repeat [] 2)
    [On 0 (AssignRange [1; 2; 3]); On 0 (Insert 1 7); On 0 (PushBack 9); CopyAssign 1 0;
     On 1 (EraseRange 0 2); SwapOp 0 1; MoveAssign 0 1]
  = ([[1; 7; 2; 3]; []],
     [RNone; RPos 1; RThrow OutOfRange; RNone; RPos 0; RNone; RNone]).
Proof.
  split; [|reflexivity]. unfold call_ok. meets.
Qed.

(** The same for a single call in any state which holds a sequence. *)
Theorem C01_static_vector_call :
  forall (V : Type) (moved : V -> V) (dflt : V) (Capacity : nat),
  (N.of_nat Capacity < two63)%N ->
  forall s xs o,
  represents Capacity s xs -> fuse s = None -> call_ok xs o ->
  exists s',
    observe (call moved dflt Capacity o s) =
      Some (s', snd (spec_step dflt (Some Capacity) xs o)) /\
    represents Capacity s' (fst (spec_step dflt (Some Capacity) xs o)) /\
    fuse s' = None.
Proof. exact @call_fact. Qed.
Print Assumptions C01_static_vector_call.

Example C01_call_met :
  exists s',
    observe (call (fun v => v) 0 4 (EraseRange 0 2) (mkSv [Live 5; Live 6; Live 7; Raw] 3 None)) =
      Some (s', RPos 0) /\
    represents 4 s' [7] /\ fuse s' = None.
Proof. apply (C01_static_vector_call nat (fun v => v) 0 4) with (xs := [5; 6; 7]); met_s. Qed.


Theorem C01_static_vector_copy_construct :
  forall (V : Type) (Capacity : nat),
  (N.of_nat Capacity < two63)%N ->
  forall (b : @sv V) ys,
  represents Capacity b ys ->
  exists a, copy_construct Capacity b = Ok tt (a, b) /\ represents Capacity a ys.
Proof. exact @copy_construct_fact. Qed.
Print Assumptions C01_static_vector_copy_construct.

Example C01_copy_construct_met :
  exists a, copy_construct 4 (mkSv [Live 5; Live 6; Live 7; Raw] 3 None) =
    Ok tt (a, mkSv [Live 5; Live 6; Live 7; Raw] 3 None) /\ represents 4 a [5; 6; 7].
Proof. apply C01_static_vector_copy_construct; met_s. Qed.


Theorem C01_static_vector_move_construct :
  forall (V : Type) (moved : V -> V) (Capacity : nat),
  (N.of_nat Capacity < two63)%N ->
  forall (b : @sv V) ys,
  represents Capacity b ys -> fuse b = None ->
  exists a b', move_construct moved Capacity b = Ok tt (a, b') /\
    represents Capacity a ys /\ represents Capacity b' [].
Proof. exact @move_construct_fact. Qed.
Print Assumptions C01_static_vector_move_construct.

Example C01_move_construct_met :
  exists a b', move_construct (fun _ => 0) 4 (mkSv [Live 5; Live 6; Live 7; Raw] 3 None) = Ok tt (a, b') /\
    represents 4 a [5; 6; 7] /\ represents 4 b' [].
Proof. apply C01_static_vector_move_construct; met_s. Qed.


Theorem C01_static_vector_equality :
  forall (V : Type) (Capacity : nat),
  (N.of_nat Capacity < two63)%N ->
  forall (a b : @sv V) xs ys (eqb : V -> V -> bool),
  represents Capacity a xs -> represents Capacity b ys ->
  fuse a = None -> fuse b = None ->
  (forall x y, eqb x y = true <-> x = y) ->
  exists r, equal eqb (a, b) = Ok r (a, b) /\ (r = true <-> xs = ys).
Proof. exact @equal_fact. Qed.
Print Assumptions C01_static_vector_equality.

Example C01_equality_met :
  exists r, equal Nat.eqb (mkSv [Live 5; Live 6; Live 7; Raw] 3 None, mkSv [Live 5; Live 6; Raw; Raw] 2 None) =
    Ok r (mkSv [Live 5; Live 6; Live 7; Raw] 3 None, mkSv [Live 5; Live 6; Raw; Raw] 2 None) /\
    (r = true <-> [5; 6; 7] = [5; 6]).
Proof. apply (C01_static_vector_equality nat 4); [..|exact Nat.eqb_eq]; met_s. Qed.


Example C01_state : represents 3 (mkSv [Live 5; Live 6; Raw] 2 None) [5; 6].
Proof.
  repeat split; auto. intros i Hi.
  destruct i as [|[|[|i]]]; try reflexivity. exfalso. do 3 apply Nat.succ_lt_mono in Hi.
  inversion Hi.
Qed.

(** * C02: element lifetimes are exact *)

Theorem C02_static_vector_lifetimes :
  forall (V : Type) (moved : V -> V) (dflt : V) (Capacity : nat),
  (N.of_nat Capacity < two63)%N ->
  forall (n : nat) (os : list (sysop V)),
  sys_along dflt (Some Capacity) (fun _ => []) call_ok (repeat [] n) os ->
  exists st rs,
    run_calls (sys_call moved dflt Capacity) (repeat (init_sv Capacity) n) os = Some (st, rs) /\
    forall s, In s st ->
      exactly_first_alive Capacity s /\
      exists s', clear Capacity s = Ok tt s' /\
        forall i, i < Capacity -> nth_error (data s') i = Some Raw.
Proof. exact @history_lifetimes_fact. Qed.
Print Assumptions C02_static_vector_lifetimes.

Example C02_met :
  exists st rs,
    run_calls (sys_call (fun v => v) 0 4) (repeat (init_sv 4) 2)
      [On 0 (AssignRange [1; 2; 3]); On 0 (Insert 1 7); On 0 (PushBack 9); CopyAssign 1 0;
       On 1 (EraseRange 0 2); SwapOp 0 1; MoveAssign 0 1; MoveAssign 0 0] = Some (st, rs) /\
    forall s, In s st ->
      exactly_first_alive 4 s /\
      exists s', clear 4 s = Ok tt s' /\ forall i, i < 4 -> nth_error (data s') i = Some Raw.
Proof. apply C02_static_vector_lifetimes; [reflexivity|apply C01_case]. Qed.


(** * C03: an empty range does nothing *)

(** False as stated: erasing an empty range which is not at the end is undefined
    behaviour, in every state. *)
Theorem C03_static_vector_empty_erase_refuted :
  forall (V : Type) (moved : V -> V) (Capacity : nat),
  (N.of_nat Capacity < two63)%N ->
  forall s xs pos,
  represents Capacity s xs -> pos < length xs ->
  erase_range moved Capacity pos pos s = UB.
Proof. exact @empty_erase_mid_fact. Qed.
Print Assumptions C03_static_vector_empty_erase_refuted.

Example C03_refuting_state :
  erase_range (fun v => v) 3 0 0 (mkSv [Live 5; Live 6; Raw] 2 None) = UB.
Proof. reflexivity. Qed.

(** What holds: empty insertions anywhere, and an empty erase at the end.
    Missing: the empty erase before the end. *)
Theorem C03_static_vector_empty_insert_partial :
  forall (V : Type) (moved : V -> V) (Capacity : nat),
  (N.of_nat Capacity < two63)%N ->
  forall s xs pos x,
  represents Capacity s xs ->
  insert_n moved Capacity pos 0%N x s = Ok pos s /\
  insert_range moved Capacity pos [] s = Ok pos s.
Proof. exact @empty_insert_fact. Qed.
Print Assumptions C03_static_vector_empty_insert_partial.

Example C03_empty_insert_met :
  insert_n (fun v => v) 4 1 0%N (CopyOf 9) (mkSv [Live 5; Live 6; Live 7; Raw] 3 None) =
    Ok 1 (mkSv [Live 5; Live 6; Live 7; Raw] 3 None) /\
  insert_range (fun v => v) 4 1 [] (mkSv [Live 5; Live 6; Live 7; Raw] 3 None) =
    Ok 1 (mkSv [Live 5; Live 6; Live 7; Raw] 3 None).
Proof. apply C03_static_vector_empty_insert_partial with (xs := [5; 6; 7]); met_s. Qed.


Theorem C03_static_vector_empty_erase_partial :
  forall (V : Type) (moved : V -> V) (Capacity : nat),
  (N.of_nat Capacity < two63)%N ->
  forall s xs,
  represents Capacity s xs ->
  erase_range moved Capacity (length xs) (length xs) s = Ok (length xs) s.
Proof. exact @empty_erase_end_fact. Qed.
Print Assumptions C03_static_vector_empty_erase_partial.

Example C03_empty_erase_met :
  erase_range (fun v => v) 4 3 3 (mkSv [Live 5; Live 6; Live 7; Raw] 3 None) =
    Ok 3 (mkSv [Live 5; Live 6; Live 7; Raw] 3 None).
Proof. apply (C03_static_vector_empty_erase_partial nat _ 4) with (xs := [5; 6; 7]); met_s. Qed.


(** * C04: a call which would exceed the capacity throws and changes nothing *)

(** False as stated: if size() + count wraps around 2^64 the check passes. *)
Theorem C04_static_vector_over_capacity_refuted :
  forall (V : Type) (moved : V -> V) (Capacity : nat),
  (N.of_nat Capacity < two63)%N ->
  forall s xs pos n v,
  represents Capacity s xs -> pos < length xs ->
  (N.of_nat Capacity < n)%N -> (n < two64)%N ->
  (two64 <= N.of_nat (length xs) + n)%N ->
  insert_n moved Capacity pos n (CopyOf v) s = UB.
Proof. exact @over_capacity_wrap_fact. Qed.
Print Assumptions C04_static_vector_over_capacity_refuted.

Example C04_refuting_case :
  (N.of_nat 3 < 18446744073709551615)%N /\ (18446744073709551615 < two64)%N /\
  (two64 <= N.of_nat (length [5; 6]) + 18446744073709551615)%N.
Proof. repeat split; discriminate. Qed.

(** What holds: the check is right whenever the sum does not wrap. (For push_back, resize,
    assign and range insertion see C01: they are rejected as specified.)
    Missing: counts for which the sum wraps. *)
Theorem C04_static_vector_over_capacity_partial :
  forall (V : Type) (moved : V -> V) (Capacity : nat),
  (N.of_nat Capacity < two63)%N ->
  forall s xs pos n v,
  represents Capacity s xs ->
  (n < two64)%N ->
  (N.of_nat Capacity < N.of_nat (length xs) + n)%N ->
  (N.of_nat (length xs) + n < two64)%N ->
  insert_n moved Capacity pos n (CopyOf v) s = Throw OutOfRange s.
Proof. exact @over_capacity_fact. Qed.
Print Assumptions C04_static_vector_over_capacity_partial.

Example C04_partial_case :
  insert_n (fun v => v) 3 0 2%N (CopyOf 7) (mkSv [Live 5; Live 6; Raw] 2 None)
  = Throw OutOfRange (mkSv [Live 5; Live 6; Raw] 2 None).
Proof. reflexivity. Qed.

(** * C05: a throwing element constructor leaves the vector usable *)

(** False as stated: if a construction in an insertion throws, size() counts a slot which
    holds no object, and even destroying the vector is undefined behaviour.  Every vector,
    position, list of new elements which fits, and choice of the one which throws. *)
Theorem C05_static_vector_insert_exception_refuted :
  forall (V : Type) (moved : V -> V) (Capacity : nat),
  (N.of_nat Capacity < two63)%N ->
  forall (s : @sv V) xs pos l k,
  represents Capacity s xs -> fuse s = Some k ->
  pos <= length xs -> k < length l -> length xs + length l <= Capacity ->
  (exists s', insert_range moved Capacity pos l s = Throw ElemThrow s' /\
     clear Capacity s' = UB /\ ~ usable Capacity s') /\
  (forall v, l = repeat v (length l) ->
   exists s', insert_n moved Capacity pos (N.of_nat (length l)) (CopyOf v) s = Throw ElemThrow s' /\
     clear Capacity s' = UB /\ ~ usable Capacity s') /\
  (forall v, l = [v] ->
   exists s', insert1 moved Capacity pos (CopyOf v) s = Throw ElemThrow s' /\
     clear Capacity s' = UB /\ ~ usable Capacity s').
Proof. exact @insert_exception_fact. Qed.
Print Assumptions C05_static_vector_insert_exception_refuted.

Example C05_refuting_case :
  represents 3 (mkSv [Live 5; Live 6; Raw] 2 (Some 0)) [5; 6] /\
  insert1 (fun v => v) 3 0 (CopyOf 7) (mkSv [Live 5; Live 6; Raw] 2 (Some 0)) =
    Throw ElemThrow (mkSv [Raw; Live 5; Live 6] 3 None) /\
  clear 3 (mkSv [@Raw nat; Live 5; Live 6] 3 None) = UB.
Proof.
  split; [|split; reflexivity].
  destruct C01_state as (A & B & C & D). repeat split; assumption.
Qed.

(** What holds, whichever element construction throws: every other call leaves the vector
    with some sequence it can go on with.  Missing: the insertions. *)
Theorem C05_static_vector_exceptions_partial :
  forall (V : Type) (moved : V -> V) (dflt : V) (Capacity : nat),
  (N.of_nat Capacity < two63)%N ->
  forall s xs o,
  represents Capacity s xs -> call_ok xs o -> not_insert o ->
  leaves_usable Capacity (call moved dflt Capacity o s).
Proof. exact @exceptions_basic_fact. Qed.
Print Assumptions C05_static_vector_exceptions_partial.

(** The third element of an assignment throws. *)
Example C05_exceptions_met :
  leaves_usable 4 (call (fun v => v) 0 4 (AssignRange [1; 2; 3; 4])
                     (mkSv [Live 5; Live 6; Live 7; Raw] 3 (Some 2))).
Proof. apply C05_static_vector_exceptions_partial with (xs := [5; 6; 7]); met_s. Qed.


(** push_back and emplace_back have the strong guarantee. *)
Theorem C05_static_vector_push_back_strong_partial :
  forall (V : Type) (Capacity : nat),
  (N.of_nat Capacity < two63)%N ->
  forall s xs (v : V),
  represents Capacity s xs ->
  match push_back Capacity (CopyOf v) s with
  | Ok _ s' => represents Capacity s' (xs ++ [v])
  | Throw _ s' => represents Capacity s' xs
  | UB => False
  | Diverge => False
  end.
Proof. exact @push_back_strong_fact. Qed.
Print Assumptions C05_static_vector_push_back_strong_partial.

Example C05_push_back_strong_met :
  match push_back 4 (CopyOf 9) (mkSv [Live 5; Live 6; Live 7; Raw] 3 (Some 0)) with
  | Ok _ s' => represents 4 s' [5; 6; 7; 9]
  | Throw _ s' => represents 4 s' [5; 6; 7]
  | UB => False
  | Diverge => False
  end.
Proof.
  refine (C05_static_vector_push_back_strong_partial nat 4 _ (mkSv [Live 5; Live 6; Live 7; Raw] 3 (Some 0)) [5; 6; 7] 9 _); met_s.
Qed.


(** * C06: an element of the vector itself as the argument *)

(** insert(pos, v[k]): right if k < pos, undefined if k = pos, and the wrong element,
    v[k-1], if k > pos. *)
Theorem C06_static_vector_insert_own_refuted :
  forall (V : Type) (moved : V -> V) (Capacity : nat),
  (N.of_nat Capacity < two63)%N ->
  forall s xs pos k,
  represents Capacity s xs -> fuse s = None ->
  pos <= length xs -> k < length xs -> length xs < Capacity ->
  (k < pos -> exists v s', nth_error xs k = Some v /\
     insert1 moved Capacity pos (CopyOwn k) s = Ok pos s' /\
     represents Capacity s' (insert_at xs pos [v])) /\
  (k = pos -> insert1 moved Capacity pos (CopyOwn k) s = UB) /\
  (pos < k -> exists w s', nth_error xs (k - 1) = Some w /\
     insert1 moved Capacity pos (CopyOwn k) s = Ok pos s' /\
     represents Capacity s' (insert_at xs pos [w])).
Proof. exact @own_insert_fact. Qed.
Print Assumptions C06_static_vector_insert_own_refuted.

Example C06_wrong_element :
  insert1 (fun v => v) 3 0 (CopyOwn 1) (mkSv [Live 5; Live 6; Raw] 2 None)
  = Ok 0 (mkSv [Live 5; Live 5; Live 6] 3 None).
Proof. reflexivity. Qed.

(** push_back(v[k]) and resize(n, v[k]) are right.  Missing: insert with k >= pos. *)
Theorem C06_static_vector_push_back_own_partial :
  forall (V : Type) (Capacity : nat),
  (N.of_nat Capacity < two63)%N ->
  forall s xs k (v : V),
  represents Capacity s xs -> fuse s = None ->
  nth_error xs k = Some v -> length xs < Capacity ->
  exists s', push_back Capacity (CopyOwn k) s = Ok tt s' /\ represents Capacity s' (xs ++ [v]).
Proof. exact @own_push_fact. Qed.
Print Assumptions C06_static_vector_push_back_own_partial.

Example C06_push_back_own_met :
  exists s', push_back 4 (CopyOwn 1) (mkSv [Live 5; Live 6; Live 7; Raw] 3 None) = Ok tt s' /\
    represents 4 s' ([5; 6; 7] ++ [6]).
Proof. apply C06_static_vector_push_back_own_partial; met_s. Qed.


Theorem C06_static_vector_resize_own_partial :
  forall (V : Type) (moved : V -> V) (Capacity : nat),
  (N.of_nat Capacity < two63)%N ->
  forall s xs n k v,
  represents Capacity s xs -> fuse s = None ->
  nth_error xs k = Some v -> n <= Capacity ->
  exists s', resize_val moved Capacity n (CopyOwn k) s = Ok tt s' /\
    represents Capacity s' (resize_to xs n v).
Proof. exact @own_resize_fact. Qed.
Print Assumptions C06_static_vector_resize_own_partial.

Example C06_resize_own_met :
  exists s', resize_val (fun v => v) 6 5 (CopyOwn 1) (mkSv [Live 5; Live 6; Live 7; Raw; Raw; Raw] 3 None) = Ok tt s' /\
    represents 6 s' [5; 6; 7; 6; 6].
Proof. apply (C06_static_vector_resize_own_partial nat _ 6) with (xs := [5; 6; 7]) (v := 6); met_s. Qed.

