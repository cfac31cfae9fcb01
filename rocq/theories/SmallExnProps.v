(** C14, continued: what every call of small_vector leaves behind when a constructor of an
    element throws, at any point of the call, or when the allocator does. *)
From Coq Require Import List Arith NArith ZArith Lia.
From Verif Require Import Base SeqSpec VecCommon SmallVectorModel SmallVectorSpec SmallVectorProofs
  SmallVectorProps SmallExnSpec SmallExnProofs.
Import ListNotations.

(** A fuse of [k] lets [k] more constructors finish and makes the next one throw.  A call which
    constructs more elements than that throws, and leaves the elements assigned so far if it
    was an assignment which needed no other buffer; after any other call the destructor is
    undefined.  Missing from C14: that the vector can be destroyed, which is false. *)
Theorem C14_small_vector_every_throw_partial :
  forall (V : Type) (moved : V -> V) (dflt : V) (SC RB : nat) (maxn : N),
  0 < SC -> RB <= SC + 1 -> (maxn < two63)%N ->
  forall (s : @vec V) xs o k,
  holds SC s xs -> small_ok maxn xs o -> succeeds dflt xs o -> vfuse s = Some k -> k < built xs o ->
  exists s', call moved dflt SC RB maxn o s = Throw ElemThrow s' /\ left_by SC RB s o k s'.
Proof. exact @call_throws. Qed.
Print Assumptions C14_small_vector_every_throw_partial.

Ltac met_x := unfold succeeds; try (intros; cbn; discriminate); met_v.

(** The second of two inserted elements throws; the third of six when resizing; the second
    when assigning one more than the revert threshold, which stays in the dynamic block; and
    the first of one, which would go to the static buffer. *)
Example C14_every_throw_met :
  (exists s', call (fun v => v) 0 3 2 1000%N (Seq (InsertRange 1 [8; 9])) (ex_dyn (Some 1)) = Throw ElemThrow s' /\
    destructor s' = UB) /\
  (exists s', call (fun v => v) 0 3 2 1000%N (Seq (Resize 8)) (ex_sta (Some 2)) = Throw ElemThrow s' /\
    destructor s' = UB) /\
  (exists s', call (fun v => v) 0 3 2 1000%N (Seq (AssignN 3 9)) (ex_dyn (Some 1)) = Throw ElemThrow s' /\
    holds 3 s' [9]) /\
  (exists s', call (fun v => v) 0 3 2 1000%N (Seq (AssignRange [9])) (ex_dyn (Some 0)) = Throw ElemThrow s' /\
    destructor s' = UB).
Proof.
  repeat split.
  - refine (C14_small_vector_every_throw_partial nat _ 0 3 2 1000%N _ _ _ (ex_dyn (Some 1)) [5; 6; 7]
      (Seq (InsertRange 1 [8; 9])) 1 _ _ _ _ _); met_x.
  - refine (C14_small_vector_every_throw_partial nat _ 0 3 2 1000%N _ _ _ (ex_sta (Some 2)) [5; 6]
      (Seq (Resize 8)) 2 _ _ _ _ _); met_x.
  - edestruct (C14_small_vector_every_throw_partial nat (fun v => v) 0 3 2 1000%N) as (s' & E & L);
      [| | |exact (ltac:(met_x) : holds 3 (ex_dyn (Some 1)) [5; 6; 7])|
       exact (ltac:(met_x) : small_ok 1000 [5; 6; 7] (Seq (AssignN 3 9)))| | | |]; [met_x..|].
    exists s'. split; [exact E|]. apply L. unfold in_place. cbn. lia.
  - edestruct (C14_small_vector_every_throw_partial nat (fun v => v) 0 3 2 1000%N) as (s' & E & L);
      [| | |exact (ltac:(met_x) : holds 3 (ex_dyn (Some 0)) [5; 6; 7])|
       exact (ltac:(met_x) : small_ok 1000 [5; 6; 7] (Seq (AssignRange [9])))| | | |]; [met_x..|].
    exists s'. split; [exact E|]. apply L. unfold in_place. cbn. lia.
Qed.

(** The other side: a call which constructs no more elements than the fuse allows does what it
    does on a vector whose elements do not throw, and uses up exactly [built xs o] of it; so
    [built] counts the constructions of every call exactly. *)
Theorem C14_small_vector_no_throw_partial :
  forall (V : Type) (moved : V -> V) (dflt : V) (SC RB : nat) (maxn : N),
  0 < SC -> RB <= SC + 1 -> (maxn < two63)%N ->
  forall (s : @vec V) xs o k,
  holds SC s xs -> small_ok maxn xs o -> succeeds dflt xs o -> vfuse s = Some k -> built xs o <= k ->
  exists s',
    observe (call moved dflt SC RB maxn o s) = Some (s', snd (small_step dflt xs o)) /\
    holds SC s' (fst (small_step dflt xs o)) /\ vfuse s' = Some (k - built xs o).
Proof. exact @call_enough. Qed.
Print Assumptions C14_small_vector_no_throw_partial.

Example C14_no_throw_met :
  exists s',
    observe (call (fun v => v) 0 3 2 1000%N (Seq (InsertN 1 2 9)) (ex_dyn (Some 5))) = Some (s', RPos 1) /\
    holds 3 s' [5; 9; 9; 6; 7] /\ vfuse s' = Some 3.
Proof.
  refine (C14_small_vector_no_throw_partial nat _ 0 3 2 1000%N _ _ _ (ex_dyn (Some 5)) [5; 6; 7]
    (Seq (InsertN 1 2 9)) 5 _ _ _ _ _); met_x.
Qed.

(** Copy assignment is an assignment like the others; its source is untouched. *)
Theorem C14_small_vector_copy_assign_throw_partial :
  forall (V : Type) (SC RB : nat) (maxn : N),
  0 < SC -> RB <= SC + 1 -> (maxn < two63)%N ->
  forall (a b : @vec V) xs ys k,
  holds SC a xs -> holds SC b ys -> vfuse a = Some k -> room maxn (length ys) -> k < length ys ->
  exists a', copy_assign SC RB maxn (a, b) = Throw ElemThrow (a', b) /\
    (in_place RB a (length ys) -> holds SC a' (firstn k ys)) /\
    (~ in_place RB a (length ys) -> destructor a' = UB).
Proof. exact @copy_assign_throw. Qed.
Print Assumptions C14_small_vector_copy_assign_throw_partial.

Example C14_copy_assign_throw_met :
  exists a', copy_assign 3 2 1000%N (ex_sta (Some 2), ex_dyn None) = Throw ElemThrow (a', ex_dyn None) /\
    (in_place 2 (ex_sta (Some 2)) 3 -> holds 3 a' [5; 6]) /\
    (~ in_place 2 (ex_sta (Some 2)) 3 -> destructor a' = UB).
Proof.
  refine (C14_small_vector_copy_assign_throw_partial nat 3 2 1000%N _ _ _ (ex_sta (Some 2)) (ex_dyn None)
    [5; 6] [5; 6; 7] 2 _ _ _ _ _); met_v.
Qed.
Example C14_copy_assign_in_place : in_place 2 (ex_sta (Some 2)) 3. Proof. unfold in_place. cbn. lia. Qed.

(** Every exception which does not come from an element: a position or a range which is not
    one, a length the allocator does not grant.  Nothing changes, except that assignments have
    already destroyed the elements there were and not said so. *)
Theorem C14_small_vector_other_exceptions_partial :
  forall (V : Type) (moved : V -> V) (dflt : V) (SC RB : nat) (maxn : N),
  0 < SC -> RB <= SC + 1 -> (maxn < two63)%N ->
  forall (s : @vec V) xs o e s',
  holds SC s xs -> call moved dflt SC RB maxn o s = Throw e s' -> e <> ElemThrow ->
  (assigned o = None \/ xs = [] -> s' = s) /\
  (assigned o <> None -> xs <> [] -> destructor s' = UB).
Proof. exact @call_no_memory. Qed.
Print Assumptions C14_small_vector_other_exceptions_partial.

(** The hypotheses are met: an allocator which grants no more than three elements, and resize,
    insert and assign of more. *)
Example C14_other_exceptions_met :
  call (fun v => v) 0 3 2 3%N (Seq (Resize 4)) (ex_sta None) = Throw BadAlloc (ex_sta None) /\
  call (fun v => v) 0 3 2 3%N (Seq (InsertN 1 2 9)) (ex_sta None) = Throw BadAlloc (ex_sta None) /\
  call (fun v => v) 0 3 2 1000%N (Seq (Erase 5)) (ex_dyn None) = Throw OutOfRange (ex_dyn None) /\
  (exists s', call (fun v => v) 0 3 2 3%N (Seq (AssignN 4 9)) (ex_sta None) = Throw BadAlloc s' /\
    destructor s' = UB).
Proof.
  repeat split; try reflexivity. eexists. split; [reflexivity|].
  refine (proj2 (C14_small_vector_other_exceptions_partial nat (fun v => v) 0 3 2 3%N _ _ _ (ex_sta None) [5; 6]
    (Seq (AssignN 4 9)) BadAlloc _ _ _ _) _ _); met_v.
Qed.
