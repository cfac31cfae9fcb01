(** The property theorems of small_vector: C07 - C15.

    Parameters of every theorem: the element type [V], what a moved-from element looks like
    [moved], StaticCapacity [SC], RevertToStaticBelow [RB] (the code asserts
    RB <= SC + 1), and the largest allocation [maxn] the allocator grants. *)
From Coq Require Import List Arith NArith ZArith Lia.
From Verif Require Import Base SeqSpec VecCommon SmallVectorModel SmallVectorSpec SmallVectorProofs.
Import ListNotations.

(** States for the examples: two elements in the static buffer of three, three there, and three
    and two in a dynamic block. *)
Definition ex_sta f : @vec nat := mkVec [Blk [Live 5; Live 6; Raw]] 0 (0, 2) 3 f.
Definition ex_full f : @vec nat := mkVec [Blk [Live 5; Live 6; Live 7]] 0 (0, 3) 3 f.
Definition ex_dyn f : @vec nat :=
  mkVec [Blk [Raw; Raw; Raw]; Freed; Blk [Live 5; Live 6; Live 7; Raw]] 2 (2, 3) 4 f.
Definition ex_dyn2 f : @vec nat :=
  mkVec [Blk [Raw; Raw; Raw]; Freed; Blk [Live 5; Live 6; Raw; Raw]] 2 (2, 2) 4 f.
(** Shows that they meet the hypotheses. *)
Ltac met_v :=
  try reflexivity; try discriminate; try solve [unfold room; cbn; lia]; try solve [cbn; intuition lia];
  unfold holds, small_ok, room; cbn; repeat split; auto; try lia; try discriminate;
  try (let j := fresh in intros j; do 3 (destruct j as [|j]; [intros; try reflexivity; lia|]); intros; lia).

(** * C07: small_vector is a sequence, whatever buffer it is in *)

(** Any number of vectors, any history of calls on them.  Calls left out (see
    [small_ok]): empty insertions and erases before the end, which are undefined (C12), and
    results larger than the allocator can hold (C14). *)
Theorem C07_small_vector_histories :
  forall (V : Type) (moved : V -> V) (dflt : V) (SC RB : nat) (maxn : N),
  0 < SC -> RB <= SC + 1 -> (maxn < two63)%N ->
  forall (n : nat) (os : list smallsys),
  small_sys_along dflt maxn (repeat [] n) os ->
  exists st,
    run_calls (sys_call moved dflt SC RB maxn) (repeat (init_vec SC) n) os =
      Some (st, snd (small_sys_run dflt (repeat [] n) os)) /\
    Forall2 (holds SC) st (fst (small_sys_run dflt (repeat [] n) os)).
Proof. exact @history_fact. Qed.
Print Assumptions C07_small_vector_histories.

(** A history which goes to dynamic storage and back. *)
Definition sample_history : list (@smallsys nat) :=
  [On 0 (Seq (AssignRange [1; 2; 3])); On 0 (Seq (Insert 1 7)); On 0 (Reserve 9);
   CopyAssign 1 0; On 1 (Seq (EraseRange 0 3)); On 0 ShrinkToFit; MoveAssign 1 0;
   On 1 (Seq (Erase 9)); On 1 (Seq PopBack); MoveAssign 0 0; On 1 (Seq (Resize 6));
   On 1 RevertToStatic].

Example C07_case :
  small_sys_along 0 1000%N (repeat [] 2) sample_history /\
  small_sys_run 0 (repeat [] 2) sample_history =
  ([[]; [1; 7; 2; 0; 0; 0]],
   [RNone; RPos 1; RNone; RNone; RPos 0; RNone; RNone; RThrow OutOfRange; RNone; RNone;
    RNone; RNone]).
Proof.
  split; [|reflexivity]. unfold sample_history. meets; unfold room; cbn; lia.
Qed.

Theorem C07_small_vector_call :
  forall (V : Type) (moved : V -> V) (dflt : V) (SC RB : nat) (maxn : N),
  0 < SC -> RB <= SC + 1 -> (maxn < two63)%N ->
  forall s xs o,
  holds SC s xs -> vfuse s = None -> small_ok maxn xs o ->
  exists s',
    observe (call moved dflt SC RB maxn o s) = Some (s', snd (small_step dflt xs o)) /\
    holds SC s' (fst (small_step dflt xs o)) /\ vfuse s' = None.
Proof. exact @call_spec. Qed.
Print Assumptions C07_small_vector_call.

Example C07_call_met :
  exists s',
    observe (call (fun v => v) 0 3 2 1000%N (Seq (InsertRange 1 [8; 9])) (ex_dyn None)) = Some (s', RPos 1) /\
    holds 3 s' [5; 8; 9; 6; 7] /\ vfuse s' = None.
Proof.
  refine (C07_small_vector_call nat _ 0 3 2 1000%N _ _ _ (ex_dyn None) [5; 6; 7] (Seq (InsertRange 1 [8; 9])) _ _ _);
    met_v.
Qed.


Theorem C07_small_vector_copy_construct :
  forall (V : Type) (SC RB : nat) (maxn : N),
  0 < SC -> RB <= SC + 1 -> (maxn < two63)%N ->
  forall (b : @vec V) ys,
  holds SC b ys -> room maxn (length ys) ->
  exists a, copy_construct SC RB maxn b = Ok tt (a, b) /\ holds SC a ys /\ vfuse a = None.
Proof. exact @copy_construct_spec. Qed.
Print Assumptions C07_small_vector_copy_construct.

Example C07_copy_construct_met :
  exists a, copy_construct 3 2 1000%N (ex_dyn None) = Ok tt (a, ex_dyn None) /\ holds 3 a [5; 6; 7] /\ vfuse a = None.
Proof. apply C07_small_vector_copy_construct; met_v. Qed.


Theorem C07_small_vector_move_construct :
  forall (V : Type) (moved : V -> V) (SC RB : nat) (maxn : N),
  0 < SC -> RB <= SC + 1 -> (maxn < two63)%N ->
  forall (b : @vec V) ys,
  holds SC b ys ->
  exists a b', move_construct moved SC b = Ok tt (a, b') /\
    holds SC a ys /\ holds SC b' [] /\ vfuse a = None /\ vfuse b' = vfuse b.
Proof. exact @move_construct_spec. Qed.
Print Assumptions C07_small_vector_move_construct.

Example C07_move_construct_met :
  exists a b', move_construct (fun _ => 0) 3 (ex_dyn None) = Ok tt (a, b') /\
    holds 3 a [5; 6; 7] /\ holds 3 b' [] /\ vfuse a = None /\ vfuse b' = None.
Proof. refine (C07_small_vector_move_construct nat _ 3 2 1000%N _ _ _ (ex_dyn None) [5; 6; 7] _); met_v. Qed.


Theorem C07_small_vector_equality :
  forall (V : Type) (SC RB : nat) (maxn : N),
  0 < SC -> RB <= SC + 1 -> (maxn < two63)%N ->
  forall (eqb : V -> V -> bool) (a b : @vec V) xs ys,
  holds SC a xs -> holds SC b ys ->
  (forall x y, eqb x y = true <-> x = y) ->
  exists r, equal eqb (a, b) = Ok r (a, b) /\ (r = true <-> xs = ys).
Proof. exact @equal_spec. Qed.
Print Assumptions C07_small_vector_equality.

Example C07_equality_met :
  exists r, equal Nat.eqb (ex_dyn None, ex_sta None) = Ok r (ex_dyn None, ex_sta None) /\
    (r = true <-> [5; 6; 7] = [5; 6]).
Proof.
  refine (C07_small_vector_equality nat 3 2 1000%N _ _ _ Nat.eqb (ex_dyn None) (ex_sta None) [5; 6; 7] [5; 6] _ _ Nat.eqb_eq);
    met_v.
Qed.


(** States the hypotheses speak of: one in the static buffer, one in a dynamic block. *)
Example static_state :
  holds 3 (mkVec [Blk [Live 5; Live 6; Raw]] 0 (0, 2) 3 None) [5; 6].
Proof.
  unfold holds; cbn. repeat split; auto; try lia.
Qed.
Example dynamic_state :
  holds 3 (mkVec [Blk [Raw; Raw; Raw]; Freed; Blk [Live 5; Live 6; Live 7; Raw]] 2 (2, 3) 4 None)
    [5; 6; 7].
Proof.
  unfold holds; cbn. repeat split; auto; try lia. intros [|[|[|j]]] H1 H2 H3; try lia. reflexivity.
Qed.

(** * C08: element lifetimes are exact *)
Theorem C08_small_vector_lifetimes :
  forall (V : Type) (moved : V -> V) (dflt : V) (SC RB : nat) (maxn : N),
  0 < SC -> RB <= SC + 1 -> (maxn < two63)%N ->
  forall (n : nat) (os : list smallsys),
  small_sys_along dflt maxn (repeat [] n) os ->
  exists st rs,
    run_calls (sys_call moved dflt SC RB maxn) (repeat (init_vec SC) n) os = Some (st, rs) /\
    forall s, In s st -> exactly_current_alive s.
Proof. exact @history_lifetimes_fact. Qed.
Print Assumptions C08_small_vector_lifetimes.

Example C08_met :
  exists st rs,
    run_calls (sys_call (fun v => v) 0 2 1 1000%N) (repeat (init_vec 2) 2) sample_history = Some (st, rs) /\
    forall s, In s st -> exactly_current_alive s.
Proof. apply C08_small_vector_lifetimes; [lia..|reflexivity|apply C07_case]. Qed.


(** * C09: storage is balanced *)

(** deallocate is undefined in the model unless it is given a block which is still
    allocated, with the right capacity and with nothing alive in it; so a history which runs
    through has given back each block at most once.  Between calls at most the current
    block is held, and the destructor gives that back too. *)
Theorem C09_small_vector_storage :
  forall (V : Type) (moved : V -> V) (dflt : V) (SC RB : nat) (maxn : N),
  0 < SC -> RB <= SC + 1 -> (maxn < two63)%N ->
  forall (n : nat) (os : list smallsys),
  small_sys_along dflt maxn (repeat [] n) os ->
  exists st rs,
    run_calls (sys_call moved dflt SC RB maxn) (repeat (init_vec SC) n) os = Some (st, rs) /\
    forall s, In s st -> one_block s /\
      exists s', destructor s = Ok tt s' /\ all_released SC s'.
Proof. exact @history_storage_fact. Qed.
Print Assumptions C09_small_vector_storage.

Example C09_met :
  exists st rs,
    run_calls (sys_call (fun v => v) 0 2 1 1000%N) (repeat (init_vec 2) 2) sample_history = Some (st, rs) /\
    forall s, In s st -> one_block s /\ exists s', destructor s = Ok tt s' /\ all_released 2 s'.
Proof. apply C09_small_vector_storage; [lia..|reflexivity|apply C07_case]. Qed.


(** The state in which that history ends: the second vector is in a dynamic block. *)
Example C08_C09_case :
  match run_calls (sys_call (fun v => v) 0 2 1 1000%N) (repeat (init_vec 2) 2) sample_history with
  | Some ([a; b], _) => vb a = 0 /\ vb b <> 0 /\ vcap b = 6
  | _ => False
  end.
Proof. vm_compute. repeat split; discriminate. Qed.

(** * C10: revert_to_static tells the truth *)

(** False as stated: with exactly StaticCapacity elements in a dynamic block it answers
    true and stays dynamic, always. *)
Theorem C10_revert_to_static_refuted :
  forall (V : Type) (moved : V -> V) (SC RB : nat) (maxn : N),
  0 < SC -> RB <= SC + 1 -> (maxn < two63)%N ->
  forall (s : @vec V) xs,
  holds SC s xs -> room maxn (length xs) -> vb s <> 0 -> length xs = SC ->
  exists s', revert_to_static moved SC maxn s = Ok true s' /\ vb s' <> 0.
Proof. exact @revert_wrong. Qed.
Print Assumptions C10_revert_to_static_refuted.

Example C10_refuting_case :
  exists s, run_calls (sys_call (fun v => v) 0 3 0 1000%N) [init_vec 3]
    [On 0 (Seq (AssignRange [1; 2; 3; 4])); On 0 (Seq PopBack)] = Some ([s], [RNone; RNone]) /\
    holds 3 s [1; 2; 3] /\ vb s <> 0.
Proof.
  exists (mkVec [Blk [Raw; Raw; Raw]; Blk [Live 1; Live 2; Live 3; Raw]] 1 (1, 3) 4 None).
  split; [vm_compute; reflexivity|]. split; [|discriminate].
  unfold holds; cbn. repeat split; auto; try lia.
Qed.

(** What holds: exactly when it answers true, and exactly when it ends up static; the two
    agree unless size() = StaticCapacity.  The content is never changed.
    Missing: size() = StaticCapacity while dynamic. *)
Theorem C10_revert_to_static_partial :
  forall (V : Type) (moved : V -> V) (SC RB : nat) (maxn : N),
  0 < SC -> RB <= SC + 1 -> (maxn < two63)%N ->
  forall (s : @vec V) xs,
  holds SC s xs -> room maxn (length xs) ->
  exists r s', revert_to_static moved SC maxn s = Ok r s' /\ holds SC s' xs /\
    vfuse s' = vfuse s /\
    (r = true <-> (vb s = 0 \/ length xs <= SC)) /\
    (vb s' = 0 <-> (vb s = 0 \/ length xs < SC)).
Proof. exact @revert_spec. Qed.
Print Assumptions C10_revert_to_static_partial.

(** Two elements in a block of four go back, three would fit but stay. *)
Example C10_revert_met :
  (exists r s', revert_to_static (fun v => v) 3 1000%N (ex_dyn2 None) = Ok r s' /\ holds 3 s' [5; 6] /\
     vfuse s' = None /\ (r = true <-> (2 = 0 \/ 2 <= 3)) /\ (vb s' = 0 <-> (2 = 0 \/ 2 < 3))) /\
  (exists r s', revert_to_static (fun v => v) 3 1000%N (ex_dyn None) = Ok r s' /\ holds 3 s' [5; 6; 7] /\
     vfuse s' = None /\ (r = true <-> (2 = 0 \/ 3 <= 3)) /\ (vb s' = 0 <-> (2 = 0 \/ 3 < 3))).
Proof.
  split.
  - refine (C10_revert_to_static_partial nat _ 3 2 1000%N _ _ _ (ex_dyn2 None) [5; 6] _ _); met_v.
  - refine (C10_revert_to_static_partial nat _ 3 2 1000%N _ _ _ (ex_dyn None) [5; 6; 7] _ _); met_v.
Qed.


(** shrink_to_fit: answers true exactly when it changed the buffer; afterwards the buffer is
    the static one or fits exactly. *)
Theorem C10_shrink_to_fit :
  forall (V : Type) (moved : V -> V) (SC RB : nat) (maxn : N),
  0 < SC -> RB <= SC + 1 -> (maxn < two63)%N ->
  forall (s : @vec V) xs,
  holds SC s xs -> room maxn (length xs) ->
  exists r s', shrink_to_fit moved SC maxn s = Ok r s' /\ holds SC s' xs /\ vfuse s' = vfuse s /\
    (r = false -> s' = s) /\
    (r = true <-> (vb s <> 0 /\ length xs <> vcap s)) /\
    (r = true -> (length xs < SC -> vb s' = 0) /\
                 (SC <= length xs -> vb s' <> 0 /\ vcap s' = length xs)).
Proof. exact @shrink_to_fit_spec. Qed.
Print Assumptions C10_shrink_to_fit.

Example C10_shrink_met :
  exists r s', shrink_to_fit (fun v => v) 3 1000%N (ex_dyn None) = Ok r s' /\ holds 3 s' [5; 6; 7] /\ vfuse s' = None /\
    (r = false -> s' = ex_dyn None) /\
    (r = true <-> (2 <> 0 /\ 3 <> 4)) /\
    (r = true -> (3 < 3 -> vb s' = 0) /\ (3 <= 3 -> vb s' <> 0 /\ vcap s' = 3)).
Proof. refine (C10_shrink_to_fit nat _ 3 2 1000%N _ _ _ (ex_dyn None) [5; 6; 7] _ _); met_v. Qed.


(** * C11: capacity guarantees *)

(** False as stated: see C11_reserve_refuted in SmallBufProps.v. *)

(** What holds: reserve gives the capacity and keeps the content; afterwards insertions
    which fit stay in place, if the vector is static or its new size is at least
    RevertToStaticBelow.  Missing: smaller sizes while dynamic. *)
Theorem C11_reserve_partial :
  forall (V : Type) (moved : V -> V) (SC RB : nat) (maxn : N),
  0 < SC -> RB <= SC + 1 -> (maxn < two63)%N ->
  forall (s : @vec V) xs n,
  holds SC s xs -> room maxn n ->
  exists s', reserve moved SC RB maxn (N.of_nat n) s = Ok tt s' /\ holds SC s' xs /\
    n <= vcap s' /\ vcap s <= vcap s' /\ length xs <= vcap s'.
Proof. exact @reserve_fact. Qed.
Print Assumptions C11_reserve_partial.

Example C11_reserve_met :
  exists s', reserve (fun v => v) 3 2 1000%N 9%N (ex_sta None) = Ok tt s' /\ holds 3 s' [5; 6] /\
    9 <= vcap s' /\ 3 <= vcap s' /\ 2 <= vcap s'.
Proof. refine (C11_reserve_partial nat _ 3 2 1000%N _ _ _ (ex_sta None) [5; 6] 9 _ _); met_v. Qed.


Theorem C11_push_back_in_place_partial :
  forall (V : Type) (moved : V -> V) (SC RB : nat) (maxn : N),
  0 < SC -> RB <= SC + 1 -> (maxn < two63)%N ->
  forall (s : @vec V) xs v,
  holds SC s xs -> vfuse s = None -> room maxn (length xs + 1) ->
  length xs + 1 <= vcap s -> (vb s = 0 \/ RB <= length xs + 1) ->
  exists s', push_back moved SC RB maxn (CopyOf v) s = Ok tt s' /\ vb s' = vb s /\ vcap s' = vcap s.
Proof. exact @reserve_then_push. Qed.
Print Assumptions C11_push_back_in_place_partial.

Example C11_push_back_met :
  exists s', push_back (fun v => v) 3 2 1000%N (CopyOf 9) (ex_dyn None) = Ok tt s' /\ vb s' = 2 /\ vcap s' = 4.
Proof. refine (C11_push_back_in_place_partial nat _ 3 2 1000%N _ _ _ (ex_dyn None) [5; 6; 7] 9 _ _ _ _ _); met_v. Qed.


Theorem C11_insert_in_place_partial :
  forall (V : Type) (moved : V -> V) (SC RB : nat) (maxn : N),
  0 < SC -> RB <= SC + 1 -> (maxn < two63)%N ->
  forall (s : @vec V) xs pos l,
  holds SC s xs -> vfuse s = None -> pos <= length xs -> l <> [] ->
  room maxn (length xs + length l) ->
  length xs + length l <= vcap s -> (vb s = 0 \/ RB <= length xs + length l) ->
  exists s', insert_range moved SC RB maxn (Z.of_nat pos) l s = Ok pos s' /\
    vb s' = vb s /\ vcap s' = vcap s.
Proof. exact @reserve_then_insert. Qed.
Print Assumptions C11_insert_in_place_partial.

Example C11_insert_met :
  exists s', insert_range (fun v => v) 3 4 1000%N 1%Z [8; 9] (ex_dyn2 None) = Ok 1 s' /\ vb s' = 2 /\ vcap s' = 4.
Proof. refine (C11_insert_in_place_partial nat _ 3 4 1000%N _ _ _ (ex_dyn2 None) [5; 6] 1 [8; 9] _ _ _ _ _ _ _); met_v. Qed.


(** * C12: an empty range does nothing *)

(** False as stated: before the end, unless the elements are about to move back to the
    static buffer, both are undefined behaviour. *)
Theorem C12_small_vector_empty_insert_refuted :
  forall (V : Type) (moved : V -> V) (SC RB : nat) (maxn : N),
  0 < SC -> RB <= SC + 1 -> (maxn < two63)%N ->
  forall (s : @vec V) xs pos x,
  holds SC s xs -> pos < length xs -> room maxn (length xs) ->
  (vb s = 0 \/ RB <= length xs) ->
  insert_n moved SC RB maxn (Z.of_nat pos) 0%N x s = UB /\
  insert_range moved SC RB maxn (Z.of_nat pos) [] s = UB.
Proof. exact @empty_insert_ub_fact. Qed.
Print Assumptions C12_small_vector_empty_insert_refuted.

Example C12_empty_insert_met :
  insert_n (fun v => v) 3 2 1000%N 1%Z 0%N (CopyOf 9) (ex_dyn None) = UB /\
  insert_range (fun v => v) 3 2 1000%N 1%Z [] (ex_dyn None) = UB.
Proof.
  refine (C12_small_vector_empty_insert_refuted nat _ 3 2 1000%N _ _ _ (ex_dyn None) [5; 6; 7] 1 (CopyOf 9) _ _ _ _); met_v.
Qed.


Theorem C12_small_vector_empty_erase_refuted :
  forall (V : Type) (moved : V -> V) (SC RB : nat) (maxn : N),
  0 < SC -> RB <= SC + 1 -> (maxn < two63)%N ->
  forall (s : @vec V) xs pos,
  holds SC s xs -> pos < length xs -> (vb s = 0 \/ RB <= length xs) ->
  erase_range moved SC RB maxn (Z.of_nat pos) (Z.of_nat pos) s = UB.
Proof. exact @empty_erase_ub. Qed.
Print Assumptions C12_small_vector_empty_erase_refuted.

Example C12_refuting_case :
  erase_range (fun v => v) 3 0 1000%N 1%Z 1%Z (mkVec [Blk [Live 5; Live 6; Raw]] 0 (0, 2) 3 None) = UB /\
  insert_range (fun v => v) 3 0 1000%N 1%Z [] (mkVec [Blk [Live 5; Live 6; Raw]] 0 (0, 2) 3 None) = UB.
Proof. split; reflexivity. Qed.

(** What holds: at the end, and in the remaining case before it.
    Missing: the two cases above. *)
Theorem C12_small_vector_empty_partial :
  forall (V : Type) (moved : V -> V) (SC RB : nat) (maxn : N),
  0 < SC -> RB <= SC + 1 -> (maxn < two63)%N ->
  forall (s : @vec V) xs pos v,
  holds SC s xs -> vfuse s = None -> pos <= length xs -> room maxn (length xs) ->
  (pos = length xs \/ ~ (vb s = 0 \/ RB <= length xs)) ->
  (exists s', insert_n moved SC RB maxn (Z.of_nat pos) 0%N (CopyOf v) s = Ok pos s' /\ holds SC s' xs) /\
  (exists s', insert_range moved SC RB maxn (Z.of_nat pos) [] s = Ok pos s' /\ holds SC s' xs) /\
  (exists s', erase_range moved SC RB maxn (Z.of_nat pos) (Z.of_nat pos) s = Ok pos s' /\ holds SC s' xs).
Proof. exact @empty_ok_fact. Qed.
Print Assumptions C12_small_vector_empty_partial.

(** In a dynamic block, with fewer elements than RevertToStaticBelow. *)
Example C12_empty_met :
  (exists s', insert_n (fun v => v) 3 4 1000%N 1%Z 0%N (CopyOf 9) (ex_dyn None) = Ok 1 s' /\ holds 3 s' [5; 6; 7]) /\
  (exists s', insert_range (fun v => v) 3 4 1000%N 1%Z [] (ex_dyn None) = Ok 1 s' /\ holds 3 s' [5; 6; 7]) /\
  (exists s', erase_range (fun v => v) 3 4 1000%N 1%Z 1%Z (ex_dyn None) = Ok 1 s' /\ holds 3 s' [5; 6; 7]).
Proof.
  refine (C12_small_vector_empty_partial nat _ 3 4 1000%N _ _ _ (ex_dyn None) [5; 6; 7] 1 9 _ _ _ _ _); met_v.
Qed.


(** * C13: an element of the vector itself as the argument *)

(** False as stated: whenever the call moves the elements to another buffer, it reads a
    destroyed element. *)
Theorem C13_small_vector_push_back_own_refuted :
  forall (V : Type) (moved : V -> V) (SC RB : nat) (maxn : N),
  0 < SC -> RB <= SC + 1 -> (maxn < two63)%N ->
  forall (s : @vec V) xs k,
  holds SC s xs -> k < length xs -> room maxn (length xs + 1) ->
  (vcap s < length xs + 1 \/ (vb s <> 0 /\ length xs + 1 < RB)) ->
  push_back moved SC RB maxn (CopyRef (vb s, k)) s = UB.
Proof. exact @push_back_own_moved. Qed.
Print Assumptions C13_small_vector_push_back_own_refuted.

Example C13_push_back_own_met : push_back (fun v => v) 3 2 1000%N (CopyRef (0, 1)) (ex_full None) = UB.
Proof.
  refine (C13_small_vector_push_back_own_refuted nat _ 3 2 1000%N _ _ _ (ex_full None) [5; 6; 7] 1 _ _ _ _); met_v.
Qed.


Theorem C13_small_vector_insert_own_refuted :
  forall (V : Type) (moved : V -> V) (SC RB : nat) (maxn : N),
  0 < SC -> RB <= SC + 1 -> (maxn < two63)%N ->
  forall (s : @vec V) xs pos k,
  holds SC s xs -> pos <= length xs -> k < length xs -> room maxn (length xs + 1) ->
  (vcap s < length xs + 1 \/ (vb s <> 0 /\ length xs + 1 < RB)) ->
  insert1 moved SC RB maxn (Z.of_nat pos) (CopyRef (vb s, k)) s = UB.
Proof. exact @insert_own_moved. Qed.
Print Assumptions C13_small_vector_insert_own_refuted.

Example C13_insert_own_met : insert1 (fun v => v) 3 2 1000%N 2%Z (CopyRef (0, 1)) (ex_full None) = UB.
Proof.
  refine (C13_small_vector_insert_own_refuted nat _ 3 2 1000%N _ _ _ (ex_full None) [5; 6; 7] 2 1 _ _ _ _ _); met_v.
Qed.


Theorem C13_small_vector_resize_own_refuted :
  forall (V : Type) (moved : V -> V) (SC RB : nat) (maxn : N),
  0 < SC -> RB <= SC + 1 -> (maxn < two63)%N ->
  forall (s : @vec V) xs n k,
  holds SC s xs -> k < length xs -> room maxn n -> vcap s < n ->
  resize_val moved SC RB maxn (N.of_nat n) (CopyRef (vb s, k)) s = UB.
Proof. exact @resize_own_moved. Qed.
Print Assumptions C13_small_vector_resize_own_refuted.

Example C13_resize_own_met : resize_val (fun v => v) 3 2 1000%N 8%N (CopyRef (0, 1)) (ex_full None) = UB.
Proof.
  refine (C13_small_vector_resize_own_refuted nat _ 3 2 1000%N _ _ _ (ex_full None) [5; 6; 7] 8 1 _ _ _ _); met_v.
Qed.


Example C13_refuting_case :
  push_back (fun v => v) 2 0 1000%N (CopyRef (0, 0)) (mkVec [Blk [Live 5; Live 6]] 0 (0, 2) 2 None) = UB.
Proof. reflexivity. Qed.

(** While the elements stay where they are: push_back and resize are right; insert is right
    for elements before the position, undefined for the one at it and takes the previous
    element after it.  Missing: everything else. *)
Theorem C13_small_vector_push_back_own_partial :
  forall (V : Type) (moved : V -> V) (SC RB : nat) (maxn : N),
  0 < SC -> RB <= SC + 1 -> (maxn < two63)%N ->
  forall (s : @vec V) xs k v,
  holds SC s xs -> vfuse s = None -> nth_error xs k = Some v -> room maxn (length xs + 1) ->
  length xs + 1 <= vcap s -> (vb s = 0 \/ RB <= length xs + 1) ->
  exists s', push_back moved SC RB maxn (CopyRef (vb s, k)) s = Ok tt s' /\ holds SC s' (xs ++ [v]).
Proof. exact @push_back_own_stay. Qed.
Print Assumptions C13_small_vector_push_back_own_partial.

Example C13_push_back_own_stay_met :
  exists s', push_back (fun v => v) 3 2 1000%N (CopyRef (2, 1)) (ex_dyn None) = Ok tt s' /\ holds 3 s' [5; 6; 7; 6].
Proof.
  refine (C13_small_vector_push_back_own_partial nat _ 3 2 1000%N _ _ _ (ex_dyn None) [5; 6; 7] 1 6 _ _ _ _ _ _); met_v.
Qed.


Theorem C13_small_vector_resize_own_partial :
  forall (V : Type) (moved : V -> V) (SC RB : nat) (maxn : N),
  0 < SC -> RB <= SC + 1 -> (maxn < two63)%N ->
  forall (s : @vec V) xs n k v,
  holds SC s xs -> vfuse s = None -> nth_error xs k = Some v -> room maxn n -> n <= vcap s ->
  exists s', resize_val moved SC RB maxn (N.of_nat n) (CopyRef (vb s, k)) s = Ok tt s' /\
    holds SC s' (resize_to xs n v).
Proof. exact @resize_own_stay. Qed.
Print Assumptions C13_small_vector_resize_own_partial.

Example C13_resize_own_stay_met :
  exists s', resize_val (fun v => v) 3 2 1000%N 4%N (CopyRef (2, 1)) (ex_dyn None) = Ok tt s' /\ holds 3 s' [5; 6; 7; 6].
Proof.
  refine (C13_small_vector_resize_own_partial nat _ 3 2 1000%N _ _ _ (ex_dyn None) [5; 6; 7] 4 1 6 _ _ _ _ _); met_v.
Qed.


Theorem C13_small_vector_insert_own_in_place_partial :
  forall (V : Type) (moved : V -> V) (SC RB : nat) (maxn : N),
  0 < SC -> RB <= SC + 1 -> (maxn < two63)%N ->
  forall (s : @vec V) xs pos k,
  holds SC s xs -> vfuse s = None -> pos <= length xs -> k < length xs ->
  room maxn (length xs + 1) ->
  length xs + 1 <= vcap s -> (vb s = 0 \/ RB <= length xs + 1) ->
  (k < pos -> exists v s', nth_error xs k = Some v /\
     insert1 moved SC RB maxn (Z.of_nat pos) (CopyRef (vb s, k)) s = Ok pos s' /\
     holds SC s' (insert_at xs pos [v])) /\
  (k = pos -> insert1 moved SC RB maxn (Z.of_nat pos) (CopyRef (vb s, k)) s = UB) /\
  (pos < k -> exists w s', nth_error xs (k - 1) = Some w /\
     insert1 moved SC RB maxn (Z.of_nat pos) (CopyRef (vb s, k)) s = Ok pos s' /\
     holds SC s' (insert_at xs pos [w])).
Proof. exact @insert_own_stay. Qed.
Print Assumptions C13_small_vector_insert_own_in_place_partial.

(** insert(begin() + 1, v[2]): the element put in is v[1]. *)
Example C13_insert_own_in_place_met :
  exists s', insert1 (fun v => v) 3 2 1000%N 1%Z (CopyRef (2, 2)) (ex_dyn None) = Ok 1 s' /\ holds 3 s' [5; 6; 6; 7].
Proof.
  destruct (C13_small_vector_insert_own_in_place_partial nat (fun v => v) 3 2 1000%N ltac:(met_v) ltac:(met_v)
              ltac:(met_v) (ex_dyn None) [5; 6; 7] 1 2 ltac:(met_v) ltac:(met_v) ltac:(met_v) ltac:(met_v)
              ltac:(met_v) ltac:(met_v) ltac:(met_v)) as (_ & _ & H).
  destruct (H ltac:(lia)) as (w & s' & E1 & E2 & E3). injection E1 as <-. eauto.
Qed.


(** * C14: exceptions leave a vector which can be destroyed *)

(** False as stated: if the constructor of the new element throws in push_back or insert,
    destroying the vector is undefined behaviour, in every state. *)
Theorem C14_small_vector_push_back_throw_refuted :
  forall (V : Type) (moved : V -> V) (SC RB : nat) (maxn : N),
  0 < SC -> RB <= SC + 1 -> (maxn < two63)%N ->
  forall (s : @vec V) xs v,
  holds SC s xs -> vfuse s = Some 0 -> room maxn (length xs + 1) ->
  exists s', push_back moved SC RB maxn (CopyOf v) s = Throw ElemThrow s' /\ destructor s' = UB.
Proof. exact @push_back_throw_ub. Qed.
Print Assumptions C14_small_vector_push_back_throw_refuted.

Example C14_push_back_throw_met :
  exists s', push_back (fun v => v) 3 2 1000%N (CopyOf 9) (ex_dyn (Some 0)) = Throw ElemThrow s' /\ destructor s' = UB.
Proof.
  refine (C14_small_vector_push_back_throw_refuted nat _ 3 2 1000%N _ _ _ (ex_dyn (Some 0)) [5; 6; 7] 9 _ _ _); met_v.
Qed.


Theorem C14_small_vector_insert_throw_refuted :
  forall (V : Type) (moved : V -> V) (SC RB : nat) (maxn : N),
  0 < SC -> RB <= SC + 1 -> (maxn < two63)%N ->
  forall (s : @vec V) xs pos v,
  holds SC s xs -> vfuse s = Some 0 -> pos <= length xs -> room maxn (length xs + 1) ->
  exists s', insert1 moved SC RB maxn (Z.of_nat pos) (CopyOf v) s = Throw ElemThrow s' /\
    destructor s' = UB.
Proof. exact @insert_throw_ub. Qed.
Print Assumptions C14_small_vector_insert_throw_refuted.

Example C14_insert_throw_met :
  exists s', insert1 (fun v => v) 3 2 1000%N 1%Z (CopyOf 9) (ex_dyn (Some 0)) = Throw ElemThrow s' /\ destructor s' = UB.
Proof.
  refine (C14_small_vector_insert_throw_refuted nat _ 3 2 1000%N _ _ _ (ex_dyn (Some 0)) [5; 6; 7] 1 9 _ _ _ _); met_v.
Qed.


(** The same for assign, and so for copy assignment and for the constructors (which run the
    destructor after the delegated constructor), when another buffer is needed. *)
Theorem C14_small_vector_assign_throw_refuted :
  forall (V : Type) (SC RB : nat) (maxn : N),
  0 < SC -> RB <= SC + 1 -> (maxn < two63)%N ->
  forall (s : @vec V) xs l k,
  holds SC s xs -> vfuse s = Some k -> k < length l -> room maxn (length l) ->
  (vcap s < length l \/ (vb s <> 0 /\ length l < RB)) ->
  exists s', assign_range SC RB maxn l s = Throw ElemThrow s' /\ destructor s' = UB.
Proof. exact @assign_throw_move. Qed.
Print Assumptions C14_small_vector_assign_throw_refuted.

Example C14_assign_throw_met :
  exists s', assign_range 3 2 1000%N [1; 2; 3; 4] (ex_sta (Some 2)) = Throw ElemThrow s' /\ destructor s' = UB.
Proof.
  refine (C14_small_vector_assign_throw_refuted nat 3 2 1000%N _ _ _ (ex_sta (Some 2)) [5; 6] [1; 2; 3; 4] 2 _ _ _ _ _); met_v.
Qed.


(** A failed allocation in assign: the old elements are destroyed but still counted. *)
Theorem C14_small_vector_assign_alloc_refuted :
  forall (V : Type) (SC RB : nat) (maxn : N),
  0 < SC -> RB <= SC + 1 -> (maxn < two63)%N ->
  forall (s : @vec V) xs l,
  holds SC s xs -> xs <> [] -> vb s = 0 -> SC < length l -> (maxn < N.of_nat (length l))%N ->
  exists s', assign_range SC RB maxn l s = Throw BadAlloc s' /\ destructor s' = UB.
Proof. exact @assign_alloc_ub. Qed.
Print Assumptions C14_small_vector_assign_alloc_refuted.

Example C14_assign_alloc_met :
  exists s', assign_range 3 2 3%N [1; 2; 3; 4] (ex_sta None) = Throw BadAlloc s' /\ destructor s' = UB.
Proof.
  refine (C14_small_vector_assign_alloc_refuted nat 3 2 3%N _ _ _ (ex_sta None) [5; 6] [1; 2; 3; 4] _ _ _ _ _); met_v.
Qed.


Example C14_refuting_case :
  match push_back (fun v => v) 2 0 1000%N (CopyOf 7)
          (mkVec [Blk [Live 5; Raw]] 0 (0, 1) 2 (Some 0)) with
  | Throw ElemThrow s' => destructor s' = UB /\ ve s' = (0, 2)
  | _ => False
  end.
Proof. split; reflexivity. Qed.

(** What holds: assign in the same buffer leaves a prefix of the new contents; a failed
    allocation (or a bad position) in push_back, insert or reserve changes nothing.
    Missing: the cases above. *)
Theorem C14_small_vector_assign_in_place_partial :
  forall (V : Type) (SC RB : nat) (maxn : N),
  0 < SC -> RB <= SC + 1 -> (maxn < two63)%N ->
  forall (s : @vec V) xs l k,
  holds SC s xs -> vfuse s = Some k -> k < length l ->
  length l <= vcap s -> (vb s = 0 \/ RB <= length l) ->
  exists s', assign_range SC RB maxn l s = Throw ElemThrow s' /\ holds SC s' (firstn k l).
Proof. exact @assign_throw_stay. Qed.
Print Assumptions C14_small_vector_assign_in_place_partial.

Example C14_assign_in_place_met :
  exists s', assign_range 3 2 1000%N [1; 2; 3] (ex_sta (Some 2)) = Throw ElemThrow s' /\ holds 3 s' [1; 2].
Proof.
  refine (C14_small_vector_assign_in_place_partial nat 3 2 1000%N _ _ _ (ex_sta (Some 2)) [5; 6] [1; 2; 3] 2 _ _ _ _ _); met_v.
Qed.


Theorem C14_small_vector_push_back_alloc_partial :
  forall (V : Type) (moved : V -> V) (SC RB : nat) (maxn : N) x (s : @vec V) e s',
  push_back moved SC RB maxn x s = Throw e s' -> e <> ElemThrow -> s' = s.
Proof. exact @push_back_alloc_strong. Qed.
Print Assumptions C14_small_vector_push_back_alloc_partial.

Theorem C14_small_vector_insert_alloc_partial :
  forall (V : Type) (moved : V -> V) (SC RB : nat) (maxn : N) position x (s : @vec V) e s',
  insert1 moved SC RB maxn position x s = Throw e s' -> e <> ElemThrow -> s' = s.
Proof. exact @insert_alloc_strong. Qed.
Print Assumptions C14_small_vector_insert_alloc_partial.

Theorem C14_small_vector_reserve_alloc_partial :
  forall (V : Type) (moved : V -> V) (SC RB : nat) (maxn n : N) (s : @vec V) e s',
  reserve moved SC RB maxn n s = Throw e s' -> s' = s.
Proof. exact @reserve_alloc_strong. Qed.
Print Assumptions C14_small_vector_reserve_alloc_partial.

Example C14_alloc_case :
  push_back (fun v => v) 2 0 2%N (CopyOf 7) (mkVec [Blk [Live 5; Live 6]] 0 (0, 2) 2 None) =
  Throw BadAlloc (mkVec [Blk [Live 5; Live 6]] 0 (0, 2) 2 None).
Proof. reflexivity. Qed.

(** * C15: growth arithmetic *)

(** The 64-bit growth loop ends, with the value plain arithmetic gives, and that value is
    large enough and at most half as large again as requested. *)
Theorem C15_growth :
  forall cap desired : N,
  (0 < cap)%N -> (3 * desired <= two64 - 1)%N ->
  exists c,
    (forall fuel, N.to_nat (desired - cap) <= fuel -> grow_cap fuel cap desired = Some c) /\
    grows cap desired c /\ (desired <= c)%N /\
    ((desired <= cap)%N -> c = cap) /\
    ((cap < desired)%N -> (c <= desired + desired / 2)%N).
Proof. exact growth_fact. Qed.
Print Assumptions C15_growth.

Example C15_case : grow_cap 20 3 100 = Some 140%N /\ (3 * 100 <= two64 - 1)%N.
Proof. split; [reflexivity|discriminate]. Qed.

(** From a capacity of zero the loop never ends. (small_vector only reaches it with
    StaticCapacity = 0, by shrink_to_fit of an empty vector.) *)
Theorem C15_growth_from_zero :
  forall (desired : N) (fuel : nat), (0 < desired)%N -> grow_cap fuel 0 desired = None.
Proof. exact growth_zero_fact. Qed.
Print Assumptions C15_growth_from_zero.

Example C15_zero_case : (0 < 1)%N. Proof. reflexivity. Qed.
