(** The property theorem about exceptions while the elements of a small_vector move: C109.

    Parameters as in SmallVectorProps. [vfuse s = Some k] says that [k] more constructions of
    elements will succeed and the next one throws. *)
From Coq Require Import List Arith NArith ZArith Lia.
From Verif Require Import Base SeqSpec VecCommon SmallVectorModel SmallVectorSpec SmallVectorProps
  SmallMoveModel SmallMoveSpec SmallMoveProofs SmallMoveAllProofs.
Import ListNotations.

Ltac met_m :=
  met_v; unfold moves, fits_tight, shifts_up, relocates, erases, moves_nothing, elsewhere, stays; cbn;
  try solve [intuition (auto; try lia; try discriminate)].

(** While no exception is due, the calls are those of SmallVectorModel. *)
Theorem C109_no_throw_same :
  forall (V : Type) (moved : V -> V) (dflt : V) (SC RB : nat) (maxn : N) o (s : @vec V),
  vfuse s = None -> xcall moved dflt SC RB maxn o s = call moved dflt SC RB maxn o s.
Proof. exact @no_throw_same. Qed.
Print Assumptions C109_no_throw_same.

Example C109_no_throw_met :
  xcall (fun v => v) 0 3 2 1000%N (Seq (Insert 1 9)) (ex_dyn None) =
  call (fun v => v) 0 3 2 1000%N (Seq (Insert 1 9)) (ex_dyn None).
Proof. exact (C109_no_throw_same nat (fun v => v) 0 3 2 1000%N (Seq (Insert 1 9)) (ex_dyn None) eq_refl). Qed.

(** False as stated.  When the elements go to another buffer and one of them throws, the
    objects made there and the buffer itself are left for ever. *)
Theorem C109_relocation_refuted :
  forall (V : Type) (moved : V -> V) (dflt : V) (SC RB : nat) (maxn : N),
  0 < SC -> RB <= SC + 1 -> (maxn < two63)%N ->
  forall o (s : @vec V) xs m k,
  holds SC s xs -> relocates RB s xs o m -> room maxn m -> vfuse s = Some k -> k < length xs ->
  0 < k \/ vcap s < m ->
  exists s' s'', xcall moved dflt SC RB maxn o s = Throw ElemThrow s' /\
    destructor s' = Ok tt s'' /\ ~ all_released SC s''.
Proof. exact @relocation_left. Qed.
Print Assumptions C109_relocation_refuted.

Example C109_relocation_refuting :
  exists s' s'',
    xcall (fun v => v) 0 3 2 1000%N (Seq (PushBack 9)) (ex_full (Some 2)) = Throw ElemThrow s' /\
    destructor s' = Ok tt s'' /\ ~ all_released 3 s''.
Proof.
  refine (C109_relocation_refuted nat _ 0 3 2 1000%N _ _ _ (Seq (PushBack 9)) (ex_full (Some 2)) [5; 6; 7] 4 2
            _ _ _ _ _ _); met_m.
Qed.

(** An insertion before the end into the buffer it is in: the vector cannot be destroyed. *)
Theorem C109_insert_refuted :
  forall (V : Type) (moved : V -> V) (dflt : V) (SC RB : nat) (maxn : N),
  0 < SC -> RB <= SC + 1 -> (maxn < two63)%N ->
  forall o (s : @vec V) xs m k,
  holds SC s xs -> shifts_up RB s xs o m -> small_ok maxn xs o -> vfuse s = Some k -> k < m ->
  exists s', xcall moved dflt SC RB maxn o s = Throw ElemThrow s' /\ destructor s' = UB.
Proof. exact @shift_fact. Qed.
Print Assumptions C109_insert_refuted.

Example C109_insert_refuting :
  exists s', xcall (fun v => v) 0 3 2 1000%N (Seq (Insert 1 9)) (ex_dyn (Some 1)) = Throw ElemThrow s' /\
    destructor s' = UB.
Proof.
  refine (C109_insert_refuted nat _ 0 3 2 1000%N _ _ _ (Seq (Insert 1 9)) (ex_dyn (Some 1)) [5; 6; 7] 2 1
            _ _ _ _ _); met_m.
Qed.

(** Erasing: the same in place, and also on the way back to the static buffer, except when
    the very first move throws and nothing was erased yet: then nothing has happened. *)
Theorem C109_erase_refuted :
  forall (V : Type) (moved : V -> V) (dflt : V) (SC RB : nat) (maxn : N),
  0 < SC -> RB <= SC + 1 -> (maxn < two63)%N ->
  forall o (s : @vec V) xs pos num k,
  holds SC s xs -> erases xs o pos num -> vfuse s = Some k ->
  (stays RB s (length xs - num) -> k < length xs - (pos + num) ->
   exists s', xcall moved dflt SC RB maxn o s = Throw ElemThrow s' /\ destructor s' = UB) /\
  (~ stays RB s (length xs - num) -> k < length xs - num -> (0 < k \/ pos = 0) ->
   exists s', xcall moved dflt SC RB maxn o s = Throw ElemThrow s' /\ destructor s' = UB) /\
  (~ stays RB s (length xs - num) -> k = 0 -> 0 < pos -> num < length xs ->
   xcall moved dflt SC RB maxn o s = Throw ElemThrow (with_fuse None s)).
Proof. exact @erase_broken. Qed.
Print Assumptions C109_erase_refuted.

Example C109_erase_refuting :
  exists s', xcall (fun v => v) 0 3 2 1000%N (Seq (Erase 0)) (ex_dyn (Some 1)) = Throw ElemThrow s' /\
    destructor s' = UB.
Proof.
  refine (proj1 (C109_erase_refuted nat _ 0 3 2 1000%N _ _ _ (Seq (Erase 0)) (ex_dyn (Some 1)) [5; 6; 7] 0 1 1
            _ _ _) _ _); met_m.
Qed.

Example C109_erase_to_static_refuting :
  exists s', xcall (fun v => v) 0 3 4 1000%N (Seq (Erase 1)) (ex_dyn (Some 1)) = Throw ElemThrow s' /\
    destructor s' = UB.
Proof.
  refine (proj1 (proj2 (C109_erase_refuted nat _ 0 3 4 1000%N _ _ _ (Seq (Erase 1)) (ex_dyn (Some 1)) [5; 6; 7]
            1 1 1 _ _ _)) _ _ _); met_m.
Qed.

(** shrink_to_fit and revert_to_static: all elements from the one which threw on are lost,
    and they and their buffer are left for ever. *)
Theorem C109_shrink_to_fit_refuted :
  forall (V : Type) (moved : V -> V) (dflt : V) (SC RB : nat) (maxn : N),
  0 < SC -> RB <= SC + 1 -> (maxn < two63)%N ->
  forall o (s : @vec V) xs k,
  holds SC s xs -> (o = ShrinkToFit \/ (o = RevertToStatic /\ length xs <= SC)) ->
  room maxn (length xs) -> vb s <> 0 -> length xs <> vcap s ->
  vfuse s = Some k -> k < length xs ->
  exists s' s'' b c,
    xcall moved dflt SC RB maxn o s = Throw ElemThrow s' /\
    in_buffer s' b c (firstn k xs) /\
    destructor s' = Ok tt s'' /\ alive s'' = length xs - k /\ held s'' = 1.
Proof. exact @fit_fact. Qed.
Print Assumptions C109_shrink_to_fit_refuted.

Example C109_shrink_to_fit_refuting :
  exists s' s'' b c,
    xcall (fun v => v) 0 3 2 1000%N RevertToStatic (ex_dyn2 (Some 1)) = Throw ElemThrow s' /\
    in_buffer s' b c [5] /\ destructor s' = Ok tt s'' /\ alive s'' = 1 /\ held s'' = 1.
Proof.
  refine (C109_shrink_to_fit_refuted nat _ 0 3 2 1000%N _ _ _ RevertToStatic (ex_dyn2 (Some 1)) [5; 6] 1
            _ _ _ _ _ _ _); met_m.
Qed.

(** What holds when the elements go to another buffer: the vector keeps its buffer and all
    its elements (those moved from before are in their moved-from state, which for a type
    that is copied is the same value) and can be destroyed; left behind are exactly the [k]
    objects made in the new buffer, and the buffer if it came from the allocator.
    Missing: the cases above. *)
Theorem C109_relocation_partial :
  forall (V : Type) (moved : V -> V) (dflt : V) (SC RB : nat) (maxn : N),
  0 < SC -> RB <= SC + 1 -> (maxn < two63)%N ->
  forall o (s : @vec V) xs m k,
  holds SC s xs -> relocates RB s xs o m -> room maxn m -> vfuse s = Some k -> k < length xs ->
  exists s' s'',
    xcall moved dflt SC RB maxn o s = Throw ElemThrow s' /\
    in_buffer s' (vb s) (vcap s) (map moved (firstn k xs) ++ skipn k xs) /\
    destructor s' = Ok tt s'' /\ alive s'' = k /\ held s'' = if vcap s <? m then 1 else 0.
Proof. exact @relocation_fact. Qed.
Print Assumptions C109_relocation_partial.

Example C109_relocation_met :
  exists s' s'',
    xcall S 0 3 2 1000%N (Seq (InsertRange 1 [8; 9])) (ex_dyn (Some 2)) = Throw ElemThrow s' /\
    in_buffer s' 2 4 [6; 7; 7] /\ destructor s' = Ok tt s'' /\ alive s'' = 2 /\ held s'' = 1.
Proof.
  refine (C109_relocation_partial nat S 0 3 2 1000%N _ _ _ (Seq (InsertRange 1 [8; 9])) (ex_dyn (Some 2))
            [5; 6; 7] 5 2 _ _ _ _ _); met_m.
Qed.

(** The calls which move nothing do not throw because of moves: they are those of
    SmallVectorModel, whatever throws. *)
Theorem C109_no_moves_partial :
  forall (V : Type) (moved : V -> V) (dflt : V) (SC RB : nat) (maxn : N),
  0 < SC -> RB <= SC + 1 -> (maxn < two63)%N ->
  forall o (s : @vec V) xs,
  holds SC s xs -> (N.of_nat (length xs + 1) < two64)%N -> moves_nothing RB s xs o ->
  xcall moved dflt SC RB maxn o s = call moved dflt SC RB maxn o s.
Proof. exact @nothing_fact. Qed.
Print Assumptions C109_no_moves_partial.

Example C109_no_moves_met :
  xcall (fun v => v) 0 3 2 1000%N (Seq PopBack) (ex_dyn (Some 0)) =
  call (fun v => v) 0 3 2 1000%N (Seq PopBack) (ex_dyn (Some 0)).
Proof.
  refine (C109_no_moves_partial nat _ 0 3 2 1000%N _ _ _ (Seq PopBack) (ex_dyn (Some 0)) [5; 6; 7] _ _ _); met_m.
Qed.

(** A call whose moves all succeed is that of SmallVectorModel, with the rest of the
    constructions to come; so it makes exactly [m] moves, and each of them once. *)
Theorem C109_all_moves_partial :
  forall (V : Type) (moved : V -> V) (dflt : V) (SC RB : nat) (maxn : N),
  0 < SC -> RB <= SC + 1 -> (maxn < two63)%N ->
  forall o (s : @vec V) xs m j,
  holds SC s xs -> moves SC RB s xs o m -> small_ok maxn xs o -> vfuse s = Some (m + j) ->
  xcall moved dflt SC RB maxn o s = call moved dflt SC RB maxn o (with_fuse (Some j) s).
Proof. exact @all_moves. Qed.
Print Assumptions C109_all_moves_partial.

Example C109_all_moves_met :
  xcall S 0 3 2 1000%N (Seq (Insert 1 9)) (ex_full (Some 5)) =
  call S 0 3 2 1000%N (Seq (Insert 1 9)) (ex_full (Some 2)).
Proof.
  refine (C109_all_moves_partial nat S 0 3 2 1000%N _ _ _ (Seq (Insert 1 9)) (ex_full (Some 5)) [5; 6; 7] 3 2
            _ _ _ _); met_m.
  left. exists 4. intuition lia.
Qed.

Example C109_all_moves_shift_met :
  xcall S 0 3 2 1000%N (Seq (Insert 1 9)) (ex_dyn (Some 2)) =
  call S 0 3 2 1000%N (Seq (Insert 1 9)) (ex_dyn (Some 0)).
Proof.
  refine (C109_all_moves_partial nat S 0 3 2 1000%N _ _ _ (Seq (Insert 1 9)) (ex_dyn (Some 2)) [5; 6; 7] 2 0
            _ _ _ _); met_m.
Qed.

Example C109_all_moves_erase_met :
  xcall S 0 3 4 1000%N (Seq (Erase 1)) (ex_dyn (Some 2)) =
  call S 0 3 4 1000%N (Seq (Erase 1)) (ex_dyn (Some 0)).
Proof.
  refine (C109_all_moves_partial nat S 0 3 4 1000%N _ _ _ (Seq (Erase 1)) (ex_dyn (Some 2)) [5; 6; 7] 2 0
            _ _ _ _); met_m.
  right; right; left. exists 1, 1. intuition lia.
Qed.

Example C109_all_moves_fit_met :
  xcall S 0 3 2 1000%N RevertToStatic (ex_dyn2 (Some 2)) =
  call S 0 3 2 1000%N RevertToStatic (ex_dyn2 (Some 0)).
Proof.
  refine (C109_all_moves_partial nat S 0 3 2 1000%N _ _ _ RevertToStatic (ex_dyn2 (Some 2)) [5; 6] 2 0
            _ _ _ _); met_m.
Qed.
