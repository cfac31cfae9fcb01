(** The property theorem about exceptions while the elements of a static_vector move: C110.

    [fuse s = Some k] says that [k] more constructions of elements (and, in swap,
    assignments) will succeed and the next one throws.  The destructor is clear() (236-239). *)
From Coq Require Import List Arith NArith Lia.
From Verif Require Import Base SeqSpec VecCommon StaticVectorModel StaticVectorSpec StaticVectorProps
  StaticMoveModel StaticMoveSpec StaticMoveProofs.
Import ListNotations.

(** While no exception is due, the calls are those of StaticVectorModel. *)
Theorem C110_no_throw_same :
  forall (V : Type) (moved : V -> V) (dflt : V) (Capacity : nat) o (s : @sv V),
  fuse s = None -> xcall moved dflt Capacity o s = call moved dflt Capacity o s.
Proof. exact @no_throw_same. Qed.
Print Assumptions C110_no_throw_same.

Example C110_no_throw_met :
  xcall (fun v => v) 0 4 (Insert 1 9) (mkSv [Live 5; Live 6; Live 7; Raw] 3 None) =
  call (fun v => v) 0 4 (Insert 1 9) (mkSv [Live 5; Live 6; Live 7; Raw] 3 None).
Proof. apply C110_no_throw_same. reflexivity. Qed.

(** False as stated.  An insertion which throws after at least one element was moved leaves
    a vector which cannot be destroyed. *)
Theorem C110_insert_refuted :
  forall (V : Type) (moved : V -> V) (dflt : V) (Capacity : nat),
  (N.of_nat Capacity < two63)%N ->
  forall o (s : @sv V) xs k,
  represents Capacity s xs -> in_range xs o -> inserts o -> length xs + added o <= Capacity ->
  fuse s = Some k -> 0 < k -> k < moving xs o ->
  exists s', xcall moved dflt Capacity o s = Throw ElemThrow s' /\ clear Capacity s' = UB.
Proof.
  intros V moved dflt Capacity Hc o s xs k R Hr Hi Ha Hk H0 Hm.
  exact (proj2 (insert_fact moved dflt Capacity Hc o s xs k R Hr Hi Ha Hk Hm) H0).
Qed.
Print Assumptions C110_insert_refuted.

Example C110_insert_refuting :
  exists s', xcall (fun v => v) 0 4 (Insert 1 9) (mkSv [Live 5; Live 6; Live 7; Raw] 3 (Some 1)) =
    Throw ElemThrow s' /\ clear 4 s' = UB.
Proof.
  refine (C110_insert_refuted nat _ 0 4 _ (Insert 1 9) _ [5; 6; 7] 1 _ _ _ _ _ _ _); met_s.
Qed.

(** An erase which throws always does. *)
Theorem C110_erase_refuted :
  forall (V : Type) (moved : V -> V) (dflt : V) (Capacity : nat),
  (N.of_nat Capacity < two63)%N ->
  forall o (s : @sv V) xs k,
  represents Capacity s xs -> call_ok xs o -> erases o -> fuse s = Some k -> k < moving xs o ->
  exists s', xcall moved dflt Capacity o s = Throw ElemThrow s' /\ clear Capacity s' = UB.
Proof. exact @erase_fact. Qed.
Print Assumptions C110_erase_refuted.

Example C110_erase_refuting :
  exists s', xcall (fun v => v) 0 4 (EraseRange 0 2) (mkSv [Live 5; Live 6; Live 7; Raw] 3 (Some 0)) =
    Throw ElemThrow s' /\ clear 4 s' = UB.
Proof.
  refine (C110_erase_refuted nat _ 0 4 _ (EraseRange 0 2) _ [5; 6; 7] 0 _ _ _ _ _); met_s.
Qed.

(** A swap which throws after at least one element of the longer vector was handed over
    leaves a longer vector which cannot be destroyed. *)
Theorem C110_swap_refuted :
  forall (V : Type) (moved : V -> V) (Capacity : nat),
  (N.of_nat Capacity < two63)%N ->
  forall (b : bool) (short long : @sv V) xs ys k,
  represents Capacity short xs -> represents Capacity long ys -> shorter_than b xs ys ->
  fuse short = Some k ->
  3 * length xs < k < 3 * length xs + (length ys - length xs) ->
  exists short' long',
    xswap moved Capacity (in_order b short long) = Throw ElemThrow (in_order b short' long') /\
    clear Capacity long' = UB.
Proof. exact @swap_breaks. Qed.
Print Assumptions C110_swap_refuted.

Example C110_swap_refuting :
  exists short' long',
    xswap (fun v => v) 4 (in_order false (mkSv [Live 1; Raw; Raw; Raw] 1 (Some 4))
                                         (mkSv [Live 5; Live 6; Live 7; Raw] 3 None)) =
    Throw ElemThrow (in_order false short' long') /\ clear 4 long' = UB.
Proof.
  refine (C110_swap_refuted nat _ 4 _ false _ _ [1] [5; 6; 7] 4 _ _ _ _ _); met_s.
Qed.

(** The move assignment promises not to throw when the move assignment of the elements does
    ([na]), but it uses their move construction: the program ends. *)
Theorem C110_move_assign_noexcept_refuted :
  forall (V : Type) (moved : V -> V) (Capacity : nat),
  (N.of_nat Capacity < two63)%N ->
  forall (a b : @sv V) xs ys k,
  represents Capacity a xs -> represents Capacity b ys -> fuse a = Some k -> k < length ys ->
  xmove_assign moved Capacity true (a, b) = None.
Proof.
  intros V moved Capacity Hc a b xs ys k Ra Rb Hk Hl.
  exact (proj1 (move_assign_fact moved Capacity Hc a b xs ys k true Ra Rb Hk Hl) eq_refl).
Qed.
Print Assumptions C110_move_assign_noexcept_refuted.

Example C110_move_assign_noexcept_refuting :
  xmove_assign (fun v => v) 4 true
    (mkSv [Live 1; Raw; Raw; Raw] 1 (Some 2), mkSv [Live 5; Live 6; Live 7; Raw] 3 None) = None.
Proof.
  refine (C110_move_assign_noexcept_refuted nat _ 4 _ _ _ [1] [5; 6; 7] 2 _ _ _ _); met_s.
Qed.

(** A move constructor which throws leaves the elements it made: there is no vector to
    destroy them. *)
Theorem C110_move_construct_refuted :
  forall (V : Type) (moved : V -> V) (Capacity : nat),
  (N.of_nat Capacity < two63)%N ->
  forall (b : @sv V) ys k,
  represents Capacity b ys -> k < length ys ->
  exists a' b', xmove_construct moved Capacity (Some k) b = Throw ElemThrow (a', b') /\
    represents Capacity a' (firstn k ys) /\
    represents Capacity b' (map moved (firstn k ys) ++ skipn k ys).
Proof. exact @move_construct_fact. Qed.
Print Assumptions C110_move_construct_refuted.

Example C110_move_construct_refuting :
  exists a' b', xmove_construct S 4 (Some 2) (mkSv [Live 5; Live 6; Live 7; Raw] 3 None) =
    Throw ElemThrow (a', b') /\ represents 4 a' [5; 6] /\ represents 4 b' [6; 7; 7].
Proof.
  refine (C110_move_construct_refuted nat S 4 _ _ [5; 6; 7] 2 _ _); met_s.
Qed.

(** What holds.  An insertion whose first move throws has done nothing. *)
Theorem C110_insert_partial :
  forall (V : Type) (moved : V -> V) (dflt : V) (Capacity : nat),
  (N.of_nat Capacity < two63)%N ->
  forall o (s : @sv V) xs,
  represents Capacity s xs -> in_range xs o -> inserts o -> length xs + added o <= Capacity ->
  fuse s = Some 0 -> 0 < moving xs o ->
  xcall moved dflt Capacity o s = Throw ElemThrow (with_fuse None s).
Proof.
  intros V moved dflt Capacity Hc o s xs R Hr Hi Ha Hk Hm.
  exact (proj1 (insert_fact moved dflt Capacity Hc o s xs 0 R Hr Hi Ha Hk Hm) eq_refl).
Qed.
Print Assumptions C110_insert_partial.

Example C110_insert_met :
  xcall (fun v => v) 0 4 (InsertN 1 1 9) (mkSv [Live 5; Live 6; Live 7; Raw] 3 (Some 0)) =
  Throw ElemThrow (mkSv [Live 5; Live 6; Live 7; Raw] 3 None).
Proof.
  refine (C110_insert_partial nat _ 0 4 _ (InsertN 1 1 9) _ [5; 6; 7] _ _ _ _ _ _); met_s.
Qed.

(** A call all of whose moves succeed is that of StaticVectorModel (where the construction
    of a new element may throw: C05), and one for which there is no room moves nothing.
    Calls with no moves are included: for them [moving] is 0. *)
Theorem C110_all_moves_partial :
  forall (V : Type) (moved : V -> V) (dflt : V) (Capacity : nat),
  (N.of_nat Capacity < two63)%N ->
  forall o (s : @sv V) xs j,
  represents Capacity s xs -> call_ok xs o -> length xs + added o <= Capacity ->
  fuse s = Some (moving xs o + j) ->
  xcall moved dflt Capacity o s = call moved dflt Capacity o (with_fuse (Some j) s).
Proof. exact @all_fact. Qed.
Print Assumptions C110_all_moves_partial.

Example C110_all_moves_met :
  xcall (fun v => v) 0 4 (Insert 1 9) (mkSv [Live 5; Live 6; Live 7; Raw] 3 (Some 2)) =
  call (fun v => v) 0 4 (Insert 1 9) (mkSv [Live 5; Live 6; Live 7; Raw] 3 (Some 0)).
Proof.
  refine (C110_all_moves_partial nat _ 0 4 _ (Insert 1 9) _ [5; 6; 7] 0 _ _ _ _); met_s.
Qed.

Theorem C110_no_room_partial :
  forall (V : Type) (moved : V -> V) (dflt : V) (Capacity : nat),
  (N.of_nat Capacity < two63)%N ->
  forall o (s : @sv V) xs,
  represents Capacity s xs -> call_ok xs o -> inserts o -> Capacity < length xs + added o ->
  xcall moved dflt Capacity o s = Throw OutOfRange s.
Proof. exact @full_fact. Qed.
Print Assumptions C110_no_room_partial.

Example C110_no_room_met :
  xcall (fun v => v) 0 4 (InsertRange 1 [8; 9]) (mkSv [Live 5; Live 6; Live 7; Raw] 3 (Some 0)) =
  Throw OutOfRange (mkSv [Live 5; Live 6; Live 7; Raw] 3 (Some 0)).
Proof.
  refine (C110_no_room_partial nat _ 0 4 _ (InsertRange 1 [8; 9]) _ [5; 6; 7] _ _ _ _); met_s.
Qed.

(** A move assignment which throws (of elements whose move assignment may) leaves the
    elements moved so far in the target and all elements, some of them moved from, in the
    source. *)
Theorem C110_move_assign_partial :
  forall (V : Type) (moved : V -> V) (Capacity : nat),
  (N.of_nat Capacity < two63)%N ->
  forall (a b : @sv V) xs ys k,
  represents Capacity a xs -> represents Capacity b ys -> fuse a = Some k -> k < length ys ->
  exists a' b', xmove_assign moved Capacity false (a, b) = Some (Throw ElemThrow (a', b')) /\
    represents Capacity a' (firstn k ys) /\
    represents Capacity b' (map moved (firstn k ys) ++ skipn k ys).
Proof.
  intros V moved Capacity Hc a b xs ys k Ra Rb Hk Hl.
  exact (proj2 (move_assign_fact moved Capacity Hc a b xs ys k false Ra Rb Hk Hl) eq_refl).
Qed.
Print Assumptions C110_move_assign_partial.

Example C110_move_assign_met :
  exists a' b', xmove_assign S 4 false
    (mkSv [Live 1; Raw; Raw; Raw] 1 (Some 2), mkSv [Live 5; Live 6; Live 7; Raw] 3 None) =
    Some (Throw ElemThrow (a', b')) /\ represents 4 a' [5; 6] /\ represents 4 b' [6; 7; 7].
Proof.
  refine (C110_move_assign_partial nat S 4 _ _ _ [1] [5; 6; 7] 2 _ _ _ _); met_s.
Qed.

Theorem C110_move_assign_all_partial :
  forall (V : Type) (moved : V -> V) (Capacity : nat),
  (N.of_nat Capacity < two63)%N ->
  forall (a b : @sv V) xs ys j na,
  represents Capacity a xs -> represents Capacity b ys -> fuse a = Some (length ys + j) ->
  exists a' b', xmove_assign moved Capacity na (a, b) = Some (Ok tt (a', b')) /\
    represents Capacity a' ys /\ represents Capacity b' [].
Proof. exact @move_assign_all. Qed.
Print Assumptions C110_move_assign_all_partial.

Example C110_move_assign_all_met :
  exists a' b', xmove_assign S 4 true
    (mkSv [Live 1; Raw; Raw; Raw] 1 (Some 3), mkSv [Live 5; Live 6; Live 7; Raw] 3 None) =
    Some (Ok tt (a', b')) /\ represents 4 a' [5; 6; 7] /\ represents 4 b' [].
Proof.
  refine (C110_move_assign_all_partial nat S 4 _ _ _ [1] [5; 6; 7] 0 true _ _ _); met_s.
Qed.

(** A swap which throws while it swaps the elements both vectors have, or at the first
    element of the longer one after these, leaves two vectors of the old sizes; one in which
    nothing throws swaps.  Each of the three steps of std::swap may throw. *)
Theorem C110_swap_partial :
  forall (V : Type) (moved : V -> V) (Capacity : nat),
  (N.of_nat Capacity < two63)%N ->
  forall (b : bool) (short long : @sv V) xs ys k,
  represents Capacity short xs -> represents Capacity long ys -> shorter_than b xs ys ->
  fuse short = Some k ->
  let m := 3 * length xs in
  (k < m -> exists short' long' xs' ys',
     xswap moved Capacity (in_order b short long) = Throw ElemThrow (in_order b short' long') /\
     represents Capacity short' xs' /\ represents Capacity long' ys' /\
     length xs' = length xs /\ length ys' = length ys) /\
  (k = m -> length xs < length ys -> exists short' long',
     xswap moved Capacity (in_order b short long) = Throw ElemThrow (in_order b short' long') /\
     represents Capacity short' (firstn (length xs) ys) /\
     represents Capacity long' (xs ++ skipn (length xs) ys)) /\
  (m + (length ys - length xs) <= k -> exists short' long',
     xswap moved Capacity (in_order b short long) = Ok tt (in_order b short' long') /\
     represents Capacity short' ys /\ represents Capacity long' xs).
Proof. exact @swap_keeps. Qed.
Print Assumptions C110_swap_partial.

Example C110_swap_met :
  exists short' long',
    xswap (fun v => v) 4 (in_order true (mkSv [Live 1; Raw; Raw; Raw] 1 (Some 3))
                                        (mkSv [Live 5; Live 6; Live 7; Raw] 3 None)) =
    Throw ElemThrow (in_order true short' long') /\
    represents 4 short' [5] /\ represents 4 long' [1; 6; 7].
Proof.
  refine (proj1 (proj2 (C110_swap_partial nat _ 4 _ true _ _ [1] [5; 6; 7] 3 _ _ _ _)) _ _); met_s.
Qed.
