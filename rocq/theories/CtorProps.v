(** Property C80: a constructor of static_vector or small_vector which throws leaves no
    object alive and no memory allocated. *)
From Coq Require Import List Arith NArith Bool Lia.
From Verif Require Import Base SeqSpec VecCommon CtorModel CtorSpec CtorProofs.
From Verif Require StaticVectorModel StaticVectorSpec StaticVectorProofs.
From Verif Require SmallVectorModel SmallVectorSpec SmallVectorProofs.
Import ListNotations.

(** * static_vector *)
Module SV := StaticVectorModel.
Module SVS := StaticVectorSpec.

(** False as stated: if the construction of element k throws, the k elements before it
    stay alive and nothing will ever destroy them.  Every constructor which makes elements,
    every capacity, every k. *)
Theorem C80_static_vector_refuted :
  forall (V : Type) (moved : V -> V) (dflt : V) (Capacity : nat),
  (N.of_nat Capacity < two63)%N ->
  forall (c : ctor V) k,
  length (contents dflt c) <= Capacity -> k < length (contents dflt c) ->
  exists s, Static.make moved dflt Capacity c (Some k) = Throw ElemThrow s /\
    forall i, i < k -> exists v, nth_error (contents dflt c) i = Some v /\
      nth_error (SV.data s) i = Some (Live v).
Proof. exact @St.make_leaks. Qed.
Print Assumptions C80_static_vector_refuted.

(** The same for copying from a static_vector of this or another capacity. *)
Theorem C80_static_vector_copy_refuted :
  forall (V : Type) (Capacity : nat),
  (N.of_nat Capacity < two63)%N ->
  forall CapB (b : @SV.sv V) ys k,
  (N.of_nat CapB < two63)%N -> SVS.represents CapB b ys ->
  length ys <= Capacity -> k < length ys ->
  exists a, Static.copy_other Capacity b (Some k) = Throw ElemThrow (a, b) /\
    (CapB = Capacity -> Static.copy_same Capacity b (Some k) = Throw ElemThrow (a, b)) /\
    forall i, i < k -> exists v, nth_error ys i = Some v /\
      nth_error (SV.data a) i = Some (Live v).
Proof.
  intros V Capacity H CapB b ys k HB R Hc Hk.
  destruct (St.copy_leaks Capacity H CapB b ys k HB R Hc Hk) as (a & E & L).
  exists a. split; [exact E|]. split; [|exact L].
  intros ->. rewrite (St.copy_same_shape Capacity H b ys _ R). exact E.
Qed.
Print Assumptions C80_static_vector_copy_refuted.

(** Three elements asked for, the third fails: two are left in dead storage. *)
Example C80_static_case :
  Static.make (fun v => v) 0 4 (FromList [5; 6; 7]) (Some 2) =
  Throw ElemThrow (SV.mkSv [Live 5; Live 6; Raw; Raw] 2 None).
Proof. reflexivity. Qed.

Example C80_static_copy_case :
  Static.copy_other 3 (SV.mkSv [Live 5; Live 6; Raw; Raw] 2 None) (Some 1) =
  Throw ElemThrow (SV.mkSv [Live 5; Raw; Raw] 1 None, SV.mkSv [Live 5; Live 6; Raw; Raw] 2 None).
Proof. reflexivity. Qed.

(** What holds: if nothing throws the vector has the contents asked for; too many elements
    are refused before any is made; a failure of the very first construction leaves nothing.
    Missing: a failure of a later one. *)
Theorem C80_static_vector_partial :
  forall (V : Type) (moved : V -> V) (dflt : V) (Capacity : nat),
  (N.of_nat Capacity < two63)%N ->
  forall (c : ctor V) fuse0,
  (length (contents dflt c) <= Capacity -> none_throws fuse0 (length (contents dflt c)) ->
   exists s, Static.make moved dflt Capacity c fuse0 = Ok tt s /\
     SVS.represents Capacity s (contents dflt c)) /\
  (Capacity < length (contents dflt c) ->
   exists s, Static.make moved dflt Capacity c fuse0 = Throw OutOfRange s /\ no_object s) /\
  (length (contents dflt c) <= Capacity -> contents dflt c <> [] -> fuse0 = Some 0 ->
   exists s, Static.make moved dflt Capacity c fuse0 = Throw ElemThrow s /\ no_object s).
Proof.
  intros V moved dflt Capacity H c f. split; [|split].
  - now apply St.make_ok.
  - now apply St.make_range.
  - intros H1 H2 ->. now apply St.first_throws.
Qed.
Print Assumptions C80_static_vector_partial.

Theorem C80_static_vector_copy_partial :
  forall (V : Type) (Capacity : nat),
  (N.of_nat Capacity < two63)%N ->
  forall CapB (b : @SV.sv V) ys fuse0,
  (N.of_nat CapB < two63)%N -> SVS.represents CapB b ys ->
  (length ys <= Capacity -> none_throws fuse0 (length ys) ->
   exists a, Static.copy_other Capacity b fuse0 = Ok tt (a, b) /\
     (CapB = Capacity -> Static.copy_same Capacity b fuse0 = Ok tt (a, b)) /\
     SVS.represents Capacity a ys) /\
  (Capacity < length ys ->
   exists a, Static.copy_other Capacity b fuse0 = Throw OutOfRange (a, b) /\ no_object a).
Proof.
  intros V Capacity H CapB b ys f HB R. split.
  - intros Hc Hf. destruct (St.copy_ok Capacity H CapB b ys f HB R Hc Hf) as (a & E & Ra).
    exists a. split; [exact E|]. split; [|exact Ra].
    intros ->. rewrite (St.copy_same_shape Capacity H b ys _ R). exact E.
  - intros Hc. exact (St.copy_range Capacity H CapB b ys f HB R Hc).
Qed.
Print Assumptions C80_static_vector_copy_partial.

Example C80_static_range_case :
  Static.make (fun v => v) 0 2 (FromFill 3 9) (Some 1) =
  Throw OutOfRange (SV.mkSv [Raw; Raw] 0 (Some 1)) /\
  Static.copy_other 1 (SV.mkSv [Live 5; Live 6; Raw] 2 None) None =
  Throw OutOfRange (SV.mkSv [Raw] 0 None, SV.mkSv [Live 5; Live 6; Raw] 2 None).
Proof. split; reflexivity. Qed.

(** * small_vector *)
Module SM := SmallVectorModel.
Module SMS := SmallVectorSpec.

(** False as stated.  The destructor does run, but when the elements need a dynamic block,
    m_end is in the new block and m_begin still in the static buffer: the destructor is
    undefined behaviour (and the block is lost), whichever construction throws. *)
Theorem C80_small_vector_refuted :
  forall (V : Type) (moved : V -> V) (dflt : V) (SC RB : nat) (maxn : N),
  0 < SC -> RB <= SC + 1 -> (maxn < two63)%N ->
  forall (c : ctor V) k,
  SC < length (contents dflt c) -> SMS.room maxn (length (contents dflt c)) ->
  k < length (contents dflt c) ->
  Small.make moved dflt SC RB maxn c (Some k) = UB.
Proof. exact @Sm.make_broken. Qed.
Print Assumptions C80_small_vector_refuted.

(** small_vector(count) is undefined behaviour for every throwing construction, also in the
    static buffer: m_end is advanced before the element is made. *)
Theorem C80_small_vector_count_refuted :
  forall (V : Type) (moved : V -> V) (dflt : V) (SC RB : nat) (maxn : N),
  0 < SC -> RB <= SC + 1 -> (maxn < two63)%N ->
  forall n k,
  k < n -> SMS.room maxn n ->
  Small.make moved dflt SC RB maxn (FromCount n) (Some k) = @UB (@SM.vec V) unit.
Proof. exact @Sm.count_broken. Qed.
Print Assumptions C80_small_vector_count_refuted.

Theorem C80_small_vector_copy_refuted :
  forall (V : Type) (SC RB : nat) (maxn : N),
  0 < SC -> RB <= SC + 1 -> (maxn < two63)%N ->
  forall (b : @SM.vec V) ys k,
  SMS.holds SC b ys -> SC < length ys -> SMS.room maxn (length ys) -> k < length ys ->
  Small.copy_same SC RB maxn b (Some k) = UB.
Proof.
  intros V SC RB maxn H1 H2 H3 b ys k H Hc Hr Hk.
  rewrite (Sm.copy_shape SC RB maxn H1 H2 H3 b ys (Some k) H).
  rewrite (Sm.assign_broken SC RB maxn H1 H2 H3 ys k Hc Hk Hr). reflexivity.
Qed.
Print Assumptions C80_small_vector_copy_refuted.

Example C80_small_case :
  Small.make (fun v => v) 0 2 0 1000%N (FromList [5; 6; 7]) (Some 1) = UB /\
  Small.make (fun v => v) 0 2 0 1000%N (FromCount 2) (Some 1) = UB /\
  Small.make (fun v => v) 0 2 0 1000%N (FromFill 2 9) (Some 1) =
    Throw ElemThrow (SM.mkVec [SM.Blk [Raw; Raw]] 0 (0, 1) 2 None).
Proof. repeat split; reflexivity. Qed.

(** What holds: if nothing throws the vector has the contents asked for; a refused
    allocation leaves nothing; a throwing construction in the static buffer leaves nothing,
    except from small_vector(count).  Missing: the cases above. *)
Theorem C80_small_vector_partial :
  forall (V : Type) (moved : V -> V) (dflt : V) (SC RB : nat) (maxn : N),
  0 < SC -> RB <= SC + 1 -> (maxn < two63)%N ->
  forall (c : ctor V) fuse0,
  (SMS.room maxn (length (contents dflt c)) -> none_throws fuse0 (length (contents dflt c)) ->
   exists s, Small.make moved dflt SC RB maxn c fuse0 = Ok tt s /\
     SMS.holds SC s (contents dflt c)) /\
  (SC < length (contents dflt c) -> (maxn < N.of_nat (length (contents dflt c)))%N ->
   exists s, Small.make moved dflt SC RB maxn c fuse0 = Throw BadAlloc s /\ nothing_held s) /\
  (forall k, fuse0 = Some k -> (forall n, c <> FromCount n) ->
   length (contents dflt c) <= SC -> k < length (contents dflt c) ->
   exists s, Small.make moved dflt SC RB maxn c fuse0 = Throw ElemThrow s /\ nothing_held s).
Proof.
  intros V moved dflt SC RB maxn H1 H2 H3 c f. split; [|split].
  - now apply Sm.make_ok.
  - now apply Sm.make_no_memory.
  - intros k -> Hn Hc Hk. now apply Sm.make_in_place.
Qed.
Print Assumptions C80_small_vector_partial.

Theorem C80_small_vector_copy_partial :
  forall (V : Type) (SC RB : nat) (maxn : N),
  0 < SC -> RB <= SC + 1 -> (maxn < two63)%N ->
  forall (b : @SM.vec V) ys fuse0,
  SMS.holds SC b ys ->
  (SMS.room maxn (length ys) -> none_throws fuse0 (length ys) ->
   exists a, Small.copy_same SC RB maxn b fuse0 = Ok tt (a, b) /\ SMS.holds SC a ys) /\
  (SC < length ys -> (maxn < N.of_nat (length ys))%N ->
   exists a, Small.copy_same SC RB maxn b fuse0 = Throw BadAlloc (a, b) /\ nothing_held a) /\
  (forall k, fuse0 = Some k -> length ys <= SC -> k < length ys ->
   exists a, Small.copy_same SC RB maxn b fuse0 = Throw ElemThrow (a, b) /\ nothing_held a).
Proof.
  intros V SC RB maxn H1 H2 H3 b ys f H.
  rewrite (Sm.copy_shape SC RB maxn H1 H2 H3 b ys f H). split; [|split].
  - intros Hr Hf. destruct (Sm.assign_ok SC RB maxn H1 H2 H3 ys f Hr Hf) as (a & E & Ha).
    rewrite E. eauto.
  - intros Hc Hm. destruct (Sm.assign_no_memory SC RB maxn H1 H2 H3 ys f Hc Hm) as (a & E & Ha).
    rewrite E. eauto.
  - intros k -> Hc Hk. destruct (Sm.assign_released SC RB maxn H1 H2 H3 ys k Hc Hk) as (a & E & Ha).
    rewrite E. eauto.
Qed.
Print Assumptions C80_small_vector_copy_partial.

Example C80_small_ok_case :
  exists s, Small.make (fun v => v) 0 2 0 1000%N (FromRange [5; 6; 7]) (Some 3) = Ok tt s /\
  SMS.holds 2 s [5; 6; 7].
Proof.
  destruct (C80_small_vector_partial nat (fun v => v) 0 2 0 1000%N ltac:(lia) ltac:(lia) eq_refl
              (FromRange [5; 6; 7]) (Some 3)) as (H & _ & _).
  apply H; [|exact (le_n 3)]. vm_compute. discriminate.
Qed.
