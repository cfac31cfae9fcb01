(** The property theorems of pod_vector: C15 (its part), C16 - C21.

    Parameters of every theorem: the allocator [A] with all the answers it will give, and
    sizeof and alignof of the element type [T]. *)
From Coq Require Import List Arith NArith ZArith Lia.
From Verif Require Import Base SeqSpec VecCommon SmallVectorSpec PodVectorModel PodVectorSpec PodVectorProofs.
Import ListNotations.

(** ** Example allocators and types *)

(** Like malloc: 16-aligned, no expand.  [ex_grow] can expand and does so when asked the
    first four times. *)
Definition ex_malloc : alc :=
  mkAlc 16 false 64 true (fun call _ => Some (N.of_nat (16 * (1 + 256 * call)))) (fun _ _ => 170%N) (fun _ => false).
Definition ex_grow : alc :=
  mkAlc 16 true 64 false (fun call _ => Some (N.of_nat (16 * (1 + 256 * call)))) (fun _ _ => 170%N) (fun k => k <? 4).
Definition ex_int : ety := mkEty 4 4.
Definition ex_a32 : ety := mkEty 32 32.   (* alignas(32) *)
Definition ex_a64 : ety := mkEty 64 64.   (* alignas(64) *)

Lemma ex_addr_aligned n : (N.of_nat (16 * n) mod N.of_nat 16 = 0)%N.
Proof. rewrite Nat2N.inj_mul, N.mul_comm. apply N.mod_mul. discriminate. Qed.
Example ex_malloc_ok : alc_ok ex_malloc.
Proof. split; [exists 4; reflexivity|]. intros call size _. eexists. split; [reflexivity|]. apply ex_addr_aligned. Qed.
Example ex_grow_ok : alc_ok ex_grow.
Proof. split; [exists 4; reflexivity|]. intros call size _. eexists. split; [reflexivity|]. apply ex_addr_aligned. Qed.
Example ex_int_ok : ety_ok ex_int.
Proof. split; [cbn; lia|]. exists 2. cbn. lia. Qed.
Example ex_a32_ok : ety_ok ex_a32.
Proof. split; [cbn; lia|]. exists 5. cbn. lia. Qed.
Example ex_a64_ok : ety_ok ex_a64.
Proof. split; [cbn; lia|]. exists 6. cbn. lia. Qed.

(** * C15, pod_vector's part: growth arithmetic *)

Theorem C15_pod_growth :
  forall (m : mem) (v : pv) (n : nat),
  pcap v < n -> (3 * N.of_nat n <= two64 - 1)%N ->
  exists c, get_new_capacity (N.of_nat n) (m, v) = Ok c (m, v) /\
    (N.of_nat n <= c)%N /\ (c <= N.of_nat n + N.of_nat n / 2)%N /\
    (pcap v = 0 -> c = N.of_nat n) /\
    (0 < pcap v -> grows (N.of_nat (pcap v)) (N.of_nat n) c).
Proof. exact pod_growth_fact. Qed.
Print Assumptions C15_pod_growth.

Example C15_pod_case :
  get_new_capacity 100 (mkMem [] 0, mkPv None None 3) = Ok 140%N (mkMem [] 0, mkPv None None 3).
Proof. reflexivity. Qed.

(** * C16: pod_vector is a sequence *)

(** Any number of vectors, any history of calls: every call answers as the specification
    allows, and afterwards every vector reads as the specification says - element by
    element, all at once, and its size. *)
Theorem C16_pod_vector_histories :
  forall (A : alc) (T : ety), ety_ok T -> alc_ok A ->
  forall (early : bool) (n k : nat) (os : list podsys),
  pod_sys_along A T (repeat [] n) os ->
  exists m vs cs rs,
    run_calls (psys_call A T early) (mkMem [] k, repeat init_pv n) os = Some ((m, vs), rs) /\
    pod_history A T (repeat [] n) os cs rs /\
    Forall2 (fun v xs =>
      psize T (m, v) = Ok (length xs) (m, v) /\
      pread_all T (m, v) = Ok xs (m, v) /\
      forall i x, nth_error xs i = Some x -> pat T i (m, v) = Ok x (m, v)) vs cs.
Proof.
  intros A T HT HA early n k os Hal.
  destruct (history_spec A T HT HA early os [] k _ _ (fam_start A T n) Hal)
    as (bs' & k' & vs' & cs' & rs & E & Hh & (HF & _)).
  exists (mkMem bs' k'), vs', cs', rs. split; [exact E|]. split; [exact Hh|].
  clear - HF HT HA. induction HF as [|v xs vs cs H HF IH]; constructor; [|exact IH].
  split; [|split].
  - destruct (holds_parts A T HT _ _ _ H) as (rest & _ & _ & He & _ & _ & _ & Hn0 & _).
    apply psize_spec; auto.
  - eapply pread_all_spec; eauto.
  - intros i x Hi. eapply pat_spec; eauto.
Qed.
Print Assumptions C16_pod_vector_histories.

Example C16_case : pod_sys_along ex_malloc ex_int [[]; []]
  [POn 0 (PSeq (PushBack [1;0;0;0]%N)); POn 0 (PSeq (Insert 0 [2;0;0;0]%N)); PCopyAssign 1 0;
   POn 1 (PSeq (Erase 0))].
Proof.
  assert (forall k, k <= 2 -> room ex_int k) as Hroom.
  { intros k Hk. unfold room, two63. cbn [esz eal ex_int].
    destruct k as [|[|[|]]]; [reflexivity..|lia]. }
  cbn. split.
  { exists []. repeat split. }
  intros cs r H. inversion H; subst. cbn in *.
  match goal with h : Some _ = Some _ |- _ => injection h as <- end.
  match goal with h : pod_step _ _ _ _ _ _ |- _ => inversion h; subst end. cbn.
  split.
  { exists [[1;0;0;0]%N]. split; [reflexivity|]. split; [reflexivity|]. split; [lia|]. now apply (Hroom 2). }
  intros cs r Hs. inversion Hs; subst. cbn in *.
  match goal with h : Some _ = Some _ |- _ => injection h as <- end.
  match goal with h : pod_step _ _ _ (PSeq (Insert _ _)) _ _ |- _ => inversion h; subst end. cbn.
  split.
  { split; [lia|]. eexists. split; [reflexivity|]. now apply (Hroom 2). }
  intros cs r Hs2. inversion Hs2; subst. cbn in *.
  match goal with h : Some _ = Some _ |- _ => injection h as <- end. cbn.
  split.
  { eexists. split; [reflexivity|]. split; [cbn; lia|]. now apply (Hroom 2). }
  auto.
Qed.

(** Comparison is comparison of the sequences. *)
Theorem C16_equality :
  forall (A : alc) (T : ety), ety_ok T ->
  forall (bs : list mblk) (k : nat) (a b : pv) (xs ys : list (list N)),
  pod_holds A T bs a xs -> pod_holds A T bs b ys -> room T (length xs) ->
  exists r, pequal T (mkMem bs k, (a, b)) = Ok r (mkMem bs k, (a, b)) /\ (r = true <-> xs = ys).
Proof. exact pequal_spec. Qed.
Print Assumptions C16_equality.

Example C16_equality_case :
  pod_holds ex_malloc ex_int [MBlk 16 [1;0;0;0;2;0;0;0]%N] (mkPv (Some (0, 0)) (Some (0, 4)) 2) [[1;0;0;0]%N].
Proof.
  split; [repeat constructor|]. exists [2;0;0;0]%N. split; [|cbn; repeat split; lia].
  exists 16%N, []. repeat split.
Qed.

(** * C17: memory *)

(** No call of a history is undefined - in the model that is to touch memory outside a live
    block, to move a pointer out of its block, to copy overlapping memory with memcpy, or to
    give back to the allocator anything else than the start of a live block - and in the
    end every block obtained is freed. *)
Theorem C17_pod_vector_memory :
  forall (A : alc) (T : ety), ety_ok T -> alc_ok A ->
  forall (early : bool) (n k : nat) (os : list podsys),
  pod_sys_along A T (repeat [] n) os ->
  exists m vs rs m',
    run_calls (psys_call A T early) (mkMem [] k, repeat init_pv n) os = Some ((m, vs), rs) /\
    destroy_all_pods A T vs m = Ok tt m' /\
    length (blks m') = length (blks m) /\
    Forall (fun b => exists a, b = MFreed a) (blks m').
Proof.
  intros A T HT HA early n k os Hal.
  destruct (history_spec A T HT HA early os [] k _ _ (fam_start A T n) Hal)
    as (bs' & k' & vs' & cs' & rs & E & Hh & HF).
  destruct (destroy_all_spec A T vs' bs' k' cs' HF) as (bs2 & E2 & HL & HK).
  exists (mkMem bs' k'), vs', rs, (mkMem bs2 k'). split; [exact E|]. split; [exact E2|].
  split; [exact HL|]. cbn. apply Forall_forall. intros b Hb. apply In_nth_error in Hb.
  destruct Hb as (i & Hi). destruct (HK i) as (a & Ha).
  { rewrite <- HL. apply nth_error_Some. congruence. }
  exists a. congruence.
Qed.
Print Assumptions C17_pod_vector_memory.

(** C16_case is a history this applies to. *)
Example C17_case : exists m vs rs,
  run_calls (psys_call ex_malloc ex_int true) (mkMem [] 0, repeat init_pv 2)
    [POn 0 (PSeq (PushBack [1;0;0;0]%N)); POn 0 (PSeq (Insert 0 [2;0;0;0]%N)); PCopyAssign 1 0;
     POn 1 (PSeq (Erase 0))] = Some ((m, vs), rs) /\ length (blks m) = 3.
Proof. vm_compute. eexists _, _, _. split; reflexivity. Qed.

(** * C18: resize(n, v) *)

(** It writes n elements from the old end, not n - size().  So it breaks the program for
    every allocator and every type: after assign(n, x) a call of resize(n, x), which has
    nothing to do, writes n elements past the end of the block. *)
Theorem C18_resize_val_refuted :
  forall (A : alc) (T : ety), ety_ok T -> alc_ok A -> eal T <= esz T ->
  forall (early : bool) (k n : nat) (x : list N),
  is_elem T x -> 0 < n -> room T n ->
  run_calls (psys_call A T early) (mkMem [] k, [init_pv])
    [POn 0 (PSeq (AssignN n x)); POn 0 (PSeq (ResizeVal n x))] = None.
Proof.
  intros A T HT HA Hal early k n x Hx Hn Hr.
  destruct (fresh_assign A T HT HA k n x Hx Hn Hr Hal) as (bs' & k' & v' & bytes & E & Hh & Hc & Hb & Hl).
  cbn [run_calls]. cbn [psys_call pcall]. unfold pon_one at 1. cbn [fst snd nth_error].
  unfold no_answer at 1. rewrite (bind_ok _ _ _ _ _ E). cbn [observe ret upd].
  unfold pon_one. cbn [fst snd nth_error].
  unfold no_answer, bind.
  rewrite (presize_val_over A T HT bs' k' v' (repeat x n) n x bytes Hh Hx); auto.
  - destruct n; [lia|discriminate].
  - lia.
  - rewrite repeat_length. nia.
Qed.
Print Assumptions C18_resize_val_refuted.

(** The same for a vector in any state, whenever what is written does not fit the block. *)
Theorem C18_resize_val_overrun_refuted :
  forall (A : alc) (T : ety), ety_ok T ->
  forall (bs : list mblk) (k : nat) (v : pv) (xs : list (list N)) (n : nat) (x bytes : list N),
  pod_holds A T bs v xs -> is_elem T x -> xs <> [] -> n <= pcap v -> buf A T bs v bytes ->
  length bytes < (length xs + n) * esz T ->
  presize_val A T (N.of_nat n) (Val x) (mkMem bs k, v) = UB.
Proof. exact presize_val_over. Qed.
Print Assumptions C18_resize_val_overrun_refuted.

(** Three elements in a full vector, and resize(2, 9). *)
Example C18_case :
  let v := mkPv (Some (0, 0)) (Some (0, 3)) 3 in
  pod_holds ex_malloc (mkEty 1 1) [MBlk 16 [1;2;3]%N] v [[1];[2];[3]]%N /\
  presize_val ex_malloc (mkEty 1 1) 2 (Val [9%N]) (mkMem [MBlk 16 [1;2;3]%N] 0, v) = UB.
Proof.
  split; [|reflexivity].
  split; [repeat constructor|]. exists []. split; [|cbn; repeat split; lia].
  exists 16%N, []. repeat split.
Qed.

(** What is left of the property: if size() + n elements fit the capacity there is after the
    reserve(n) it begins with, the contents are right.  (Missing: all other cases, which
    are wrong or merely survive in the slack behind the capacity; and that it writes
    nothing else, for the n - (n - size()) elements behind the end are overwritten.) *)
Theorem C18_resize_val_partial :
  forall (A : alc) (T : ety), ety_ok T -> alc_ok A ->
  forall (bs : list mblk) (k : nat) (v : pv) (xs : list (list N)) (n : nat) (x : list N),
  pod_holds A T bs v xs -> is_elem T x -> room T n ->
  exists r bs1 k1 v1,
    preserve A T (N.of_nat n) (mkMem bs k, v) = Ok r (mkMem bs1 k1, v1) /\
    (length xs + n <= pcap v1 ->
     exists bs' v', presize_val A T (N.of_nat n) (Val x) (mkMem bs k, v) = Ok r (mkMem bs' k1, v') /\
       pod_holds A T bs' v' (resize_to xs n x)).
Proof.
  intros A T HT HA bs k v xs n x Hh Hx Hr.
  destruct (presize_val_spec A T HT HA bs k v xs n x Hh Hx Hr) as (r & bs1 & k1 & v1 & E & K).
  exists r, bs1, k1, v1. split; [exact E|]. intros Hc. destruct (K Hc) as (bs' & v' & E' & H & _). eauto.
Qed.
Print Assumptions C18_resize_val_partial.

Example C18_partial_case :
  let v := mkPv (Some (0, 0)) (Some (0, 1)) 4 in
  pod_holds ex_malloc (mkEty 1 1) [MBlk 16 [1;2;3;4]%N] v [[1]]%N /\
  presize_val ex_malloc (mkEty 1 1) 3 (Val [9%N]) (mkMem [MBlk 16 [1;2;3;4]%N] 0, v) =
  Ok false (mkMem [MBlk 16 [1;9;9;9]%N] 0, mkPv (Some (0, 0)) (Some (0, 3)) 4).
Proof.
  split; [|reflexivity].
  split; [repeat constructor|]. exists [2;3;4]%N. split; [|cbn; repeat split; lia].
  exists 16%N, []. repeat split.
Qed.

(** * C19: aligned storage *)

(** After every history every vector which has a buffer has it aligned, with its capacity
    inside its block, and finds its way back to the start of that block. *)
Theorem C19_pod_vector_storage :
  forall (A : alc) (T : ety), ety_ok T -> alc_ok A ->
  forall (early : bool) (n k : nat) (os : list podsys),
  pod_sys_along A T (repeat [] n) os ->
  exists m vs rs,
    run_calls (psys_call A T early) (mkMem [] k, repeat init_pv n) os = Some ((m, vs), rs) /\
    Forall (storage_ok A T m) vs.
Proof.
  intros A T HT HA early n k os Hal.
  destruct (history_spec A T HT HA early os [] k _ _ (fam_start A T n) Hal)
    as (bs' & k' & vs' & cs' & rs & E & Hh & (HF & _)).
  exists (mkMem bs' k'), vs', rs. split; [exact E|].
  clear - HF HT. induction HF; constructor; auto. eapply storage_spec; eauto.
Qed.
Print Assumptions C19_pod_vector_storage.

(** alignas(64) elements over a 16-aligned allocator: the block is at 16, data() at 64. *)
Example C19_case :
  run_calls (psys_call ex_malloc ex_a64 true) (mkMem [] 0, [init_pv]) [POn 0 (PReserve 1)] =
  Some ((mkMem [MBlk 16 (repeat 170%N 47 ++ [48%N] ++ repeat 170%N 80)] 1,
         [mkPv (Some (0, 48)) (Some (0, 48)) 1]), [RNone]).
Proof. vm_compute. reflexivity. Qed.
Example C19_along : pod_sys_along ex_malloc ex_a64 [[]] [POn 0 (PReserve 1)].
Proof. split; [|cbn; auto]. exists []. split; reflexivity. Qed.

(** * C20: recasts *)

Theorem C20_recast_copy :
  forall (A : alc) (T U : ety), ety_ok T -> ety_ok U -> alc_ok A ->
  forall (bs : list mblk) (k : nat) (a b : pv) (xs ys : list (list N)),
  pod_holds A T bs a xs -> pod_holds A U bs b ys ->
  (forall j, owner b = Some j -> owner a <> Some j) ->
  room U (length ys) -> room T (length (concat ys) / esz T) ->
  exists m' a' zs,
    recast_copy_from A T U (mkMem bs k, (a, b)) = Ok tt (m', (a', b)) /\
    recast_to T ys zs /\
    pread_all T (m', a') = Ok zs (m', a') /\ pread_all U (m', b) = Ok ys (m', b) /\
    storage_ok A T m' a'.
Proof.
  intros A T U HT HU HA bs k a b xs ys Ha Hb Hd HrU HrT.
  destruct (recast_copy_spec A T U HT HU HA bs k a b xs ys Ha Hb Hd HrU HrT)
    as (bs' & k' & a' & zs & tail & E & Ez & Ht & H1 & H2 & _).
  exists (mkMem bs' k'), a', zs. split; [exact E|]. split.
  { split; [apply H1|eauto]. }
  split; [eapply pread_all_spec; eauto|]. split; [eapply pread_all_spec; eauto|].
  eapply storage_spec; eauto.
Qed.
Print Assumptions C20_recast_copy.

(** Ten bytes become two ints. *)
Example C20_copy_case :
  let b := mkPv (Some (0, 0)) (Some (0, 10)) 10 in
  pod_holds ex_malloc (mkEty 1 1) [MBlk 16 [1;2;3;4;5;6;7;8;9;10]%N] b
    [[1];[2];[3];[4];[5];[6];[7];[8];[9];[10]]%N /\
  recast_to ex_int [[1];[2];[3];[4];[5];[6];[7];[8];[9];[10]]%N [[1;2;3;4];[5;6;7;8]]%N.
Proof.
  split.
  - split; [repeat constructor|]. exists []. split; [|cbn; repeat split; lia].
    exists 16%N, []. repeat split.
  - split; [repeat constructor|]. exists [9;10]%N. split; [reflexivity|cbn; lia].
Qed.

(** recast_take_from, where one padding is as good as the other ([recastable]). (Missing:
    the other pairs of alignments, for which it is wrong, below.) *)
Theorem C20_recast_take_partial :
  forall (A : alc) (T U : ety), ety_ok T -> ety_ok U -> alc_ok A -> recastable A T U ->
  forall (bs : list mblk) (k : nat) (a b : pv) (xs ys : list (list N)),
  pod_holds A T bs a xs -> pod_holds A U bs b ys ->
  (forall j, owner b = Some j -> owner a <> Some j) ->
  (N.of_nat (pcap b) * N.of_nat (esz U) < two64)%N ->
  exists m' a' zs,
    recast_take_from A T U (mkMem bs k, (a, b)) = Ok tt (m', (a', init_pv)) /\
    recast_to T ys zs /\ pread_all T (m', a') = Ok zs (m', a') /\
    pb a' = pb b /\ pcap a' = pcap b * esz U / esz T /\
    pod_holds A T (blks m') a' zs /\ storage_ok A T m' a'.
Proof.
  intros A T U HT HU HA Hrc bs k a b xs ys Ha Hb Hd Hcb.
  destruct (recast_take_spec A T U HT HU HA bs k a b xs ys Hrc Ha Hb Hd Hcb)
    as (bs' & a' & zs & tail & E & Ez & Ht & H1 & Hp & Hc).
  exists (mkMem bs' k), a', zs. split; [exact E|]. split.
  { split; [apply H1|eauto]. }
  split; [eapply pread_all_spec; eauto|]. split; [exact Hp|]. split; [exact Hc|].
  split; [exact H1|]. eapply storage_spec; eauto.
Qed.
Print Assumptions C20_recast_take_partial.

Example C20_take_case : recastable ex_malloc ex_int (mkEty 1 1) /\ recastable ex_malloc ex_a32 ex_a64.
Proof.
  split; (split; [reflexivity|]); [left; reflexivity|]. right. right. split; [cbn; lia|reflexivity].
Qed.

(** From elements aligned to 32 to elements aligned to 64, which the static_assert lets
    through: data() of the result is not aligned. *)
Theorem C20_recast_take_misaligned_refuted :
  exists (A : alc) (T U : ety) m b,
    alc_ok A /\ ety_ok T /\ ety_ok U /\
    allocator_aligned A T = allocator_aligned A U /\
    run_calls (psys_call A U true) (mkMem [] 0, [init_pv]) [POn 0 (PReserve 2)] = Some ((m, [b]), [RNone]) /\
    exists m' a', recast_take_from A T U (m, (init_pv, b)) = Ok tt (m', (a', init_pv)) /\
      (addr_of (pb a') m' mod N.of_nat (eal T) <> 0)%N.
Proof.
  exists ex_malloc, ex_a64, ex_a32.
  exists (mkMem [MBlk 16 (repeat 170%N 15 ++ [16%N] ++ repeat 170%N 80)] 1), (mkPv (Some (0, 16)) (Some (0, 16)) 2).
  split; [exact ex_malloc_ok|]. split; [exact ex_a64_ok|]. split; [exact ex_a32_ok|].
  split; [reflexivity|]. split; [vm_compute; reflexivity|].
  exists (mkMem [MBlk 16 (repeat 170%N 15 ++ [16%N] ++ repeat 170%N 80)] 1), (mkPv (Some (0, 16)) (Some (0, 16)) 1).
  split; [vm_compute; reflexivity|]. vm_compute. discriminate.
Qed.
Print Assumptions C20_recast_take_misaligned_refuted.

(** From elements aligned to 64 to elements aligned to 32, with an allocator which can
    expand: a_expand_begin asks for room for a padding of 32 bytes where there is one of
    48, so that after reserve(3) the capacity reaches past the end of the block. *)
Theorem C20_recast_take_expand_refuted :
  exists (A : alc) (T U : ety) m b,
    alc_ok A /\ ety_ok T /\ ety_ok U /\
    allocator_aligned A T = allocator_aligned A U /\
    run_calls (psys_call A U true) (mkMem [] 0, [init_pv]) [POn 0 (PReserve 1)] = Some ((m, [b]), [RNone]) /\
    exists m' a' m'' a'',
      recast_take_from A T U (m, (init_pv, b)) = Ok tt (m', (a', init_pv)) /\
      preserve A T 3 (m', a') = Ok false (m'', a'') /\
      (exists bb o ad bytes, pb a'' = Some (bb, o) /\ nth_error (blks m'') bb = Some (MBlk ad bytes) /\
         length bytes < o + pcap a'' * esz T) /\
      presize A T 3 (m'', a'') = UB.
Proof.
  exists ex_grow, ex_a32, ex_a64.
  exists (mkMem [MBlk 16 (repeat 170%N 47 ++ [48%N] ++ repeat 170%N 80)] 1), (mkPv (Some (0, 48)) (Some (0, 48)) 1).
  split; [exact ex_grow_ok|]. split; [exact ex_a32_ok|]. split; [exact ex_a64_ok|].
  split; [reflexivity|]. split; [vm_compute; reflexivity|].
  exists (mkMem [MBlk 16 (repeat 170%N 47 ++ [48%N] ++ repeat 170%N 80)] 1), (mkPv (Some (0, 48)) (Some (0, 48)) 2).
  exists (mkMem [MBlk 16 (repeat 170%N 47 ++ [48%N] ++ repeat 170%N 80)] 2), (mkPv (Some (0, 48)) (Some (0, 48)) 3).
  split; [vm_compute; reflexivity|]. split; [vm_compute; reflexivity|]. split; [|vm_compute; reflexivity].
  exists 0, 48, 16%N, (repeat 170%N 47 ++ [48%N] ++ repeat 170%N 80).
  split; [reflexivity|]. split; [reflexivity|]. vm_compute. lia.
Qed.
Print Assumptions C20_recast_take_expand_refuted.

(** * C21: adding a copy of one of its own elements *)

(** push_back(v[i]) is right if the value is loaded first (T not a class type, C++17) or
    if there is room.  (Missing: when it is read after a relocation, below.) *)
Theorem C21_push_back_own_partial :
  forall (A : alc) (T : ety), ety_ok T -> alc_ok A ->
  forall (early : bool) (bs : list mblk) (k : nat) (v : pv) (xs : list (list N)) (i : nat) (x : list N),
  pod_holds A T bs v xs -> nth_error xs i = Some x -> room T (length xs + 1) ->
  early = true \/ length xs < pcap v ->
  exists m' v', ppush_back A T early (Ref (after_begin v (i * esz T))) (mkMem bs k, v) = Ok tt (m', v') /\
    pread_all T (m', v') = Ok (xs ++ [x]) (m', v').
Proof.
  intros A T HT HA early bs k v xs i x Hh Hi Hr Hor.
  destruct (push_own A T HT HA early bs k v xs i x Hh Hi Hr Hor) as (bs' & k' & v' & E & H & _).
  exists (mkMem bs' k'), v'. split; [exact E|]. eapply pread_all_spec; eauto.
Qed.
Print Assumptions C21_push_back_own_partial.

(** insert(pos, v[i]) in a vector with room is right if v[i] is before the position.
    (Missing: at the position and when the vector grows; behind the position it is wrong,
    below.) *)
Theorem C21_insert_own_partial :
  forall (A : alc) (T : ety), ety_ok T -> alc_ok A ->
  forall (bs : list mblk) (k : nat) (v : pv) (xs : list (list N)) (pos i : nat) (x : list N),
  pod_holds A T bs v xs -> i < pos <= length xs -> nth_error xs i = Some x ->
  room T (length xs + 1) -> length xs + 1 <= pcap v ->
  exists m' v', pinsert1 A T pos (Ref (after_begin v (i * esz T))) (mkMem bs k, v) = Ok pos (m', v') /\
    pread_all T (m', v') = Ok (insert_at xs pos [x]) (m', v').
Proof.
  intros A T HT HA bs k v xs pos i x Hh Hpos Hi Hr Hc.
  destruct (insert_own A T HT HA bs k v xs pos i x x Hh ltac:(lia) Hi Hr Hc ltac:(left; split; [lia|auto]))
    as (bs' & k' & v' & E & H & _).
  exists (mkMem bs' k'), v'. split; [exact E|]. eapply pread_all_spec; eauto.
Qed.
Print Assumptions C21_insert_own_partial.

(** Behind the position it stores the element before v[i]: that one has moved there by the
    time it is read. *)
Theorem C21_insert_own_shifted_refuted :
  forall (A : alc) (T : ety), ety_ok T -> alc_ok A ->
  forall (bs : list mblk) (k : nat) (v : pv) (xs : list (list N)) (pos i : nat) (x y : list N),
  pod_holds A T bs v xs -> pos < i -> nth_error xs i = Some x -> nth_error xs (i - 1) = Some y ->
  room T (length xs + 1) -> length xs + 1 <= pcap v ->
  exists m' v', pinsert1 A T pos (Ref (after_begin v (i * esz T))) (mkMem bs k, v) = Ok pos (m', v') /\
    pread_all T (m', v') = Ok (insert_at xs pos [y]) (m', v').
Proof.
  intros A T HT HA bs k v xs pos i x y Hh Hpos Hi Hy Hr Hc.
  assert (i < length xs) by (apply nth_error_Some; congruence).
  destruct (insert_own A T HT HA bs k v xs pos i x y Hh ltac:(lia) Hi Hr Hc ltac:(right; split; auto))
    as (bs' & k' & v' & E & H' & _).
  exists (mkMem bs' k'), v'. split; [exact E|]. eapply pread_all_spec; eauto.
Qed.
Print Assumptions C21_insert_own_shifted_refuted.

Example C21_own_case :
  let v := mkPv (Some (0, 0)) (Some (0, 3)) 4 in
  pod_holds ex_malloc (mkEty 1 1) [MBlk 16 [1;2;3;4]%N] v [[1];[2];[3]]%N /\
  room (mkEty 1 1) (3 + 1) /\
  pinsert1 ex_malloc (mkEty 1 1) 0 (Ref (after_begin v 2)) (mkMem [MBlk 16 [1;2;3;4]%N] 0, v) =
  Ok 0 (mkMem [MBlk 16 [2;1;2;3]%N] 0, mkPv (Some (0, 0)) (Some (0, 4)) 4).
Proof.
  split; [|split; [vm_compute|]; reflexivity].
  split; [repeat constructor|]. exists [4]%N. split; [|cbn; repeat split; lia].
  exists 16%N, []. repeat split.
Qed.

(** When the vector is relocated the reference is left in freed memory: with an allocator
    without expand this is so for every full vector, each of its elements and every
    position. *)
Theorem C21_own_relocated_refuted :
  forall (A : alc) (T : ety), alc_ok A -> ety_ok T -> a_has_expand A = false ->
  forall bs k v xs i x, pod_holds A T bs v xs -> nth_error xs i = Some x ->
  room T (length xs + 1) -> pcap v = length xs ->
  ppush_back A T false (Ref (after_begin v (i * esz T))) (mkMem bs k, v) = UB /\
  forall pos, pos <= length xs ->
  pinsert1 A T pos (Ref (after_begin v (i * esz T))) (mkMem bs k, v) = UB.
Proof.
  intros A T HA HT He bs k v xs i x Hh Hi Hr Hc. split.
  - eapply push_own_moved; eauto.
  - intros pos Hp. eapply insert_own_moved; eauto.
Qed.
Print Assumptions C21_own_relocated_refuted.

Example C21_relocated_case :
  let bs := [MBlk 16 [1;2;3]%N] in
  let v := mkPv (Some (0, 0)) (Some (0, 3)) 3 in
  let xs := [[1];[2];[3]]%N in
  alc_ok ex_malloc /\ ety_ok (mkEty 1 1) /\ a_has_expand ex_malloc = false /\
  pod_holds ex_malloc (mkEty 1 1) bs v xs /\ nth_error xs 0 = Some [1]%N /\
  room (mkEty 1 1) (length xs + 1) /\ pcap v = length xs.
Proof.
  split; [exact ex_malloc_ok|]. split; [split; [cbn; lia|exists 0; cbn; lia]|]. split; [reflexivity|].
  split.
  { split; [repeat constructor|]. exists []. split; [|cbn; repeat split; lia].
    exists 16%N, []. repeat split. }
  repeat split.
Qed.
