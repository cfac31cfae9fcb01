(** The property theorems of pod_vector over an allocator with a narrow size_type: C103.

    [W] is the number of bits of the allocator's size_type. *)
From Coq Require Import List Arith NArith ZArith Lia.
From Verif Require Import Base SeqSpec VecCommon SmallVectorModel PodVectorModel PodVectorSpec PodVectorProofs
  PodVectorProps PodNarrowModel PodNarrowSpec PodNarrowProofs PodNarrowMore.
Import ListNotations.

(** With room: the histories of C16 come out the same, call by call, when everything asked for
    fits, with the spare capacity and the padding, in size_type. *)
Theorem C103_narrow_histories_partial :
  forall (W : N) (A : alc) (T : ety), ety_ok T -> alc_ok A -> (W <= 64)%N ->
  forall (early : bool) (n k : nat) (os : list podsys),
  pod_sys_along A T (repeat [] n) os -> narrow_along W A T (repeat [] n) os ->
  exists m vs cs rs,
    run_calls (npsys_call W A T early) (mkMem [] k, repeat init_pv n) os = Some ((m, vs), rs) /\
    pod_history A T (repeat [] n) os cs rs /\
    Forall2 (fun v xs =>
      psize T (m, v) = Ok (length xs) (m, v) /\
      pread_all T (m, v) = Ok xs (m, v) /\
      forall i x, nth_error xs i = Some x -> pat T i (m, v) = Ok x (m, v)) vs cs.
Proof.
  intros W A T HT HA HW early n k os Hal Hn.
  rewrite (narrow_history W A T HT HA HW early os [] k _ _ (fam_start A T n) Hal Hn).
  now apply C16_pod_vector_histories.
Qed.
Print Assumptions C103_narrow_histories_partial.

(** A size_type of 8 bits: 20 elements of 4 bytes, which grow to 31 or less. *)
Example C103_histories_met :
  let os := [POn 0 (PSeq (AssignN 20 [1;2;3;4]%N)); POn 0 (PSeq (PushBack [5;6;7;8]%N))] in
  pod_sys_along ex_malloc ex_int [[]] os /\ narrow_along 8 ex_malloc ex_int [[]] os.
Proof.
  assert (forall cs' r, pod_sys_step ex_malloc ex_int [[]] (POn 0 (PSeq (AssignN 20 [1;2;3;4]%N))) cs' r ->
    cs' = [repeat [1;2;3;4]%N 20]) as K.
  { intros cs' r H. inversion H; subst. cbn in *.
    match goal with h : Some _ = Some _ |- _ => injection h as <- end.
    match goal with h : pod_step _ _ _ _ _ _ |- _ => inversion h; subst end. reflexivity. }
  cbv zeta. split.
  - cbn [pod_sys_along]. split.
    { exists []. split; [reflexivity|]. split; [reflexivity|]. vm_compute. reflexivity. }
    intros cs' r H. rewrite (K _ _ H). split; [|auto].
    eexists. split; [reflexivity|]. split; [reflexivity|]. vm_compute. reflexivity.
  - cbn [narrow_along]. split.
    { intros xs E. injection E as <-. split; vm_compute; reflexivity. }
    intros cs' r H. rewrite (K _ _ H). split; [|auto].
    intros xs E. injection E as <-. split; vm_compute; reflexivity.
Qed.
Example C103_histories_case :
  option_map snd (run_calls (npsys_call 8 ex_malloc ex_int true) (mkMem [] 0, [init_pv])
    [POn 0 (PSeq (AssignN 20 [1;2;3;4]%N)); POn 0 (PSeq (PushBack [5;6;7;8]%N)); POn 0 (PSeq (Erase 3))]) =
  Some [RNone; RNone; RPos 3].
Proof. vm_compute. reflexivity. Qed.

(** Without: push_back is undefined although the elements fit.  A vector of [n] elements which
    fills its block; [n + 1] elements would fit in size_type, but the bytes of the capacity half
    as big again do not, are cut, and the block the allocator is asked for is smaller than the
    one before.  Whatever the allocator answers, the elements are copied out of its bounds, or
    m_end is set beyond it. *)
Theorem C103_growth_refuted :
  forall (W : N) (A : alc) (T : ety), ety_ok T -> alc_ok A -> (W <= 62)%N ->
  forall (early : bool) (bs : list mblk) (k n : nat) (x y : list N),
  is_elem T x -> n <> 0 -> few W T (N.of_nat n) ->
  (block_bytes A T (N.of_nat n + 1) < 2 ^ W)%N ->
  (2 ^ W <= block_bytes A T ((3 * N.of_nat n + 1) / 2))%N ->
  exists m v,
    npcall W A T early (PSeq (AssignN n x)) (mkMem bs k, init_pv) = Ok None (m, v) /\
    pread_all T (m, v) = Ok (repeat x n) (m, v) /\
    npcall W A T early (PSeq (PushBack y)) (m, v) = UB.
Proof.
  intros W A T HT HA HW early bs k n x y Hx Hn Hf Hlo Hhi.
  assert (2 ^ W <= 2 ^ 62)%N as Hp by (apply N.pow_le_mono_r; lia).
  change (2 ^ 62)%N with 4611686018427387904%N in Hp.
  assert (room T n) as Hr.
  { unfold few in Hf. unfold room, two63.
    assert (N.of_nat n + N.of_nat n / 2 <= N.of_nat n + N.of_nat n)%N as K.
    { assert (N.of_nat n / 2 <= N.of_nat n)%N; [|lia]. apply N.div_le_upper_bound; lia. }
    pose proof (N.mul_le_mono_r _ _ (N.of_nat (esz T)) K). lia. }
  destruct (assign_exact W A T HT ltac:(lia) HA bs k n x Hx Hr Hf) as (bs' & k' & v' & E & Hh & Hc).
  exists (mkMem bs' k'), v'. split; [|split].
  - cbn [npcall]. unfold no_answer. now rewrite (bind_ok _ _ _ _ _ E).
  - exact (pread_all_spec A T HT bs' k' v' _ Hh).
  - cbn [npcall]. unfold no_answer, bind at 1.
    rewrite (push_short W A T HT ltac:(lia) early bs' k' v' (repeat x n) y Hh); rewrite ?repeat_length; auto.
    + destruct n; [contradiction|discriminate].
    + pose proof (few_lt W T HT ltac:(lia) _ Hf). unfold two64. lia.
Qed.
Print Assumptions C103_growth_refuted.

(** 50 elements of 4 bytes in a size_type of 8 bits; 5 elements of 32 bytes, padded. *)
Example C103_growth_met : forall early y, exists m v,
  npcall 8 ex_malloc ex_int early (PSeq (AssignN 50 [1;2;3;4]%N)) (mkMem [] 0, init_pv) = Ok None (m, v) /\
  pread_all ex_int (m, v) = Ok (repeat [1;2;3;4]%N 50) (m, v) /\
  npcall 8 ex_malloc ex_int early (PSeq (PushBack y)) (m, v) = UB.
Proof.
  intros early y.
  refine (C103_growth_refuted 8 ex_malloc ex_int ex_int_ok ex_malloc_ok _ early [] 0 50 _ y _ _ _ _ _);
    try reflexivity; vm_compute; discriminate.
Qed.
Example C103_growth_met_padded : forall early y, exists m v,
  npcall 8 ex_grow ex_a32 early (PSeq (AssignN 5 (repeat 7%N 32))) (mkMem [] 0, init_pv) = Ok None (m, v) /\
  pread_all ex_a32 (m, v) = Ok (repeat (repeat 7%N 32) 5) (m, v) /\
  npcall 8 ex_grow ex_a32 early (PSeq (PushBack y)) (m, v) = UB.
Proof.
  intros early y.
  refine (C103_growth_refuted 8 ex_grow ex_a32 ex_a32_ok ex_grow_ok _ early [] 0 5 _ y _ _ _ _ _);
    try reflexivity; vm_compute; discriminate.
Qed.
(** The wide one does both. *)
Example C103_growth_wide :
  option_map snd (run_calls (psys_call ex_malloc ex_int true) (mkMem [] 0, [init_pv])
    [POn 0 (PSeq (AssignN 50 [1;2;3;4]%N)); POn 0 (PSeq (PushBack [5;6;7;8]%N))]) = Some [RNone; RNone].
Proof. vm_compute. reflexivity. Qed.

(** reserve takes a size_t and answers with less: the capacity is what it was asked for, cut. *)
Theorem C103_reserve_refuted :
  forall (W : N) (A : alc) (T : ety), ety_ok T -> alc_ok A -> (W <= 63)%N ->
  forall (bs : list mblk) (k : nat) (count : N),
  (2 ^ W <= count)%N -> few W T (count mod 2 ^ W) ->
  exists r m v, npreserve W A T count (mkMem bs k, init_pv) = Ok r (m, v) /\
    (N.of_nat (pcap v) = count mod 2 ^ W)%N /\ (N.of_nat (pcap v) < count)%N.
Proof.
  intros W A T HT HA HW bs k count Hc Hf.
  destruct (reserve_cut W A T HT ltac:(lia) HA bs k count HW Hc Hf) as (r & m & v & E & Ec).
  exists r, m, v. split; [exact E|]. split; [exact Ec|]. rewrite Ec. pose proof (cut_lt W count). lia.
Qed.
Print Assumptions C103_reserve_refuted.

Example C103_reserve_met : exists r m v, npreserve 16 ex_malloc ex_int 65546 (mkMem [] 0, init_pv) = Ok r (m, v) /\
    (N.of_nat (pcap v) = 10)%N /\ (N.of_nat (pcap v) < 65546)%N.
Proof.
  refine (C103_reserve_refuted 16 ex_malloc ex_int ex_int_ok ex_malloc_ok _ [] 0 65546 _ _);
    vm_compute; first [discriminate|reflexivity].
Qed.

(** The constructor with a number of elements makes so many, cut. *)
Theorem C103_constructor_refuted :
  forall (W : N) (A : alc) (T : ety), ety_ok T -> alc_ok A -> (W <= 64)%N ->
  forall (bs : list mblk) (k : nat) (count : N),
  room T (N.to_nat (count mod 2 ^ W)) -> narrow_room W T (N.to_nat (count mod 2 ^ W)) ->
  exists m v xs, npmake W A T count (mkMem bs k, init_pv) = Ok tt (m, v) /\
    pread_all T (m, v) = Ok xs (m, v) /\ (N.of_nat (length xs) = count mod 2 ^ W)%N.
Proof.
  intros W A T HT HA HW bs k count Hr Hn.
  destruct (npmake_spec W A T HT HA HW bs k count Hr Hn) as (bs' & k' & v' & xs & E & Hh & Hl).
  exists (mkMem bs' k'), v', xs. split; [exact E|]. split; [exact (pread_all_spec A T HT bs' k' v' _ Hh)|exact Hl].
Qed.
Print Assumptions C103_constructor_refuted.

Example C103_constructor_met : exists m v xs, npmake 16 ex_malloc ex_int 65546 (mkMem [] 0, init_pv) = Ok tt (m, v) /\
    pread_all ex_int (m, v) = Ok xs (m, v) /\ N.of_nat (length xs) = 10%N.
Proof.
  refine (C103_constructor_refuted 16 ex_malloc ex_int ex_int_ok ex_malloc_ok _ [] 0 65546 _ _);
    vm_compute; first [discriminate|reflexivity].
Qed.

(** A range of 2^W elements or more: the place made for them is cut, all of them are copied. *)
Theorem C103_range_refuted :
  forall (W : N) (A : alc) (T : ety), ety_ok T -> (W <= 64)%N ->
  forall (bs : list mblk) (k : nat) (l : list (list N)),
  Forall (is_elem T) l -> (2 ^ W <= N.of_nat (length l))%N ->
  npassign_copy W A T l (mkMem bs k, init_pv) = UB /\
  npinsert_range W A T 0 l (mkMem bs k, init_pv) = UB.
Proof.
  intros W A T HT HW bs k l Hl Hlen. split.
  - exact (assign_short W A T HT HW bs k l Hl Hlen).
  - exact (insert_short W A T HT HW bs k l Hl Hlen).
Qed.
Print Assumptions C103_range_refuted.

Example C103_range_met :
  npassign_copy 8 ex_malloc ex_int (repeat [1;2;3;4]%N 300) (mkMem [] 0, init_pv) = UB /\
  npinsert_range 8 ex_malloc ex_int 0 (repeat [1;2;3;4]%N 300) (mkMem [] 0, init_pv) = UB.
Proof.
  apply C103_range_refuted; [exact ex_int_ok|lia| |].
  - apply Forall_forall. intros x H. apply repeat_spec in H. now subst.
  - vm_compute. discriminate.
Qed.
