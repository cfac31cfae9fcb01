(** The property theorems of dynamic_bitset over the library's own vectors: C99. *)
From Coq Require Import List Arith NArith ZArith Bool Lia.
From Verif Require Import Base SeqSpec VecCommon SmallVectorModel SmallVectorSpec PodVectorModel PodVectorSpec PodVectorProps
  BitsetModel BitsetSpec BitsetProps BitsetBufModel BitsetBufSpec BitsetBufProofs BitsetBufPodProofs BitsetBufSmallProofs.
Import ListNotations.
Open Scope nat_scope.

(** C99. Any history of calls of any number of bitsets answers as sequences of booleans do,
    if their buffers are itlib::pod_vectors whose allocator asks for new elements to be
    zeroed... *)
Theorem C99_over_pod_vector_partial :
  forall (A : alc) (T : ety) (early : bool) (n : nat) (os : list bsysop),
  ety_ok T -> alc_ok A -> a_zero A = true ->
  bsys_along (8 * esz T) (repeat [] n) os ->
  room_along (8 * esz T) (PodVectorSpec.room T) (repeat [] n) os ->
  exists st', grun (8 * esz T) (pod_buffers A T early) ((mkMem [] 0, repeat init_pv n), repeat 0 n) os
    = Some (st', snd (bsys_run (8 * esz T) (repeat [] n) os)).
Proof.
  intros A T early n os HT HA HZ Hl Hr. assert (0 < 8 * esz T) as HW by (destruct HT; lia).
  exact (grun_correct _ HW _ _ _ (buffers_ok_pod A T early HT HA HZ) _ n os (pod_start A T n) Hl Hr).
Qed.
Print Assumptions C99_over_pod_vector_partial.

(** ...or itlib::small_vectors, for words of any width. *)
Theorem C99_over_small_vector :
  forall (W SC RB : nat) (maxn : N) (n : nat) (os : list bsysop),
  0 < W -> 0 < SC -> RB <= SC + 1 -> (maxn < two63)%N ->
  bsys_along W (repeat [] n) os ->
  room_along W (SmallVectorSpec.room maxn) (repeat [] n) os ->
  exists st', grun W (small_buffers SC RB maxn) (repeat (init_vec SC) n, repeat 0 n) os
    = Some (st', snd (bsys_run W (repeat [] n) os)).
Proof.
  intros W SC RB maxn n os HW HSC HRB Hm Hl Hr.
  exact (grun_correct W HW _ _ _ (buffers_ok_small W SC RB maxn HSC HRB Hm) _ n os (small_start W SC RB maxn HSC HRB Hm n) Hl Hr).
Qed.
Print Assumptions C99_over_small_vector.

(** The history of C28: two bitsets of 8-bit words which outgrow the static buffer of their
    small_vectors, appends at odd places, an append of a bitset to itself, copies and moves. *)
Definition ex_byte : ety := mkEty 1 1.
Lemma C99_ops_room (room : nat -> Prop) : (forall k, k <= 4 -> room k) -> room_along 8 room [[]; []] C28_ops.
Proof.
  intros H. assert (H4 := H 4 (le_n _)). assert (H3 := H 3 ltac:(lia)). assert (H2 := H 2 ltac:(lia)).
  assert (H1 := H 1 ltac:(lia)). assert (H0 := H 0 ltac:(lia)). clear H.
  vm_compute. repeat split; repeat constructor; assumption.
Qed.
Example C99_met :
  bsys_along (8 * esz ex_byte) (repeat [] 2) C28_ops /\
  room_along (8 * esz ex_byte) (PodVectorSpec.room ex_byte) (repeat [] 2) C28_ops /\
  room_along 8 (SmallVectorSpec.room 6) (repeat [] 2) C28_ops /\
  ety_ok ex_byte /\ alc_ok ex_malloc /\ a_zero ex_malloc = true.
Proof.
  split; [exact (proj1 C28_met)|]. split; [|split; [|split; [|split; [exact ex_malloc_ok|reflexivity]]]].
  - apply C99_ops_room. intros k Hk. do 5 (destruct k as [|k]; [reflexivity|]). lia.
  - apply C99_ops_room. intros k Hk. do 5 (destruct k as [|k]; [vm_compute; discriminate|]). lia.
  - split; [cbn; lia|]. exists 0. cbn. lia.
Qed.

(** An allocator of pod_vector may ask for new elements to be left as they are
    (zero_fill_new, pod_vector.hpp 92, 618): then bits which resize adds are whatever was in
    the memory. *)
Definition C99_left : alc :=
  mkAlc 16 false 64 false (fun call _ => Some (N.of_nat (16 * (1 + 256 * call)))) (fun _ _ => 170%N) (fun _ => false).
Theorem C99_no_zero_fill_refuted :
  ~ (forall (A : alc) (T : ety) (early : bool) (n : nat) (os : list bsysop),
     ety_ok T -> alc_ok A ->
     bsys_along (8 * esz T) (repeat [] n) os ->
     room_along (8 * esz T) (PodVectorSpec.room T) (repeat [] n) os ->
     exists st', grun (8 * esz T) (pod_buffers A T early) ((mkMem [] 0, repeat init_pv n), repeat 0 n) os
       = Some (st', snd (bsys_run (8 * esz T) (repeat [] n) os))).
Proof.
  intros H. destruct (H C99_left ex_byte true 1 [BOn 0 (BResize 2); BOn 0 (BTest 1)]) as (st' & E).
  - split; [cbn; lia|]. exists 0. cbn. lia.
  - split; [exists 4; reflexivity|]. intros call size _. eexists. split; [reflexivity|]. apply ex_addr_aligned.
  - cbn. split; [exists []; split; reflexivity|]. split; auto. exists [false; false]. split; [reflexivity|]. cbn. lia.
  - cbn. repeat split; repeat constructor.
  - vm_compute in E. discriminate.
Qed.
Print Assumptions C99_no_zero_fill_refuted.
