(** Theorems about copying bits within one dynamic_bitset (property C89). *)
From Coq Require Import List Arith NArith Bool Lia.
From Verif Require Import Base VecCommon BitsetModel BitsetSpec BitsetProofs BitsetSelfModel BitsetSelfSpec
  BitsetSelfProofs.
Import ListNotations.

(** ** C89 *)

(** copy(from, to, source) with [source] in the same bitset: the bits become what the source's were
    before, unless the last, partial, word needs bits of two words of the source. *)
Theorem C89_copy_partial :
  forall (W : nat) (s : bs) (l : list bool) (from to src : nat),
  0 < W -> holds_bits W s l -> from <= to -> to <= length l -> src + (to - from) <= length l ->
  copyable from to src ->
  first_boundary W from to = to \/ source_offset W from to src + to mod W <= W ->
  exists s', self_copy W from to src s = Ok tt s' /\ holds_bits W s' (copied l l from to src).
Proof. intros. now apply self_copy_right. Qed.
Print Assumptions C89_copy_partial.

(** In the remaining case the bits which are in the second word come out as false. *)
Theorem C89_tail_refuted :
  forall (W : nat) (s : bs) (l : list bool) (from to src : nat),
  0 < W -> holds_bits W s l -> from <= to -> to <= length l -> src + (to - from) <= length l ->
  copyable from to src -> first_boundary W from to < to -> W < source_offset W from to src + to mod W ->
  exists s' l', self_copy W from to src s = Ok tt s' /\ holds_bits W s' l' /\
    length l' = length l /\
    (forall i, i < length l -> i < from \/ to <= i -> nth_error l' i = nth_error l i) /\
    (forall i, to - (source_offset W from to src + to mod W - W) <= i < to ->
       nth_error l' i = Some false) /\
    (forall i, from <= i < to - (source_offset W from to src + to mod W - W) ->
       nth_error l' i = nth_error l (src + (i - from))).
Proof.
  intros W s l from to src HW Hs H1 H2 H3 Hc Hb Ho.
  destruct (copy_wrong W HW s l s l from to src Hs Hs H1 H2 H3 Hb Ho) as (s' & l' & R & K).
  exists s', l'. split; [|exact K]. eapply self_copy_sim; eauto.
Qed.
Print Assumptions C89_tail_refuted.

(** Overlapping ranges, the destination first; ranges which share a word; and the tail that is lost. *)
Example C89_met :
  let s := mkBs [0xb5; 0x3c; 0x96]%N 24 in
  (copyable 3 19 5 /\ source_offset 8 3 19 5 + 19 mod 8 <= 8 /\
   self_copy 8 3 19 5 s = Ok tt (mkBs [0x2d; 0x8f; 0x95]%N 24)) /\
  (copyable 9 15 0 /\ first_boundary 8 9 15 = 15 /\
   self_copy 8 9 15 0 s = Ok tt (mkBs [0xb5; 0x6a; 0x96]%N 24)) /\
  (copyable 0 7 4 /\ first_boundary 8 0 7 < 7 /\ 8 < source_offset 8 0 7 4 + 7 mod 8 /\
   self_copy 8 0 7 4 s = Ok tt (mkBs [0x8b; 0x3c; 0x96]%N 24)).
Proof. unfold copyable. vm_compute. repeat split; lia. Qed.
