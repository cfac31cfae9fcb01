(** Property theorems for dynamic_bitset. *)
From Coq Require Import List Arith NArith Lia Bool.
From Verif Require Import Base VecCommon BitsetModel BitsetSpec BitsetProofs.
Import ListNotations.

(** C28. Any history of calls on any family of bitsets gives the answers and the contents
    of lists of booleans, for every word width. *)
Theorem C28_bitset_histories :
  forall (W : nat) (st : list bs) (cs : list (list bool)) (os : list bsysop),
  0 < W -> Forall2 (holds_bits W) st cs -> bsys_along W cs os ->
  exists st',
    brun W st os = Some (st', snd (bsys_run W cs os)) /\
    Forall2 (holds_bits W) st' (fst (bsys_run W cs os)).
Proof. intros W st cs os HW F H. now apply brun_sim. Qed.
Print Assumptions C28_bitset_histories.

(** Empty bitsets are a starting point for it. *)
Theorem C28_bitset_empty : forall (W n : nat), 0 < W ->
  Forall2 (holds_bits W) (repeat bs_empty n) (repeat [] n).
Proof.
  intros W n HW. induction n as [|n IH]; cbn; constructor; auto. now apply holds_nil.
Qed.
Print Assumptions C28_bitset_empty.

Definition C28_ops : list bsysop :=
  [BNew 0 5 255; BOn 0 (BReset 2); BOn 0 (BResize 3); BOn 0 (BResize 10);
   BOn 1 (BPushBack true); BOn 1 (BPushBack false); BAppend 0 1; BOn 0 BIterate;
   BAppend 0 0; BOn 0 BSize; BOn 1 (BAssign [5%N; 128%N]); BOn 1 (BTest 15); BCopyAssign 1 0;
   BMoveAssign 0 1; BOn 0 BAny].
Example C28_met :
  bsys_along 8 [[]; []] C28_ops /\
  snd (bsys_run 8 [[]; []] C28_ops) =
    [BaNone; BaNone; BaNone; BaNone; BaNone; BaNone; BaNone;
     BaBits [true; true; false; false; false; false; false; false; false; false; true; false];
     BaNone; BaNat 24; BaNone; BaBool true; BaNone; BaNone; BaBool true].
Proof.
  split; [|vm_compute; reflexivity].
  cbn; unfold size_ok, words_ok; repeat split; try lia; try discriminate;
    try (do 2 eexists; repeat split; try reflexivity; try discriminate; auto);
    try (eexists; split; [reflexivity|]; cbn; try exact I; try lia; try reflexivity).
  - cbn. lia.
  - intros _. right. vm_compute. discriminate.
  - intros w [<-|[<-|[]]]; reflexivity.
Qed.

(** C58. A bitset can be appended to itself when its last word is not full ... *)
Theorem C58_self_append_partial : forall (W : nat) (s : bs) (l : list bool),
  0 < W -> holds_bits W s l -> size_ok W (length l + length l) -> length l mod W <> 0 ->
  exists s', self_append W s = Ok tt s' /\ holds_bits W s' (l ++ l).
Proof. intros W s l HW H Hn Hm. apply self_append_ok; auto. Qed.
Print Assumptions C58_self_append_partial.

(** ... and is undefined behaviour when it is full. *)
Theorem C58_self_append_refuted : forall (W : nat) (s : bs) (l : list bool),
  0 < W -> holds_bits W s l -> l <> [] -> length l mod W = 0 -> self_append W s = UB.
Proof.
  intros W s l HW H Hl Hm. unfold self_append. rewrite bind_get.
  destruct (is_empty s) eqn:E.
  - apply (holds_empty W HW _ _ H) in E. contradiction.
  - rewrite (proj1 H), Hm. reflexivity.
Qed.
Print Assumptions C58_self_append_refuted.

Example C58_met :
  let s := mkBs [7%N] 3 in let t := mkBs [7%N] 8 in
  holds_bits 8 s [true; true; true] /\
  holds_bits 8 t [true; true; true; false; false; false; false; false] /\
  size_ok 8 (3 + 3).
Proof.
  split; [|split].
  - repeat split; try reflexivity. + intros w [<-|[]]; reflexivity.
    + intros [|[|[|i]]] H; try reflexivity. cbn in H. lia.
  - repeat split; try reflexivity. + intros w [<-|[]]; reflexivity.
    + intros [|[|[|[|[|[|[|[|i]]]]]]]] H; try reflexivity. cbn in H. lia.
  - reflexivity.
Qed.

(** C59. A bitset made with, or resized to, [n] bits has room for them, as long as [n]
    rounded up to whole words is representable ... *)
Theorem C59_size_partial : forall (W n : nat) (v : N) (s : bs) (l : list bool),
  0 < W -> size_ok W n -> (v < 2 ^ N.of_nat W)%N -> holds_bits W s l ->
  holds_bits W (bs_make W n v) (repeat_word W n v) /\
  exists s', resize W n s = Ok tt s' /\ holds_bits W s' (resize_bits l n).
Proof.
  intros W n v s l HW Hn Hv H. split; [now apply make_ok|].
  destruct (resize_ok W HW s l n H Hn) as (s' & R & H' & _). eauto.
Qed.
Print Assumptions C59_size_partial.

(** ... but a size within W - 1 of the top of size_t gives an empty buffer: the bitset
    reports the size, and every access to a bit is undefined behaviour. *)
Theorem C59_size_refuted : forall (W n : nat) (v : N),
  0 < W -> (N.of_nat W < two64)%N ->
  (N.of_nat n < two64)%N -> (two64 <= N.of_nat n + N.of_nat W - 1)%N ->
  buf (bs_make W n v) = [] /\ bsize (bs_make W n v) = n /\
  forall i, test W i (bs_make W n v) = UB.
Proof.
  intros W n v HW HW2 Hn Hb.
  assert (word_size W n = 0) as E.
  { unfold word_size. assert ((N.of_nat n + N.of_nat W - 1) = (N.of_nat n + N.of_nat W - 1 - two64) + 1 * two64)%N as -> by lia.
    rewrite N.mod_add by discriminate. rewrite N.mod_small by lia. rewrite N.div_small by lia. reflexivity. }
  unfold bs_make. rewrite E. cbn [repeat buf bsize]. repeat split.
  intros i. unfold test, bind, word. cbn [buf]. now destruct (word_index W i).
Qed.
Print Assumptions C59_size_refuted.

Example C59_met : exists n, (N.of_nat n < two64)%N /\ (two64 <= N.of_nat n + N.of_nat 32 - 1)%N.
Proof. exists (N.to_nat (two64 - 1)). rewrite N2Nat.id. split; vm_compute; [reflexivity|discriminate]. Qed.

(** C29. any() and none(), for every word width and whatever the bits of the last word
    beyond the size. *)
Theorem C29_any_none : forall (W : nat) (s : bs) (l : list bool),
  0 < W -> holds_bits W s l ->
  (exists b, any_ W s = Ok b s /\ (b = true <-> In true l)) /\
  (exists b, none_ W s = Ok b s /\ (b = true <-> ~ In true l)).
Proof.
  intros W s l HW H. assert (existsb (fun b => b) l = true <-> In true l) as E.
  { rewrite existsb_exists. split; [intros (b & I & ->); auto|eauto]. }
  split.
  - eexists. split; [apply any_ok; eassumption|exact E].
  - eexists. split; [apply none_ok; eassumption|]. rewrite <- E. destruct (existsb (fun b => b) l); cbn; intuition congruence.
Qed.
Print Assumptions C29_any_none.

(** all(), when the words are at least as wide as int, or no word is full. *)
Theorem C29_all_partial : forall (W : nat) (s : bs) (l : list bool),
  0 < W -> holds_bits W s l -> 32 <= W \/ length l < W ->
  exists b, all_ W s = Ok b s /\ (b = true <-> l <> [] /\ ~ In false l).
Proof.
  intros W s l HW H HC. eexists. split; [apply all_ok; eassumption|].
  rewrite andb_true_iff, negb_true_iff, Nat.eqb_neq, forallb_forall. split.
  - intros (A & B). split; [intros ->; now apply A|]. intros I. specialize (B _ I). discriminate.
  - intros (A & B). split; [destruct l; [congruence|discriminate]|].
    intros [] I; [reflexivity|contradiction].
Qed.
Print Assumptions C29_all_partial.

(** With words narrower than int (uint8_t, uint16_t), all() is false as soon as there is
    one full word, even when every bit is set. *)
Theorem C29_all_narrow_refuted : forall (W : nat) (s : bs) (l : list bool),
  0 < W -> holds_bits W s l -> W < 32 -> W <= length l -> all_ W s = Ok false s.
Proof. intros W s l HW H H1 H2. now apply all_narrow with (l := l). Qed.
Print Assumptions C29_all_narrow_refuted.

Example C29_met : (* every bit set, with a stale bit in the second word *)
  let s := mkBs [4294967295%N; 13%N] 33 in
  holds_bits 32 s (repeat true 33) /\ all_ 32 s = Ok true s /\
  let t := mkBs [255%N] 8 in
  holds_bits 8 t (repeat true 8) /\ all_ 8 t = Ok false t.
Proof.
  cbv zeta. split; [|split; [reflexivity|split; [|reflexivity]]].
  - repeat split; try reflexivity.
    + intros w [<-|[<-|[]]]; reflexivity.
    + intros i H. rewrite nth_error_repeat_lt by exact H. rewrite repeat_length in H.
      assert (forallb (fun i => bit_of 32 [4294967295%N; 13%N] i) (seq 0 33) = true) as A by reflexivity.
      rewrite forallb_forall in A. f_equal. symmetry. apply A. apply in_seq. lia.
  - repeat split; try reflexivity.
    + intros w [<-|[]]; reflexivity.
    + intros i H. rewrite nth_error_repeat_lt by exact H. rewrite repeat_length in H.
      assert (forallb (fun i => bit_of 8 [255%N] i) (seq 0 8) = true) as A by reflexivity.
      rewrite forallb_forall in A. f_equal. symmetry. apply A. apply in_seq. lia.
Qed.

(** C30. copy(from, to, source), for bits of another bitset: right, unless the last,
    partial, word needs bits of two words of the source. *)
Theorem C30_copy_partial :
  forall (W : nat) (s o : bs) (l k : list bool) (from to src : nat),
  0 < W -> holds_bits W s l -> holds_bits W o k ->
  from <= to -> to <= length l -> src + (to - from) <= length k ->
  first_boundary W from to = to \/ source_offset W from to src + to mod W <= W ->
  exists s', copy W from to src (s, o) = Ok tt (s', o) /\
    holds_bits W s' (copied l k from to src).
Proof. intros. now apply copy_right. Qed.
Print Assumptions C30_copy_partial.

(** In the remaining case the bits which are in the second word come out as false,
    whatever they are in the source. *)
Theorem C30_copy_tail_refuted :
  forall (W : nat) (s o : bs) (l k : list bool) (from to src : nat),
  0 < W -> holds_bits W s l -> holds_bits W o k ->
  from <= to -> to <= length l -> src + (to - from) <= length k ->
  first_boundary W from to < to -> W < source_offset W from to src + to mod W ->
  exists s' l', copy W from to src (s, o) = Ok tt (s', o) /\ holds_bits W s' l' /\
    length l' = length l /\
    (forall i, i < length l -> i < from \/ to <= i -> nth_error l' i = nth_error l i) /\
    (forall i, to - (source_offset W from to src + to mod W - W) <= i < to ->
       nth_error l' i = Some false) /\
    (forall i, from <= i < to - (source_offset W from to src + to mod W - W) ->
       nth_error l' i = nth_error k (src + (i - from))).
Proof. intros. now apply copy_wrong. Qed.
Print Assumptions C30_copy_tail_refuted.

Example C30_met : (* 7 bits copied from bit 4 on *)
  let o := mkBs [255%N; 255%N] 16 in let s := mkBs [0%N; 0%N] 16 in
  first_boundary 8 0 7 < 7 /\ 8 < source_offset 8 0 7 4 + 7 mod 8 /\
  copy 8 0 7 4 (s, o) = Ok tt (mkBs [15%N; 0%N] 16, o) /\
  (* and 12 bits, right *)
  source_offset 8 3 15 3 + 15 mod 8 <= 8 /\
  copy 8 3 15 3 (s, o) = Ok tt (mkBs [248%N; 127%N] 16, o).
Proof. vm_compute. repeat split; lia. Qed.
