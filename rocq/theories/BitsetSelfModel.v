(** Model of itlib/dynamic_bitset.hpp 372-404, copy(from, to, source), when [source] is an iterator
    of the same bitset: m_buf and src are then the same buffer, and what has been written is read
    again.  The rest is as in BitsetModel.v. *)
From Coq Require Import List Arith NArith Bool.
From Verif Require Import Base VecCommon BitsetModel.
Import ListNotations.

Section Self.
Variable W : nat.

(** 374-379 *)
Fixpoint self_copy_bits (fuel from to src : nat) : M bs (nat * nat) :=
  if bit_index W from =? 0 then ret (from, src) else
  if from =? to then ret (from, src) else
  match fuel with
  | 0 => diverge
  | S fuel' =>
      let* b := test W src in
      set_to W from b ;;;
      self_copy_bits fuel' (from + 1) to (src + 1)
  end.
(** 385-397 *)
Fixpoint self_copy_words (fuel from to own sw pad : nat) : M bs (nat * (nat * nat)) :=
  if W <=? to - from then
    match fuel with
    | 0 => diverge
    | S fuel' =>
        let* w := word sw in
        set_word own (wshr w pad) ;;;
        (if pad =? 0 then ret tt
         else
           let* w2 := word (sw + 1) in
           let* o := word own in
           set_word own (N.lor o (wshl W w2 (W - pad)))) ;;;
        self_copy_words fuel' (from + W) to (own + 1) (sw + 1) pad
    end
  else ret (from, (own, sw)).
(** 372-404 *)
Definition self_copy (from to src : nat) : M bs unit :=
  let* p := self_copy_bits W from to src in
  let from1 := fst p in
  let src1 := snd p in
  if negb (bit_index W from1 =? 0) then ret tt else
  let pad := bit_index W src1 in
  let* q := self_copy_words (to - from1) from1 to (word_index W from1) (word_index W src1) pad in
  let from2 := fst q in
  let own := fst (snd q) in
  let sw := snd (snd q) in
  if from2 =? to then ret tt else
  let rpad := bit_index W to in
  let m := wtrunc W (word_mask W rpad - 1) in
  let* w := word sw in
  let* o := word own in
  set_word own (N.lor (N.land (wshr w pad) m) (N.land o (wnot W m))).
End Self.
