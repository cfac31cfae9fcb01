(** Model of itlib/dynamic_bitset.hpp, over std::vector as the buffer.

    Words are numbers below 2^W; W is bits_per_word (8, 16, 32 or 64; the model works for
    every W > 0, the proofs say which they need).  Every result of an operation on words
    is cut to W bits, as by the conversion back to word_type; the one place where the
    promotion of narrow words to int shows is [is_all_ones].  An access to a word which
    the buffer does not have is undefined behaviour.

    Simplified: bit indices and sizes are natural numbers, but word_size computes in 64
    bits; memory exhaustion and the vector's max_size are not modelled; a moved-from
    vector is empty. *)
From Coq Require Import List Arith NArith ZArith Bool.
From Verif Require Import Base VecCommon.
Import ListNotations.

Section Bitset.
(** dynamic_bitset.hpp 156: bits_per_word *)
Variable W : nat.

(** The data members, 430-432. *)
Record bs : Type := mkBs { buf : list N; bsize : nat }.

Definition with_buf (b : list N) (s : bs) : bs := mkBs b (bsize s).

(** Conversion to word_type. *)
Definition wtrunc (x : N) : N := N.land x (N.ones (N.of_nat W)).
Definition wnot (x : N) : N := N.lnot x (N.of_nat W).
Definition wshl (x : N) (k : nat) : N := wtrunc (N.shiftl x (N.of_nat k)).
Definition wshr (x : N) (k : nat) : N := N.shiftr x (N.of_nat k).

(** 408-427: the static helpers. *)
Definition word_size (size : nat) : nat :=
  N.to_nat (((N.of_nat size + N.of_nat W - 1) mod two64) / N.of_nat W).
Definition word_index (i : nat) : nat := i / W.
Definition bit_index (i : nat) : nat := i mod W.
Definition word_mask (i : nat) : N := wshl 1 (bit_index i).

(** m_buf[k], m_buf[k] = w, m_buf.back() *)
Definition word (k : nat) : M bs N := fun s =>
  match nth_error (buf s) k with Some w => Ok w s | None => UB end.
Definition set_word (k : nat) (w : N) : M bs unit := fun s =>
  if k <? length (buf s) then Ok tt (with_buf (upd (buf s) k w) s) else UB.

(** 159-162 *)
Definition bs_empty : bs := mkBs [] 0.
Definition bs_make (size : nat) (value : N) : bs := mkBs (repeat value (word_size size)) size.

(** 185: empty() *)
Definition is_empty (s : bs) : bool := match buf s with [] => true | _ => false end.

(** 190-193 test *)
Definition test (i : nat) : M bs bool :=
  let* w := word (word_index i) in
  ret (negb (N.land w (word_mask i) =? 0)%N).

(** 199-202: [*it != ~word_type(0)] is false.  A word narrower than int is promoted to
    int, and so is word_type(0), whose complement is then -1. *)
Definition is_all_ones (w : N) : bool :=
  if W <? 32 then (Z.of_N w =? -1)%Z else (w =? N.ones (N.of_nat W))%N.

(** 195-210 all: the words from [i] on, [k] of them. *)
Fixpoint all_loop (i k : nat) : M bs bool :=
  match k with
  | 0 => ret true
  | S k' =>
      let* w := word i in
      if is_all_ones w then all_loop (S i) k' else ret false
  end.
Definition all_ : M bs bool :=
  let* s := get in
  if is_empty s then ret false else
  let* b := all_loop 0 (bsize s / W) in
  if negb b then ret false else
  if bsize s / W =? length (buf s) then ret true else
  let mask := wtrunc (word_mask (bsize s mod W) - 1) in
  let* back := word (length (buf s) - 1) in
  ret (N.land back mask =? mask)%N.

(** 212-227 any, 229 none *)
Fixpoint any_loop (i k : nat) : M bs bool :=
  match k with
  | 0 => ret false
  | S k' =>
      let* w := word i in
      if (w =? 0)%N then any_loop (S i) k' else ret true
  end.
Definition any_ : M bs bool :=
  let* s := get in
  if is_empty s then ret false else
  let* b := any_loop 0 (bsize s / W) in
  if b then ret true else
  if bsize s / W =? length (buf s) then ret false else
  let mask := wtrunc (word_mask (bsize s mod W) - 1) in
  let* back := word (length (buf s) - 1) in
  ret (negb (N.land back mask =? 0)%N).
Definition none_ : M bs bool := let* b := any_ in ret (negb b).

(** 232-252: set, reset, set to a value, flip *)
Definition set1 (i : nat) : M bs unit :=
  let* w := word (word_index i) in
  set_word (word_index i) (N.lor w (word_mask i)).
Definition reset1 (i : nat) : M bs unit :=
  let* w := word (word_index i) in
  set_word (word_index i) (N.land w (wnot (word_mask i))).
Definition set_to (i : nat) (b : bool) : M bs unit := if b then set1 i else reset1 i.
Definition flip (i : nat) : M bs unit :=
  let* w := word (word_index i) in
  set_word (word_index i) (N.lxor w (word_mask i)).

(** The vector's resize: new words are zero. *)
Definition vec_resize (n : nat) : M bs unit := fun s =>
  Ok tt (with_buf (firstn n (buf s) ++ repeat 0%N (n - length (buf s))) s).
Definition set_size (n : nat) : M bs unit := fun s => Ok tt (mkBs (buf s) n).

(** 256-265 resize *)
Definition resize (size : nat) : M bs unit :=
  let* s := get in
  let pad := bsize s mod W in
  (if pad =? 0 then ret tt
   else
     let* back := word (length (buf s) - 1) in
     set_word (length (buf s) - 1) (N.land back (wtrunc (word_mask pad - 1)))) ;;;
  set_size size ;;;
  vec_resize (word_size size).

(** 266-270 push_back *)
Definition push_back (b : bool) : M bs unit :=
  let* s := get in
  resize (bsize s + 1) ;;;
  let* s' := get in
  set_to (bsize s' - 1) b.

(** 272-276 assign(buffer) *)
Definition assign (b : list N) : M bs unit := fun _ => Ok tt (mkBs b (length b * W)).

(** 278-302 append.  The words of [other] are read one by one, and written from position
    [myi] on. *)
Fixpoint append_loop (other : list N) (pad : nat) (myi : nat) : M bs unit :=
  match other with
  | [] => ret tt
  | cur :: rest =>
      let* w := word myi in
      set_word myi (N.lor w (wshl cur pad)) ;;;
      let* s := get in
      if S myi =? length (buf s) then ret tt
      else
        set_word (S myi) (wshr cur (W - pad)) ;;;
        append_loop rest pad (S myi)
  end.
Definition append (other : bs) : M bs unit :=
  if is_empty other then ret tt else
  let* s := get in
  let pad := bsize s mod W in
  if pad =? 0 then
    put (mkBs (buf s ++ buf other) (bsize s + bsize other))
  else
    let back := length (buf s) - 1 in
    resize (bsize s + bsize other) ;;;
    append_loop (buf other) pad back.

(** append of a bitset to itself: [other] is the object which is being changed.
    vector::insert(end(), begin(), end()) of the vector itself is undefined behaviour;
    otherwise the words are read from the buffer as it is at that time. *)
Fixpoint self_append_loop (fuel i pad myi : nat) : M bs unit :=
  let* s := get in
  if length (buf s) <=? i then ret tt else
  match fuel with
  | 0 => diverge
  | S fuel' =>
      let* cur := word i in
      let* w := word myi in
      set_word myi (N.lor w (wshl cur pad)) ;;;
      if S myi =? length (buf s) then ret tt
      else
        set_word (S myi) (wshr cur (W - pad)) ;;;
        self_append_loop fuel' (S i) pad (S myi)
  end.
Definition self_append : M bs unit :=
  let* s := get in
  if is_empty s then ret tt else
  let pad := bsize s mod W in
  if pad =? 0 then ub
  else
    let back := length (buf s) - 1 in
    resize (bsize s + bsize s) ;;;
    let* s' := get in
    self_append_loop (length (buf s')) 0 pad back.

(** 167-178: move construction and assignment; 164-165: the defaulted copy. *)
Definition move_assign : M (bs * bs) unit := fun st =>
  Ok tt (mkBs (buf (snd st)) (bsize (snd st)), mkBs [] 0).
Definition copy_assign : M (bs * bs) unit := fun st => Ok tt (snd st, snd st).

(** Iteration, 327-370: [for (it = begin(); it != end(); ++it) use( *it)]. *)
Fixpoint iterate (fuel index : nat) : M bs (list bool) :=
  let* s := get in
  if index =? bsize s then ret [] else
  match fuel with
  | 0 => diverge
  | S fuel' =>
      let* b := test index in
      let* l := iterate fuel' (index + 1) in
      ret (b :: l)
  end.

(** 372-404 copy(from, to, source) of bits from another bitset: iterators are bit
    indices, the state is (this, source's bitset). *)
Fixpoint copy_bits (fuel from to src : nat) : M (bs * bs) (nat * nat) :=
  if bit_index from =? 0 then ret (from, src) else
  if from =? to then ret (from, src) else
  match fuel with
  | 0 => diverge
  | S fuel' =>
      let* b := onR (test src) in
      onL (set_to from b) ;;;
      copy_bits fuel' (from + 1) to (src + 1)
  end.
Fixpoint copy_words (fuel from to own sw pad : nat) : M (bs * bs) (nat * (nat * nat)) :=
  if W <=? to - from then
    match fuel with
    | 0 => diverge
    | S fuel' =>
        let* w := onR (word sw) in
        onL (set_word own (wshr w pad)) ;;;
        (if pad =? 0 then ret tt
         else
           let* w2 := onR (word (sw + 1)) in
           let* o := onL (word own) in
           onL (set_word own (N.lor o (wshl w2 (W - pad))))) ;;;
        copy_words fuel' (from + W) to (own + 1) (sw + 1) pad
    end
  else ret (from, (own, sw)).
Definition copy (from to src : nat) : M (bs * bs) unit :=
  let* p := copy_bits W from to src in
  let from1 := fst p in
  let src1 := snd p in
  if negb (bit_index from1 =? 0) then ret tt else   (* left by the return in the loop *)
  let pad := bit_index src1 in
  let* q := copy_words (to - from1) from1 to (word_index from1) (word_index src1) pad in
  let from2 := fst q in
  let own := fst (snd q) in
  let sw := snd (snd q) in
  if from2 =? to then ret tt else
  let rpad := bit_index to in
  let m := wtrunc (word_mask rpad - 1) in
  let* w := onR (word sw) in
  let* o := onL (word own) in
  onL (set_word own (N.lor (N.land (wshr w pad) m) (N.land o (wnot m)))).

(** * Calls, for histories *)

Inductive bop : Type :=
| BTest (i : nat)              (* test(i), operator[], *(begin() + i) *)
| BSet (i : nat)               (* also through a bitref *)
| BReset (i : nat)
| BSetTo (i : nat) (b : bool)  (* set(i, b), bits[i] = b *)
| BFlip (i : nat)
| BPushBack (b : bool)
| BResize (n : nat)
| BAssign (words : list N)
| BSize
| BIterate
| BAny
| BNone.
Inductive bans : Type :=
| BaNone
| BaBool (b : bool)
| BaNat (n : nat)
| BaBits (l : list bool).

Definition bcall (o : bop) : M bs bans :=
  match o with
  | BTest i => let* b := test i in ret (BaBool b)
  | BSet i => set1 i ;;; ret BaNone
  | BReset i => reset1 i ;;; ret BaNone
  | BSetTo i b => set_to i b ;;; ret BaNone
  | BFlip i => flip i ;;; ret BaNone
  | BPushBack b => push_back b ;;; ret BaNone
  | BResize n => resize n ;;; ret BaNone
  | BAssign ws => assign ws ;;; ret BaNone
  | BSize => let* s := get in ret (BaNat (bsize s))
  | BIterate => let* s := get in let* l := iterate (bsize s) 0 in ret (BaBits l)
  | BAny => let* b := any_ in ret (BaBool b)
  | BNone => let* b := none_ in ret (BaBool b)
  end.

(** Several bitsets. *)
Inductive bsysop : Type :=
| BOn (i : nat) (o : bop)
| BNew (i : nat) (size : nat) (value : N)  (* b[i] = dynamic_bitset(size, value) *)
| BAppend (i j : nat)                      (* b[i].append(b[j]) *)
| BCopyAssign (i j : nat)
| BMoveAssign (i j : nat).

Definition on_pair {A} (m : M (bs * bs) A) (i j : nat) : M (list bs) A := fun st =>
  match nth_error st i, nth_error st j with
  | Some a, Some b =>
      match m (a, b) with
      | Ok r (a', b') => Ok r (upd (upd st i a') j b')
      | Throw e (a', b') => Throw e (upd (upd st i a') j b')
      | UB => UB
      | Diverge => Diverge
      end
  | _, _ => UB
  end.

Definition bsys (o : bsysop) : M (list bs) bans :=
  match o with
  | BOn i op => on_one (bcall op) i
  | BNew i n v => on_one (put (bs_make n v) ;;; ret BaNone) i
  | BAppend i j =>
      if i =? j then on_one (self_append ;;; ret BaNone) i
      else on_pair ((let* st := get in onL (append (snd st))) ;;; ret BaNone) i j
  | BCopyAssign i j => on_pair (copy_assign ;;; ret BaNone) i j
  | BMoveAssign i j => on_pair (move_assign ;;; ret BaNone) i j
  end.

Fixpoint brun (st : list bs) (os : list bsysop) : option (list bs * list bans) :=
  match os with
  | [] => Some (st, [])
  | o :: os' =>
      match bsys o st with
      | Ok a st' =>
          match brun st' os' with
          | Some (st'', rs) => Some (st'', a :: rs)
          | None => None
          end
      | _ => None
      end
  end.
End Bitset.
