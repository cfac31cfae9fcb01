(** Specification of dynamic_bitset: lists of booleans. *)
From Coq Require Import List Arith NArith Bool.
From Verif Require Import Base VecCommon BitsetModel.
Import ListNotations.

Section Spec.
(** Bits per word. *)
Variable W : nat.

(** The i-th bit of a buffer of words. *)
Definition bit_of (b : list N) (i : nat) : bool :=
  match nth_error b (i / W) with
  | Some w => N.testbit w (N.of_nat (i mod W))
  | None => false
  end.

(** Words are W bits wide. *)
Definition words_ok (b : list N) : Prop :=
  forall w, In w b -> (w < 2 ^ N.of_nat W)%N.

(** The number of words needed for [n] bits, rounded up. *)
Definition words_for (n : nat) : nat := (n + (W - 1)) / W.

(** The bitset holds the sequence [l]. Nothing is said about the bits of the last word
    beyond the size. *)
Definition holds_bits (s : bs) (l : list bool) : Prop :=
  bsize s = length l /\
  length (buf s) = words_for (length l) /\
  words_ok (buf s) /\
  forall i, i < length l -> nth_error l i = Some (bit_of (buf s) i).

(** A size whose rounding up to whole words does not overflow size_t. *)
Definition size_ok (n : nat) : Prop := (N.of_nat n + N.of_nat W - 1 < two64)%N.

Definition resize_bits (l : list bool) (n : nat) : list bool :=
  firstn n l ++ repeat false (n - length l).

(** The bits of words, least significant first. *)
Definition bits_of_words (ws : list N) : list bool :=
  flat_map (fun w => map (fun i => N.testbit w (N.of_nat i)) (seq 0 W)) ws.

Definition bstep (l : list bool) (o : bop) : list bool * bans :=
  match o with
  | BTest i => (l, BaBool (nth i l false))
  | BSet i => (upd l i true, BaNone)
  | BReset i => (upd l i false, BaNone)
  | BSetTo i b => (upd l i b, BaNone)
  | BFlip i => (upd l i (negb (nth i l false)), BaNone)
  | BPushBack b => (l ++ [b], BaNone)
  | BResize n => (resize_bits l n, BaNone)
  | BAssign ws => (bits_of_words ws, BaNone)
  | BSize => (l, BaNat (length l))
  | BIterate => (l, BaBits l)
  | BAny => (l, BaBool (existsb (fun b => b) l))
  | BNone => (l, BaBool (negb (existsb (fun b => b) l)))
  end.

Definition bok (l : list bool) (o : bop) : Prop :=
  match o with
  | BTest i | BSet i | BReset i | BSetTo i _ | BFlip i => i < length l
  | BPushBack _ => size_ok (length l + 1)
  | BResize n => size_ok n
  | BAssign ws => words_ok ws
  | _ => True
  end.

(** A bitset made from a size and a word: the word's bits over and over. *)
Definition repeat_word (n : nat) (v : N) : list bool :=
  map (fun i => N.testbit v (N.of_nat (i mod W))) (seq 0 n).

Definition bsys_step (cs : list (list bool)) (o : bsysop) : list (list bool) * bans :=
  match o with
  | BOn i op =>
      match nth_error cs i with
      | None => (cs, BaNone)
      | Some l => let '(l', a) := bstep l op in (upd cs i l', a)
      end
  | BNew i n v => (upd cs i (repeat_word n v), BaNone)
  | BAppend i j =>
      match nth_error cs i, nth_error cs j with
      | Some l, Some k => (upd cs i (l ++ k), BaNone)
      | _, _ => (cs, BaNone)
      end
  | BCopyAssign i j =>
      match nth_error cs j with None => (cs, BaNone) | Some k => (upd cs i k, BaNone) end
  | BMoveAssign i j =>
      match nth_error cs j with
      | None => (cs, BaNone)
      | Some k => (upd (upd cs i k) j [], BaNone)
      end
  end.

(** The bitsets named exist; two different ones where two are named, except that a bitset
    whose size is not a multiple of W may be appended to itself. *)
Definition bsys_ok (cs : list (list bool)) (o : bsysop) : Prop :=
  match o with
  | BOn i op => exists l, nth_error cs i = Some l /\ bok l op
  | BNew i n v => i < length cs /\ size_ok n /\ (v < 2 ^ N.of_nat W)%N
  | BAppend i j =>
      exists l k, nth_error cs i = Some l /\ nth_error cs j = Some k /\
        size_ok (length l + length k) /\
        (i = j -> l = [] \/ length l mod W <> 0)
  | BCopyAssign i j | BMoveAssign i j => i < length cs /\ j < length cs /\ i <> j
  end.

Fixpoint bsys_run (cs : list (list bool)) (os : list bsysop) : list (list bool) * list bans :=
  match os with
  | [] => (cs, [])
  | o :: os' =>
      let '(cs', a) := bsys_step cs o in
      let '(cs'', rs) := bsys_run cs' os' in
      (cs'', a :: rs)
  end.
Fixpoint bsys_along (cs : list (list bool)) (os : list bsysop) : Prop :=
  match os with
  | [] => True
  | o :: os' => bsys_ok cs o /\ bsys_along (fst (bsys_step cs o)) os'
  end.

(** The bits [from, to) of [l] replaced by those of [k] from [src] on. *)
Definition copied (l k : list bool) (from to src : nat) : list bool :=
  firstn from l ++ firstn (to - from) (skipn src k) ++ skipn to l.

(** The first index from [from] on which begins a word, but at most [to]. *)
Definition first_boundary (from to : nat) : nat :=
  if from mod W =? 0 then from else Nat.min to (from - from mod W + W).

(** Position within its word of the source bit which is copied to [first_boundary]. *)
Definition source_offset (from to src : nat) : nat :=
  (src + (first_boundary from to - from)) mod W.
End Spec.
