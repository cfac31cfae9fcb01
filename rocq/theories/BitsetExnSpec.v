(** Specification of dynamic_bitset over a buffer which may run out of memory: a call
    either does what it does on lists of booleans, or throws and changes nothing. *)
From Coq Require Import List Arith NArith Bool.
From Verif Require Import Base VecCommon BitsetModel BitsetSpec BitsetExnModel.
Import ListNotations.

Section Spec.
(** Bits per word. *)
Variable W : nat.

(** The call [o] on the contents [l] has the contents [l'] and the answer [a]. *)
Inductive xdoes : list bool -> xop -> list bool -> bans -> Prop :=
| does_on l o : xdoes l (XOn o) (fst (bstep W l o)) (snd (bstep W l o))
| does_reserve l n : xdoes l (XReserve n) l BaNone
| does_append l t k : holds_bits W t k -> xdoes l (XAppend t) (l ++ k) BaNone
| does_copy l t k : holds_bits W t k -> xdoes l (XCopyAssign t) k BaNone.

(** The calls allowed on the contents [l]: the bits named exist, the sizes can be
    rounded up, other bitsets are in order. *)
Definition xok (l : list bool) (o : xop) : Prop :=
  match o with
  | XOn o => bok W l o
  | XReserve _ => True
  | XAppend t => exists k, holds_bits W t k /\ size_ok W (length l + length k)
  | XCopyAssign t => exists k, holds_bits W t k
  end.

(** The size the call asks the buffer to have through dynamic_bitset::resize. *)
Definition resizes_to (l : list bool) (o : xop) : option nat :=
  match o with
  | XOn (BResize n) => Some n
  | XOn (BPushBack _) => Some (length l + 1)
  | XAppend t => if length l mod W =? 0 then None else Some (length l + bsize t)
  | _ => None
  end.

(** The buffer the call assigns. *)
Definition assigns (o : xop) : option (list N) :=
  match o with
  | XOn (BAssign ws) => Some ws
  | XCopyAssign t => Some (buf t)
  | _ => None
  end.

(** The calls which an exception can interrupt only where nothing has changed: those
    which need no more words through resize, and assign no more words. *)
Definition untouchable (l : list bool) (o : xop) : Prop :=
  (forall n, resizes_to l o = Some n -> words_for W n <= words_for W (length l)) /\
  (forall b, assigns o = Some b -> length b <= words_for W (length l)).

(** A history in which every call either does its work or throws and changes nothing. *)
Inductive xhistory : list bool -> list xop -> list (option bans) -> list bool -> Prop :=
| xh_nil l : xhistory l [] [] l
| xh_done l o l' a os r l'' : xdoes l o l' a -> xhistory l' os r l'' ->
    xhistory l (o :: os) (Some a :: r) l''
| xh_thrown l o os r l'' : xhistory l os r l'' ->
    xhistory l (o :: os) (None :: r) l''.

(** Whatever has happened so far, the next call is allowed and untouchable. *)
Inductive xhistory_ok : list bool -> list xop -> Prop :=
| xo_nil l : xhistory_ok l []
| xo_cons l o os : xok l o -> untouchable l o ->
    (forall l' a, xdoes l o l' a -> xhistory_ok l' os) -> xhistory_ok l os ->
    xhistory_ok l (o :: os).

(** No sequence of bits is held: the object is broken. *)
Definition broken (s : bs) : Prop := forall l, ~ holds_bits W s l.

(** The bits of [l] with those of the last word from position [pad] on cleared. *)
Definition tail_cleared (l : list bool) (pad : nat) : list bool :=
  map (fun i => nth i l false && ((i / W <? words_for W (length l) - 1) || (i mod W <? pad)))
      (seq 0 (length l)).
End Spec.
