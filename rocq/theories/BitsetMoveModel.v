(** Model of several dynamic_bitsets (itlib/dynamic_bitset.hpp) which are moved and swapped while the user
    keeps references to their bits (305-325) and iterators (327-370).

    As in BitsetRefModel a bitref has a reference to a word, and words are in blocks; here the blocks of all
    bitsets have different numbers, and a block which a vector leaves is never used again.  std::vector's move
    constructor and move assignment (168, 174) hand the block over: references into it stay valid.
    An iterator has a reference to a bitset object, and an index.

    Simplified: as in BitsetRefModel; the bitsets are there all the time; allocators are always equal, a
    moved-from vector is empty; moving a bitset to itself leaves its vector unspecified and counts as undefined
    here.  Of the operations of iterators, which BitsetRefModel has, there is only +. *)
From Coq Require Import List Arith NArith ZArith Bool.
From Verif Require Import Base VecCommon BitsetModel BitsetRefModel.
Import ListNotations.
Open Scope nat_scope.

(** The bitsets; the number of the next block; the references and the iterators the user has. *)
Record world := World { sets : list rbs; nextb : nat; grefs : list bitref; gits : list (nat * N) }.

Section Moves.
Variable W : nat.

(** A member function of bitset [i]. A block which is not the one it had is a new one. *)
Definition placed (i : nat) (s s' : rbs) (w : world) : world :=
  if block s' =? block s then World (upd (sets w) i s') (nextb w) (grefs w) (gits w)
  else World (upd (sets w) i (Rbs (core s') (nextb w) (capw s'))) (S (nextb w)) (grefs w) (gits w).
Definition at_set {A} (i : nat) (m : M rbs A) : M world A := fun w =>
  match nth_error (sets w) i with
  | None => UB
  | Some s =>
      match m s with
      | Ok a s' => Ok a (placed i s s' w)
      | Throw e s' => Throw e (placed i s s' w)
      | UB => UB
      | Diverge => Diverge
      end
  end.
Definition the_set (j : nat) : M world rbs := fun w =>
  match nth_error (sets w) j with Some s => Ok s w | None => UB end.

(** 278-302 append(other) of another bitset *)
Definition g_append (i j c : nat) : M world unit :=
  if i =? j then ub else
  let* o := the_set j in at_set i (on_core (append W (core o)) ;;; account c).
(** 165 operator=(const dynamic_bitset&), the vector's operator= *)
Definition g_copy (i j c : nat) : M world unit :=
  if i =? j then ub else
  let* o := the_set j in
  at_set i ((fun s => Ok tt (Rbs (core o) (block s) (capw s))) ;;; renew ;;; account c).

(** Moving out of a bitset (167-171, 174-176): the vector's block and the size go with it; it has an empty
    vector and the size 0. *)
Definition take_out (j : nat) : M world rbs := fun w =>
  match nth_error (sets w) j with
  | None => UB
  | Some s => Ok s (World (upd (sets w) j (Rbs (mkBs [] 0) (nextb w) 0)) (S (nextb w)) (grefs w) (gits w))
  end.
(** Moving into a bitset (174-175): it gives its own block back. *)
Definition put_in (i : nat) (s : rbs) : M world unit := fun w =>
  match nth_error (sets w) i with
  | None => UB
  | Some _ => Ok tt (World (upd (sets w) i s) (nextb w) (grefs w) (gits w))
  end.
(** 172-178 operator=(dynamic_bitset&&) *)
Definition g_move (i j : nat) : M world unit :=
  if i =? j then ub else let* s := take_out j in put_in i s.
(** std::swap(a, b): dynamic_bitset tmp(std::move(a)); a = std::move(b); b = std::move(tmp) *)
Definition g_swap (i j : nat) : M world unit :=
  let* tmp := take_out i in g_move i j ;;; put_in j tmp.

(** The bitset which has the block. *)
Fixpoint owner_of (l : list rbs) (b : nat) : option nat :=
  match l with
  | [] => None
  | s :: l' => if block s =? b then Some 0 else match owner_of l' b with Some i => Some (S i) | None => None end
  end.
(** Use of a reference. If no bitset has its block any more it is dangling. *)
Definition through {A} (r : bitref) (m : M rbs A) : M world A := fun w =>
  match owner_of (sets w) (rblock r) with
  | Some i => at_set i m w
  | None => UB
  end.

Inductive gop : Type :=
| GCall (i : nat) (o : bop) (c : nat)
| GReserve (i n c : nat)
| GAppend (i j c : nat)
| GCopy (i j c : nat)                 (* b[i] = b[j] *)
| GMove (i j : nat)                   (* b[i] = std::move(b[j]) *)
| GSwap (i j : nat)                   (* std::swap(b[i], b[j]) *)
| GRef (i p : nat)                    (* auto r = b[i][p] *)
| GTest (k : nat)                     (* r.test(), bool(r) *)
| GSet (k : nat) | GReset (k : nat) | GFlip (k : nat)
| GSetTo (k : nat) (b : bool)
| GBegin (i : nat)                    (* auto it = b[i].begin() *)
| GAdvance (k : nat) (z : Z)          (* auto it2 = it + z *)
| GRead (k : nat)                     (* *it *)
| GItRef (k : nat).                   (* auto r = *it *)

Definition g_ref (k : nat) : M world bitref := fun w =>
  match nth_error (grefs w) k with Some r => Ok r w | None => UB end.
Definition g_it (k : nat) : M world (nat * N) := fun w =>
  match nth_error (gits w) k with Some r => Ok r w | None => UB end.
Definition g_keep (r : bitref) : M world unit := fun w =>
  Ok tt (World (sets w) (nextb w) (grefs w ++ [r]) (gits w)).
Definition g_keep_it (x : nat * N) : M world unit := fun w =>
  Ok tt (World (sets w) (nextb w) (grefs w) (gits w ++ [x])).

Definition gdo (o : gop) : M world rans :=
  match o with
  | GCall i o c => let* a := at_set i (rcall W c o) in ret (RaBits a)
  | GReserve i n c => at_set i (rreserve W c n) ;;; ret RaNone
  | GAppend i j c => g_append i j c ;;; ret RaNone
  | GCopy i j c => g_copy i j c ;;; ret RaNone
  | GMove i j => g_move i j ;;; ret RaNone
  | GSwap i j => g_swap i j ;;; ret RaNone
  | GRef i p => let* r := at_set i (ref_make W p) in g_keep r ;;; ret RaNone
  | GTest k => let* r := g_ref k in let* b := through r (ref_test r) in ret (RaBool b)
  | GSet k => let* r := g_ref k in through r (ref_set r) ;;; ret RaNone
  | GReset k => let* r := g_ref k in through r (ref_reset W r) ;;; ret RaNone
  | GFlip k => let* r := g_ref k in through r (ref_flip r) ;;; ret RaNone
  | GSetTo k b => let* r := g_ref k in through r (ref_set_to W r b) ;;; ret RaNone
  | GBegin i => the_set i ;;; g_keep_it (i, 0%N) ;;; ret RaNone
  | GAdvance k z => let* x := g_it k in g_keep_it (fst x, it_add (snd x) z) ;;; ret RaNone
  | GRead k => let* x := g_it k in let* b := at_set (fst x) (on_core (test W (N.to_nat (snd x)))) in ret (RaBool b)
  | GItRef k => let* x := g_it k in let* r := at_set (fst x) (ref_make W (N.to_nat (snd x))) in g_keep r ;;; ret RaNone
  end.

Fixpoint grun (os : list gop) : M world (list rans) :=
  match os with
  | [] => ret []
  | o :: os' => let* a := gdo o in let* rs := grun os' in ret (a :: rs)
  end.
End Moves.
