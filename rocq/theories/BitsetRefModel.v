(** Model of the reference objects and the iterators of itlib/dynamic_bitset.hpp (135-144, 305-370),
    which the user may keep while the bitset changes.

    A bitref has a reference to a word of the buffer.  The buffer is a std::vector: it has a capacity,
    and when it needs more it moves its words to another block; then references to its words are
    dangling.  Assignment to the vector may destroy all its words (and make others).  Making the vector
    smaller destroys the words at its end.  Blocks are numbered; to use a reference into another block
    than the present one, or to a word which is not there, is undefined behaviour.
    How much a vector allocates when it needs more is its own choice: [c] in the calls, any number.

    An iterator has a reference to the bitset and an index, a size_t. *)
From Coq Require Import List Arith NArith ZArith Bool.
From Verif Require Import Base VecCommon BitsetModel.
Import ListNotations.
Open Scope nat_scope.

(** The bitset: its members as in BitsetModel, the number of the vector's block and its capacity. *)
Record rbs := Rbs { core : bs; block : nat; capw : nat }.
(** 319-321: word and mask *)
Record bitref := Bitref { rblock : nat; rindex : nat; rmask : N }.

Section Refs.
Variable W : nat.

Definition on_core {A} (m : M bs A) : M rbs A := fun s =>
  match m (core s) with
  | Ok a b => Ok a (Rbs b (block s) (capw s))
  | Throw e b => Throw e (Rbs b (block s) (capw s))
  | UB => UB
  | Diverge => Diverge
  end.
(** The vector has been given what it has now: did it need another block? *)
Definition account (c : nat) : M rbs unit := fun s =>
  if length (buf (core s)) <=? capw s then Ok tt s
  else Ok tt (Rbs (core s) (S (block s)) (Nat.max (length (buf (core s))) c)).
(** All references are dangling. *)
Definition renew : M rbs unit := fun s => Ok tt (Rbs (core s) (S (block s)) (capw s)).

(** A call of BitsetModel. *)
Definition rcall (c : nat) (o : bop) : M rbs bans :=
  let* a := on_core (bcall W o) in
  match o with
  | BAssign _ => renew ;;; account c ;;; ret a
  | _ => account c ;;; ret a
  end.
(** 255: reserve *)
Definition rreserve (c : nat) (n : nat) : M rbs unit := fun s =>
  let n' := word_size W n in
  if n' <=? capw s then Ok tt s else Ok tt (Rbs (core s) (S (block s)) (Nat.max n' c)).

(** 325: operator[] *)
Definition ref_make (i : nat) : M rbs bitref := fun s =>
  match word (word_index W i) (core s) with
  | Ok _ _ => Ok (Bitref (block s) (word_index W i) (word_mask W i)) s
  | _ => UB
  end.
(** The word of a bitref. *)
Definition ref_word (r : bitref) : M rbs N := fun s =>
  if rblock r =? block s then on_core (word (rindex r)) s else UB.
Definition ref_set_word (r : bitref) (w : N) : M rbs unit := fun s =>
  if rblock r =? block s then on_core (set_word (rindex r) w) s else UB.
(** 308-318 *)
Definition ref_test (r : bitref) : M rbs bool :=
  let* w := ref_word r in ret (negb (N.land w (rmask r) =? 0)%N).
Definition ref_set (r : bitref) : M rbs unit :=
  let* w := ref_word r in ref_set_word r (N.lor w (rmask r)).
Definition ref_reset (r : bitref) : M rbs unit :=
  let* w := ref_word r in ref_set_word r (N.land w (wnot W (rmask r))).
Definition ref_flip (r : bitref) : M rbs unit :=
  let* w := ref_word r in ref_set_word r (N.lxor w (rmask r)).
Definition ref_set_to (r : bitref) (b : bool) : M rbs unit := if b then ref_set r else ref_reset r.
(** 318: returns a copy of the reference *)
Definition ref_assign (r : bitref) (b : bool) : M rbs bitref := ref_set_to r b ;;; ret r.

(** 135-144: the index of an iterator; 337-338: + and -, where the ptrdiff_t becomes a size_t. *)
Definition it_inc (i : N) : N := ((i + 1) mod two64)%N.
Definition it_dec (i : N) : N := ((i + (two64 - 1)) mod two64)%N.
Definition it_add (i : N) (z : Z) : N := Z.to_N ((Z.of_N i + z) mod Z.of_N two64).
Definition it_sub (i : N) (z : Z) : N := Z.to_N ((Z.of_N i - z) mod Z.of_N two64).
(** Conversion to ptrdiff_t, and the difference of two; None: overflow, which is undefined. *)
Definition to_diff (i : N) : Z := if (i <? two64 / 2)%N then Z.of_N i else (Z.of_N i - Z.of_N two64)%Z.
Definition it_diff (i j : N) : option Z :=
  let d := (to_diff i - to_diff j)%Z in
  if ((- Z.of_N (two64 / 2) <=? d) && (d <? Z.of_N (two64 / 2)))%Z then Some d else None.

(** ** The user: a bitset, the references and the iterators taken so far *)
Record user := User { ub_ : rbs; refs : list bitref; its : list N }.

Inductive rop : Type :=
| RCall (o : bop) (c : nat)
| RReserve (n c : nat)
| RRef (i : nat)                     (* auto r = bits[i] *)
| RTest (k : nat)                    (* r.test(), bool(r) *)
| RSet (k : nat) | RReset (k : nat) | RFlip (k : nat)
| RSetTo (k : nat) (b : bool)        (* r.set(b) *)
| RAssign (k : nat) (b : bool)       (* auto r2 = (r = b) *)
| IBegin | IEnd
| IInc (k : nat) | IDec (k : nat)    (* ++it, it++; --it, it-- *)
| IAdd (k : nat) (z : Z) | ISub (k : nat) (z : Z)    (* auto it2 = it + z *)
| IDiff (j k : nat) | IEq (j k : nat)
| IRead (k : nat)                    (* *it of a const iterator, or of a const_iterator *)
| IRef (k : nat).                    (* auto r = *it *)

Inductive rans : Type :=
| RaBits (a : bans) | RaNone | RaBool (b : bool) | RaInt (z : Z).

Definition on_bits {A} (m : M rbs A) : M user A := fun u =>
  match m (ub_ u) with
  | Ok a b => Ok a (User b (refs u) (its u))
  | Throw e b => Throw e (User b (refs u) (its u))
  | UB => UB
  | Diverge => Diverge
  end.
Definition the_ref (k : nat) : M user bitref := fun u =>
  match nth_error (refs u) k with Some r => Ok r u | None => UB end.
Definition the_it (k : nat) : M user N := fun u =>
  match nth_error (its u) k with Some i => Ok i u | None => UB end.
Definition keep_ref (r : bitref) : M user unit := fun u => Ok tt (User (ub_ u) (refs u ++ [r]) (its u)).
Definition keep_it (i : N) : M user unit := fun u => Ok tt (User (ub_ u) (refs u) (its u ++ [i])).
Definition put_it (k : nat) (i : N) : M user unit := fun u => Ok tt (User (ub_ u) (refs u) (upd (its u) k i)).

Definition rdo (o : rop) : M user rans :=
  match o with
  | RCall o c => let* a := on_bits (rcall c o) in ret (RaBits a)
  | RReserve n c => on_bits (rreserve c n) ;;; ret RaNone
  | RRef i => let* r := on_bits (ref_make i) in keep_ref r ;;; ret RaNone
  | RTest k => let* r := the_ref k in let* b := on_bits (ref_test r) in ret (RaBool b)
  | RSet k => let* r := the_ref k in on_bits (ref_set r) ;;; ret RaNone
  | RReset k => let* r := the_ref k in on_bits (ref_reset r) ;;; ret RaNone
  | RFlip k => let* r := the_ref k in on_bits (ref_flip r) ;;; ret RaNone
  | RSetTo k b => let* r := the_ref k in on_bits (ref_set_to r b) ;;; ret RaNone
  | RAssign k b => let* r := the_ref k in let* r' := on_bits (ref_assign r b) in keep_ref r' ;;; ret RaNone
  | IBegin => keep_it 0%N ;;; ret RaNone
  | IEnd => let* u := get in keep_it (N.of_nat (bsize (core (ub_ u)))) ;;; ret RaNone
  | IInc k => let* i := the_it k in put_it k (it_inc i) ;;; ret RaNone
  | IDec k => let* i := the_it k in put_it k (it_dec i) ;;; ret RaNone
  | IAdd k z => let* i := the_it k in keep_it (it_add i z) ;;; ret RaNone
  | ISub k z => let* i := the_it k in keep_it (it_sub i z) ;;; ret RaNone
  | IDiff j k => let* a := the_it j in let* b := the_it k in
                 match it_diff a b with Some z => ret (RaInt z) | None => ub end
  | IEq j k => let* a := the_it j in let* b := the_it k in ret (RaBool (a =? b)%N)
  | IRead k => let* i := the_it k in let* b := on_bits (on_core (test W (N.to_nat i))) in ret (RaBool b)
  | IRef k => let* i := the_it k in let* r := on_bits (ref_make (N.to_nat i)) in keep_ref r ;;; ret RaNone
  end.

Fixpoint rrun (os : list rop) : M user (list rans) :=
  match os with
  | [] => ret []
  | o :: os' => let* a := rdo o in let* rs := rrun os' in ret (a :: rs)
  end.
End Refs.
