(** Model of /repo/include/itlib/static_vector.hpp for element types whose move construction
    (and move assignment) may throw.  These are the types with a move constructor which is
    not noexcept, and those with no move constructor at all: for them
    [T(std::move( *p))] copies.

    The members are those of StaticVectorModel with every move of an element replaced by one
    which may throw; the names are those of StaticVectorModel with an x in front.  The calls
    which move no element are taken over as they are.  Elements passed as T&& are left out. *)
From Coq Require Import List Arith NArith Bool Lia.
From Verif Require Import Base SeqSpec VecCommon StaticVectorModel.
Import ListNotations.

Section StaticMove.
Context {V : Type}.
Variable moved : V -> V.
Variable dflt : V.
Variable Capacity : nat.

(** [::new (q) T(std::move( *p))]: the constructor may throw, and then has not changed the
    object it was to take from.  [fuse] counts the constructions. *)
Definition xmove_to (q p : nat) : M sv unit :=
  read p ;;; tick ;;;
  let* v := move_from moved p in
  construct q (MoveOf v).

(** static_vector.hpp:631-635. *)
Fixpoint xgrow_loop (position by_ : nat) (k : nat) : M sv unit :=
  match k with
  | 0 => ret tt
  | S k' =>
      let p := position + k' in
      xmove_to (p + by_) p ;;;
      destroy p ;;;
      xgrow_loop position by_ k'
  end.

(** static_vector.hpp:624-639 grow_at. *)
Definition xgrow_at (position : nat) (by_ : N) : M sv nat :=
  let* s := get in
  throw_if (N.of_nat Capacity <? (N.of_nat (size s) + by_) mod two64)%N OutOfRange ;;;
  if (by_ =? 0)%N then ret position else
  xgrow_loop position (N.to_nat by_) (size s - position) ;;;
  set_size (N.to_nat ((N.of_nat (size s) + by_) mod two64)) ;;;
  ret position.

(** static_vector.hpp:656-660. *)
Fixpoint xshrink_loop (fuel p np myend : nat) : M sv unit :=
  if np =? myend then ret tt else
  match fuel with
  | 0 => diverge
  | S f =>
      destroy p ;;;
      xmove_to p np ;;;
      xshrink_loop f (S p) (S np) myend
  end.

(** static_vector.hpp:641-670 shrink_at. *)
Definition xshrink_at (position : nat) (num : N) : M sv nat :=
  let* s := get in
  throw_if (N.of_nat (size s) <? num)%N OutOfRange ;;;
  let n := N.to_nat num in
  if size s - n =? 0 then clear Capacity ;;; ret 0 else
  xshrink_loop (S Capacity) position (position + n) (size s) ;;;
  destroy_range (S Capacity) (size s - n) (size s) ;;;
  set_size (size s - n) ;;;
  ret position.

(** static_vector.hpp:424-427 pop_back. *)
Definition xpop_back : M sv unit :=
  let* s := get in
  xshrink_at (size s - 1) 1%N ;;;
  ret tt.

(** static_vector.hpp:464-476, 512-518. *)
Definition xinsert1 (position : nat) (x : src V) : M sv nat :=
  let* pos := xgrow_at position 1%N in
  construct pos x ;;;
  ret pos.

(** static_vector.hpp:478-486. *)
Definition xinsert_n (position : nat) (count : N) (x : src V) : M sv nat :=
  let* pos := xgrow_at position count in
  fill_loop pos x (N.to_nat count) ;;;
  ret pos.

(** static_vector.hpp:488-510. *)
Definition xinsert_range (position : nat) (l : list V) : M sv nat :=
  let* pos := xgrow_at position (N.of_nat (length l)) in
  copy_loop pos l ;;;
  ret pos.

(** static_vector.hpp:520-523. *)
Definition xerase (position : nat) : M sv nat := xshrink_at position 1%N.

(** static_vector.hpp:525-528. *)
Definition xerase_range (first last : nat) : M sv nat :=
  xshrink_at first ((N.of_nat last + two64 - N.of_nat first) mod two64)%N.

(** static_vector.hpp:534-537 / 549-552. *)
Fixpoint xpop_while (fuel n : nat) : M sv unit :=
  let* s := get in
  if n <? size s then
    match fuel with
    | 0 => diverge
    | S f => xpop_back ;;; xpop_while f n
    end
  else ret tt.

(** static_vector.hpp:530-558 resize. *)
Definition xresize_val (n : nat) (x : src V) : M sv unit :=
  throw_if (Capacity <? n) OutOfRange ;;;
  xpop_while (S Capacity) n ;;;
  push_while Capacity (S Capacity) n x.

(** The calls; push_back, clear and assign (270-287, 429-462) move nothing. *)
Definition xcall (o : vop V) : M sv (option nat) :=
  match o with
  | PopBack => no_answer xpop_back
  | Insert pos v => position_answer (xinsert1 pos (CopyOf v))
  | InsertN pos n v => position_answer (xinsert_n pos (N.of_nat n) (CopyOf v))
  | InsertRange pos l => position_answer (xinsert_range pos l)
  | Erase pos => position_answer (xerase pos)
  | EraseRange first last => position_answer (xerase_range first last)
  | Resize n => no_answer (xresize_val n (CopyOf dflt))
  | ResizeVal n v => no_answer (xresize_val n (CopyOf v))
  | PushBack _ | Clear | AssignN _ _ | AssignRange _ => call moved dflt Capacity o
  end.

(** * Two vectors: *this on the left *)

(** [emplace_back(std::move(v[i]))] (454-462): the check of the size, the construction which
    may throw, the new size. *)
Definition xtake (i : nat) : M (sv * sv) unit :=
  onR (read i) ;;;
  onL (let* s := get in throw_if (Capacity <=? size s) OutOfRange ;;; tick) ;;;
  let* v := onR (move_from moved i) in
  onL (push_back Capacity (MoveOf v)).

(** static_vector.hpp:229-232 / 261-264. *)
Fixpoint xmove_from_loop (i k : nat) : M (sv * sv) unit :=
  match k with
  | 0 => ret tt
  | S k' => xtake i ;;; xmove_from_loop (S i) k'
  end.

(** static_vector.hpp:258-268 move assignment from another vector, the body. *)
Definition xmove_assign_body : M (sv * sv) unit :=
  onL (clear Capacity) ;;;
  let* st := get in
  xmove_from_loop 0 (size (snd st)) ;;;
  onR (clear Capacity).

(** The move assignment as it is called (258): it is noexcept if the move assignment of T
    is ([na]), although it uses the move construction.  [None]: the program ends in
    std::terminate. *)
Definition xmove_assign (na : bool) (st : sv * sv) : option (res (sv * sv) unit) :=
  match xmove_assign_body st with
  | Throw e st' => if na then None else Some (Throw e st')
  | r => Some r
  end.

(** static_vector.hpp:227-234 move constructor; it is noexcept only if no move construction
    throws. *)
Definition xmove_construct (f : option nat) (v : sv) : res (sv * sv) unit :=
  (let* st := get in xmove_from_loop 0 (size (snd st)) ;;; onR (clear Capacity))
    (with_fuse f (init_sv Capacity), v).

(** [a = std::move(x)] for the element [i]: it must be alive. *)
Definition assign_elem (i : nat) (v : V) : M sv unit := fun s =>
  match nth_error (data s) i with
  | Some (Live _) => Ok tt (with_data (upd (data s) i (Live v)) s)
  | _ => UB
  end.

(** [std::swap(shorter->at(i), longer->at(i))] (578): [T tmp(move(a)); a = move(b);
    b = move(tmp)].  Each of the three may throw, and then has not changed anything. *)
Definition xswap_elems (i : nat) : M (sv * sv) unit :=
  onL (read i) ;;; onR (read i) ;;;
  onL tick ;;;
  let* tmp := onL (move_from moved i) in
  onL tick ;;;
  let* b := onR (move_from moved i) in
  onL (assign_elem i b) ;;;
  onL tick ;;;
  onR (assign_elem i tmp).

(** Loop of 576-579. *)
Fixpoint xswap_loop (i k : nat) : M (sv * sv) unit :=
  match k with
  | 0 => ret tt
  | S k' => xswap_elems i ;;; xswap_loop (S i) k'
  end.

(** Loop of 583-587. *)
Fixpoint xswap_tail (i k : nat) : M (sv * sv) unit :=
  match k with
  | 0 => ret tt
  | S k' =>
      xtake i ;;;
      onR (destroy i) ;;;
      xswap_tail (S i) k'
  end.

(** static_vector.hpp:576-589, with the shorter vector on the left. *)
Definition xswap_short_long : M (sv * sv) unit :=
  let* st := get in
  let short_size := size (fst st) in
  xswap_loop 0 short_size ;;;
  xswap_tail short_size (size (snd st) - short_size) ;;;
  onR (set_size short_size).

(** static_vector.hpp:560-590 swap of two distinct vectors. *)
Definition xswap : M (sv * sv) unit := fun st =>
  if size (fst st) <? size (snd st)
  then xswap_short_long st
  else flip_res (xswap_short_long (flip_pair st)).

End StaticMove.
