(** Model of /repo/include/itlib/small_vector.hpp for element types whose move construction
    may throw.  These are the types with a move constructor which is not noexcept, and those
    with no move constructor at all: for them [construct(p, std::move( *q))] copies.

    The members are those of SmallVectorModel with every move replaced by one which may
    throw; the names are those of SmallVectorModel with an x in front.  The calls which move
    no element are taken over as they are.  Left out: the move constructor and the move
    assignment, which are noexcept (an exception ends the program), and elements passed as
    T&&. *)
From Coq Require Import List Arith NArith ZArith Bool Lia.
From Verif Require Import Base SeqSpec VecCommon SmallVectorModel.
Import ListNotations.

Section SmallMove.
Context {V : Type}.
Variable moved : V -> V.
Variable dflt : V.
Variable SC RB : nat.
Variable maxn : N.

(** [construct(dst, std::move( *src))]: the constructor of the new object may throw, and then
    has not changed the object it was to take from. [vfuse] counts the constructions. *)
Definition xmove_to (dst src : ptr) : M vec unit :=
  read src ;;; tick ;;; move_to moved dst src.

(** small_vector.hpp:483-486, 780-783, 786-789. *)
Fixpoint xmove_range (db di sb si k : nat) : M vec unit :=
  match k with
  | 0 => ret tt
  | S k' => xmove_to (db, di) (sb, si) ;;; xmove_range db (S di) sb (S si) k'
  end.

(** small_vector.hpp:846-850, 857-861. *)
Fixpoint xrelocate_range (db di sb si k : nat) : M vec unit :=
  match k with
  | 0 => ret tt
  | S k' =>
      xmove_to (db, di) (sb, si) ;;;
      destroy (sb, si) ;;;
      xrelocate_range db (S di) sb (S si) k'
  end.

(** small_vector.hpp:472-504 reserve. *)
Definition xreserve (new_cap : N) : M vec unit :=
  let* s := get in
  if (new_cap <=? N.of_nat (vcap s))%N then ret tt else
  let* cdr := choose_data SC RB maxn new_cap in
  let* n := msize in
  xmove_range (fst cdr) 0 (vb s) 0 n ;;;
  destroy_from (vb s) 0 n ;;;
  (if is_static s then ret tt else deallocate (vb s) (vcap s)) ;;;
  set_buf (fst cdr) (fst cdr, n) (snd cdr).

(** small_vector.hpp:534-539. *)
Fixpoint xshrink_transfer (sb si k : nat) : M vec unit :=
  match k with
  | 0 => ret tt
  | S k' =>
      let* s := get in
      xmove_to (ve s) (sb, si) ;;;
      set_end (fst (ve s), S (snd (ve s))) ;;;
      destroy (sb, si) ;;;
      xshrink_transfer sb (S si) k'
  end.

(** small_vector.hpp:511-544 shrink_to_fit. *)
Definition xshrink_to_fit : M vec bool :=
  let* n := msize in
  let* s := get in
  if n =? vcap s then ret false else
  if is_static s then ret false else
  (if n <? SC then set_buf 0 (0, 0) SC
   else let* b := allocate maxn (N.of_nat n) in set_buf b (b, 0) n) ;;;
  xshrink_transfer (vb s) 0 n ;;;
  deallocate (vb s) (vcap s) ;;;
  ret true.

(** small_vector.hpp:549-557 revert_to_static. *)
Definition xrevert_to_static : M vec bool :=
  let* n := msize in
  let* s := get in
  if is_static s then ret true else
  if SC <? n then ret false else
  xshrink_to_fit ;;;
  ret true.

(** small_vector.hpp:773-777. *)
Fixpoint xgrow_loop (b position num k : nat) : M vec unit :=
  match k with
  | 0 => ret tt
  | S k' =>
      xmove_to (b, position + k' + num) (b, position + k') ;;;
      destroy (b, position + k') ;;;
      xgrow_loop b position num k'
  end.

(** small_vector.hpp:759-820 grow_at. *)
Definition xgrow_at (position : Z) (num : N) : M vec nat :=
  let* n := msize in
  throw_if ((position <? 0) || (Z.of_nat n <? position))%Z OutOfRange ;;;
  let pos := Z.to_nat position in
  let* s := get in
  let* cdr := choose_data SC RB maxn ((N.of_nat n + num) mod two64)%N in
  let num := N.to_nat num in
  if fst cdr =? vb s then
    set_end (vb s, n + num) ;;;
    xgrow_loop (vb s) pos num (n - pos) ;;;
    ret pos
  else
    xmove_range (fst cdr) 0 (vb s) 0 pos ;;;
    xmove_range (fst cdr) (pos + num) (vb s) pos (n - pos) ;;;
    destroy_from (vb s) 0 n ;;;
    (if is_static s then ret tt else deallocate (vb s) (vcap s)) ;;;
    set_buf (fst cdr) (fst cdr, n + num) (snd cdr) ;;;
    ret pos.

(** small_vector.hpp:840-844. *)
Fixpoint xshrink_loop (b p np k : nat) : M vec unit :=
  match k with
  | 0 => ret tt
  | S k' =>
      destroy (b, p) ;;;
      xmove_to (b, p) (b, np) ;;;
      xshrink_loop b (S p) (S np) k'
  end.

(** small_vector.hpp:822-888 shrink_at. *)
Definition xshrink_at (position : Z) (num : N) : M vec nat :=
  let* n := msize in
  throw_if ((position <? 0) || (Z.of_nat n <? position)
            || (Z.of_nat n <? position + Z.of_N num))%Z OutOfRange ;;;
  let pos := Z.to_nat position in
  let* s := get in
  let num := N.to_nat num in
  if n - num =? 0 then clear SC RB ;;; ret 0 else
  let* cdr := choose_data SC RB maxn (N.of_nat (n - num)) in
  if fst cdr =? vb s then
    xshrink_loop (vb s) pos (pos + num) (n - (pos + num)) ;;;
    destroy_from (vb s) (n - num) num ;;;
    set_end (vb s, n - num) ;;;
    ret pos
  else
    xrelocate_range (fst cdr) 0 (vb s) 0 pos ;;;
    destroy_from (vb s) pos num ;;;
    xrelocate_range (fst cdr) pos (vb s) (pos + num) (n - num - pos) ;;;
    deallocate (vb s) (vcap s) ;;;
    set_buf (fst cdr) (fst cdr, n - num) SC ;;;
    ret pos.

(** small_vector.hpp:583-596, 631-637. *)
Definition xinsert1 (position : Z) (v : V) : M vec nat :=
  let* pos := xgrow_at position 1%N in
  let* s := get in
  construct (vb s, pos) (CopyOf v) ;;;
  ret pos.

(** small_vector.hpp:598-606. *)
Definition xinsert_n (position : Z) (count : N) (v : V) : M vec nat :=
  let* pos := xgrow_at position count in
  let* s := get in
  fill_loop (vb s) pos (CopyOf v) (N.to_nat count) ;;;
  ret pos.

(** small_vector.hpp:608-629. *)
Definition xinsert_range (position : Z) (l : list V) : M vec nat :=
  let* pos := xgrow_at position (N.of_nat (length l)) in
  let* s := get in
  copy_loop (vb s) pos l ;;;
  ret pos.

(** small_vector.hpp:639-642. *)
Definition xerase (position : Z) : M vec nat := xshrink_at position 1%N.

(** small_vector.hpp:644-648. *)
Definition xerase_range (first last : Z) : M vec nat :=
  throw_if (last <? first)%Z OutOfRange ;;;
  xshrink_at first (Z.to_N (last - first)).

(** small_vector.hpp:650-668. *)
Definition xpush_back (v : V) : M vec unit :=
  let* n := msize in
  let* pos := xgrow_at (Z.of_nat n) 1%N in
  let* s := get in
  construct (vb s, pos) (CopyOf v).

(** small_vector.hpp:670-673. *)
Definition xpop_back : M vec unit :=
  let* n := msize in
  xshrink_at (Z.of_nat n - 1) 1%N ;;;
  ret tt.

(** small_vector.hpp:675-690. *)
Definition xresize_val (n : N) (v : V) : M vec unit :=
  xreserve n ;;;
  let* m := msize in
  cut_loop (m - N.to_nat n) ;;;
  let* m := msize in
  extend_loop (N.to_nat n - m) (CopyOf v).

(** The calls; resize(n) is 692-707, and clear and assign move nothing. *)
Definition xcall (o : smallop) : M vec (option nat) :=
  match o with
  | Seq (PushBack v) => no_answer (xpush_back v)
  | Seq PopBack => no_answer xpop_back
  | Seq (Insert pos v) => position_answer (xinsert1 (Z.of_nat pos) v)
  | Seq (InsertN pos n v) => position_answer (xinsert_n (Z.of_nat pos) (N.of_nat n) v)
  | Seq (InsertRange pos l) => position_answer (xinsert_range (Z.of_nat pos) l)
  | Seq (Erase pos) => position_answer (xerase (Z.of_nat pos))
  | Seq (EraseRange first last) =>
      position_answer (xerase_range (Z.of_nat first) (Z.of_nat last))
  | Seq (Resize n) => no_answer (xresize_val (N.of_nat n) dflt)
  | Seq (ResizeVal n v) => no_answer (xresize_val (N.of_nat n) v)
  | Reserve n => no_answer (xreserve (N.of_nat n))
  | ShrinkToFit => no_answer xshrink_to_fit
  | RevertToStatic => no_answer xrevert_to_static
  | Seq Clear | Seq (AssignN _ _) | Seq (AssignRange _) => call moved dflt SC RB maxn o
  end.

End SmallMove.
