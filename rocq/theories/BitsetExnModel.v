(** Model of itlib/dynamic_bitset.hpp over a buffer which may run out of memory.

    The operations of the buffer which may have to obtain memory ask the environment
    first.  A refusal is an exception (std::bad_alloc) thrown out of the operation of the
    buffer.  Of the buffer after that exception:
    - resize, reserve and insert at the end leave it as it was (std::vector's guarantee
      for elements which cannot throw);
    - copy assignment has only the basic guarantee: the environment says what it leaves.
      (std::vector usually leaves the buffer as it was; itlib::small_vector has destroyed
      the old elements by then, small_vector.hpp 291-292.)

    Everything else is as in BitsetModel, whose functions are used where no memory is
    needed.

    Simplified: an operation asks the environment whenever the number of words grows, and
    reserve always asks; a buffer whose capacity suffices is one whose environment
    agrees. *)
From Coq Require Import List Arith NArith Bool.
From Verif Require Import Base VecCommon BitsetModel.
Import ListNotations.

(** What the environment answers: memory, or an exception; in the second case the words
    which a copy assignment leaves in the buffer. *)
Inductive answer : Type :=
| Granted
| Denied (remains : list N).

(** The bitset and the answers to come; when they are used up every request is granted. *)
Record xbs : Type := mkXbs { xb : bs; answers : list answer }.

Section BitsetExn.
(** dynamic_bitset.hpp 156: bits_per_word *)
Variable W : nat.

(** A function which needs no memory. *)
Definition calm {A} (m : M bs A) : M xbs A := fun s =>
  match m (xb s) with
  | Ok a b => Ok a (mkXbs b (answers s))
  | Throw e b => Throw e (mkXbs b (answers s))
  | UB => UB
  | Diverge => Diverge
  end.

(** A request for memory: the answer. *)
Definition request : M xbs answer := fun s =>
  match answers s with
  | [] => Ok Granted s
  | a :: rest => Ok a (mkXbs (xb s) rest)
  end.
(** A request which is an exception when it is refused. *)
Definition need_memory : M xbs unit :=
  let* a := request in
  match a with Granted => ret tt | Denied _ => throw BadAlloc end.

(** m_buf.resize(n) *)
Definition xvec_resize (n : nat) : M xbs unit :=
  let* s := get in
  (if length (buf (xb s)) <? n then need_memory else ret tt) ;;;
  calm (vec_resize n).

(** 255 reserve *)
Definition xreserve (size : nat) : M xbs unit := need_memory.

(** 256-265 resize *)
Definition xresize (size : nat) : M xbs unit :=
  let* s := get in
  let pad := bsize (xb s) mod W in
  (if pad =? 0 then ret tt
   else
     calm (let* back := word (length (buf (xb s)) - 1) in
           set_word (length (buf (xb s)) - 1) (N.land back (wtrunc W (word_mask W pad - 1))))) ;;;
  calm (set_size size) ;;;
  xvec_resize (word_size W size).

(** 266-270 push_back *)
Definition xpush_back (b : bool) : M xbs unit :=
  let* s := get in
  xresize (bsize (xb s) + 1) ;;;
  let* s' := get in
  calm (set_to W (bsize (xb s') - 1) b).

(** m_buf = b *)
Definition xbuf_assign (b : list N) : M xbs unit :=
  let* s := get in
  if length (buf (xb s)) <? length b then
    let* a := request in
    match a with
    | Granted => calm (fun t => Ok tt (with_buf b t))
    | Denied remains => calm (fun t => Ok tt (with_buf remains t)) ;;; throw BadAlloc
    end
  else calm (fun t => Ok tt (with_buf b t)).

(** 272-276 assign(buffer): m_size is computed from the new buffer *)
Definition xassign (b : list N) : M xbs unit :=
  xbuf_assign b ;;;
  let* s := get in
  calm (set_size (length (buf (xb s)) * W)).

(** 165: the defaulted copy assignment assigns the members in order, 430-431. *)
Definition xcopy_assign (other : bs) : M xbs unit :=
  xbuf_assign (buf other) ;;;
  calm (set_size (bsize other)).

(** 278-302 append of another bitset *)
Definition xappend (other : bs) : M xbs unit :=
  if is_empty other then ret tt else
  let* s := get in
  let pad := bsize (xb s) mod W in
  if pad =? 0 then
    need_memory ;;;                                (* m_buf.insert *)
    calm (fun t => Ok tt (mkBs (buf t ++ buf other) (bsize t + bsize other)))
  else
    let back := length (buf (xb s)) - 1 in
    xresize (bsize (xb s) + bsize other) ;;;
    calm (append_loop W (buf other) pad back).

(** * Calls *)

Inductive xop : Type :=
| XOn (o : bop)            (* a call of BitsetModel *)
| XReserve (n : nat)
| XAppend (other : bs)
| XCopyAssign (other : bs).

Definition xcall (o : xop) : M xbs bans :=
  match o with
  | XOn (BPushBack b) => xpush_back b ;;; ret BaNone
  | XOn (BResize n) => xresize n ;;; ret BaNone
  | XOn (BAssign ws) => xassign ws ;;; ret BaNone
  | XOn o => calm (bcall W o)
  | XReserve n => xreserve n ;;; ret BaNone
  | XAppend other => xappend other ;;; ret BaNone
  | XCopyAssign other => xcopy_assign other ;;; ret BaNone
  end.

(** A history: exceptions are caught by the program, which goes on with the object as it
    is.  Some answer per call, None for an exception. *)
Fixpoint xrun (os : list xop) : M xbs (list (option bans)) := fun s =>
  match os with
  | [] => Ok [] s
  | o :: os' =>
      match xcall o s with
      | Ok a s' =>
          match xrun os' s' with
          | Ok l t => Ok (Some a :: l) t
          | Throw e t => Throw e t
          | UB => UB
          | Diverge => Diverge
          end
      | Throw _ s' =>
          match xrun os' s' with
          | Ok l t => Ok (None :: l) t
          | Throw e t => Throw e t
          | UB => UB
          | Diverge => Diverge
          end
      | UB => UB
      | Diverge => Diverge
      end
  end.
End BitsetExn.
