(** Model of /repo/include/itlib/small_vector.hpp.

    Error handling is modelled in its default setting
    ITLIB_SMALL_VECTOR_ERROR_HANDLING_THROW (164-185); assertions are modelled as compiled
    out.  The allocator is a stateless one (std::allocator): all its instances are equal. *)
From Coq Require Import List Arith NArith ZArith Bool Lia.
From Verif Require Import Base SeqSpec VecCommon.
Import ListNotations.

(** * The growth policy, in 64-bit arithmetic *)

(** small_vector.hpp:967-973 and pod_vector.hpp:665-671:
    [while (cap < desired) { cap *= 3; ++cap; cap /= 2; }], each step modulo 2^64.
    [None]: the loop needed more than [fuel] rounds. *)
Fixpoint grow_cap (fuel : nat) (cap desired : N) : option N :=
  if (cap <? desired)%N then
    match fuel with
    | 0 => None
    | S f => grow_cap f (((((cap * 3) mod two64) + 1) mod two64) / 2)%N desired
    end
  else Some cap.

(** * The vector *)

(** A piece of storage: block 0 of a vector is its own m_static_data (1006), all other
    blocks come from its allocator.  A deallocated block keeps its number for ever. *)
Inductive block (V : Type) : Type :=
| Blk (slots : list (slot V))
| Freed.
Arguments Blk {V} slots.
Arguments Freed {V}.

(** A pointer to an element: block and offset. *)
Definition ptr : Type := (nat * nat)%type.

(** Where the value of a new element comes from: see StaticVectorModel.src. [CopyRef p] is
    a const reference to the storage at [p] (an element of this vector). *)
Inductive vsrc (V : Type) : Type :=
| CopyOf (v : V)
| MoveOf (v : V)
| CopyRef (p : ptr).
Arguments CopyOf {V} v.
Arguments MoveOf {V} v.
Arguments CopyRef {V} p.

Section SmallVector.
Context {V : Type}.
Variable moved : V -> V.
Variable dflt : V.
(** The template arguments StaticCapacity and RevertToStaticBelow (195). *)
Variable SC RB : nat.
(** The allocator throws std::bad_alloc for more than [maxn] elements. *)
Variable maxn : N.

(** small_vector.hpp:1003-1006: the block m_begin points to (m_begin is always the start of
    a block), m_end, m_capacity and the storage; [vfuse] as in StaticVectorModel. *)
Record vec : Type := mkVec {
  blocks : list (block V);
  vb : nat;
  ve : ptr;
  vcap : nat;
  vfuse : option nat
}.

Definition with_blocks (bs : list (block V)) (s : vec) : vec :=
  mkVec bs (vb s) (ve s) (vcap s) (vfuse s).
Definition with_end (e : ptr) (s : vec) : vec :=
  mkVec (blocks s) (vb s) e (vcap s) (vfuse s).
Definition with_buf (b : nat) (e : ptr) (c : nat) (s : vec) : vec :=
  mkVec (blocks s) b e c (vfuse s).
Definition with_fuse (f : option nat) (s : vec) : vec :=
  mkVec (blocks s) (vb s) (ve s) (vcap s) f.
Definition set_end (e : ptr) : M vec unit := fun s => Ok tt (with_end e s).
Definition set_buf (b : nat) (e : ptr) (c : nat) : M vec unit :=
  fun s => Ok tt (with_buf b e c s).

(** small_vector.hpp:216-225 default constructor. *)
Definition init_vec : vec := mkVec [Blk (repeat Raw SC)] 0 (0, 0) SC None.

(** ** Storage *)

(** The slot a pointer designates, if its block is allocated and the offset inside. *)
Definition slot_at (p : ptr) (bs : list (block V)) : option (slot V) :=
  match nth_error bs (fst p) with
  | Some (Blk l) => nth_error l (snd p)
  | _ => None
  end.

Definition put_slot (p : ptr) (x : slot V) (bs : list (block V)) : list (block V) :=
  match nth_error bs (fst p) with
  | Some (Blk l) => upd bs (fst p) (Blk (upd l (snd p) x))
  | _ => bs
  end.

(** atraits::destroy. *)
Definition destroy (p : ptr) : M vec unit := fun s =>
  match slot_at p (blocks s) with
  | Some (Live _) => Ok tt (with_blocks (put_slot p Raw (blocks s)) s)
  | _ => UB
  end.

Definition read (p : ptr) : M vec V := fun s =>
  match slot_at p (blocks s) with
  | Some (Live v) => Ok v s
  | _ => UB
  end.

(** The source side of a move construction. *)
Definition move_from (p : ptr) : M vec V := fun s =>
  match slot_at p (blocks s) with
  | Some (Live v) => Ok v (with_blocks (put_slot p (Live (moved v)) (blocks s)) s)
  | _ => UB
  end.

Definition tick : M vec unit := fun s =>
  match vfuse s with
  | None => Ok tt s
  | Some 0 => Throw ElemThrow (with_fuse None s)
  | Some (S k) => Ok tt (with_fuse (Some k) s)
  end.

Definition begin_life (p : ptr) (v : V) : M vec unit := fun s =>
  match slot_at p (blocks s) with
  | Some Raw => Ok tt (with_blocks (put_slot p (Live v) (blocks s)) s)
  | _ => UB
  end.

(** atraits::construct. *)
Definition construct (p : ptr) (x : vsrc V) : M vec unit :=
  match x with
  | CopyOf v => tick ;;; begin_life p v
  | MoveOf v => begin_life p v
  | CopyRef q => let* v := read q in tick ;;; begin_life p v
  end.

(** [construct(dst, std::move( *src))]: move construction is assumed not to throw. *)
Definition move_to (dst src : ptr) : M vec unit :=
  let* v := move_from src in construct dst (MoveOf v).

(** atraits::allocate: a new block of raw storage. *)
Definition allocate (n : N) : M vec nat := fun s =>
  if (maxn <? n)%N then Throw BadAlloc s
  else Ok (length (blocks s))
          (with_blocks (blocks s ++ [Blk (repeat Raw (N.to_nat n))]) s).

(** atraits::deallocate(p, n): [p] must come from allocate(n) and not have been freed; we
    also ask that no object in it be alive (nothing would ever destroy it). *)
Definition is_raw (x : slot V) : bool := match x with Raw => true | Live _ => false end.
Definition deallocate (b : nat) (n : nat) : M vec unit := fun s =>
  match b, nth_error (blocks s) b with
  | S _, Some (Blk l) =>
      if (length l =? n) && forallb is_raw l
      then Ok tt (with_blocks (upd (blocks s) b Freed) s)
      else UB
  | _, _ => UB
  end.

(** ** Members *)

(** small_vector.hpp:709-712 is_static. *)
Definition is_static (s : vec) : bool := vb s =? 0.

(** small_vector.hpp:461-464 size: m_end - m_begin, undefined between different blocks. *)
Definition msize : M vec nat := fun s =>
  if fst (ve s) =? vb s then Ok (snd (ve s)) s else UB.

(** small_vector.hpp:508-511 capacity. *)
Definition capacity (s : vec) : nat := vcap s.

(** [for (p = (b,i); p != (b,e); ++p) destroy(p)]. *)
Fixpoint destroy_from (b i k : nat) : M vec unit :=
  match k with
  | 0 => ret tt
  | S k' => destroy (b, i) ;;; destroy_from b (S i) k'
  end.

(** small_vector.hpp:725-731 destroy_all. If m_end is in another block the loop never meets
    it and runs out of the buffer. *)
Definition destroy_all : M vec unit :=
  let* s := get in
  if fst (ve s) =? vb s then destroy_from (vb s) 0 (snd (ve s)) else ub.

(** small_vector.hpp:956-998 choose_data.  The fuel of the growth loop is never used up
    when the capacity is positive and nothing wraps (C15). *)
Definition choose_data (desired : N) : M vec (nat * nat) :=
  let* s := get in
  if negb (is_static s) then
    if (N.of_nat (vcap s) <? desired)%N then
      match grow_cap (S (N.to_nat desired)) (N.of_nat (vcap s)) desired with
      | None => diverge
      | Some c => let* b := allocate c in ret (b, N.to_nat c)
      end
    else if (desired <? N.of_nat RB)%N then ret (0, SC)
    else ret (vb s, vcap s)
  else if (N.of_nat SC <? desired)%N then
    let* b := allocate desired in ret (b, N.to_nat desired)
  else ret (vb s, vcap s).

(** [for (i = 0; i < k; ++i) construct(dst + i, std::move( *(src + i)))]: 483-486, 780-783,
    786-789. *)
Fixpoint move_range (db di sb si k : nat) : M vec unit :=
  match k with
  | 0 => ret tt
  | S k' => move_to (db, di) (sb, si) ;;; move_range db (S di) sb (S si) k'
  end.

(** The same with the source destroyed at once: 534-539, 846-850, 857-861. *)
Fixpoint relocate_range (db di sb si k : nat) : M vec unit :=
  match k with
  | 0 => ret tt
  | S k' =>
      move_to (db, di) (sb, si) ;;;
      destroy (sb, si) ;;;
      relocate_range db (S di) sb (S si) k'
  end.

(** small_vector.hpp:472-504 reserve. *)
Definition reserve (new_cap : N) : M vec unit :=
  let* s := get in
  if (new_cap <=? N.of_nat (vcap s))%N then ret tt else
  let* cdr := choose_data new_cap in
  let* n := msize in
  move_range (fst cdr) 0 (vb s) 0 n ;;;
  destroy_from (vb s) 0 n ;;;
  (if is_static s then ret tt else deallocate (vb s) (vcap s)) ;;;
  set_buf (fst cdr) (fst cdr, n) (snd cdr).

(** [shrink_to_fit]'s transfer loop (534-539): m_end moves along. *)
Fixpoint shrink_transfer (sb si k : nat) : M vec unit :=
  match k with
  | 0 => ret tt
  | S k' =>
      let* s := get in
      move_to (ve s) (sb, si) ;;;
      set_end (fst (ve s), S (snd (ve s))) ;;;
      destroy (sb, si) ;;;
      shrink_transfer sb (S si) k'
  end.

(** small_vector.hpp:511-544 shrink_to_fit. *)
Definition shrink_to_fit : M vec bool :=
  let* n := msize in
  let* s := get in
  if n =? vcap s then ret false else
  if is_static s then ret false else
  (if n <? SC then set_buf 0 (0, 0) SC
   else let* b := allocate (N.of_nat n) in set_buf b (b, 0) n) ;;;
  shrink_transfer (vb s) 0 n ;;;
  deallocate (vb s) (vcap s) ;;;
  ret true.

(** small_vector.hpp:549-557 revert_to_static. *)
Definition revert_to_static : M vec bool :=
  let* n := msize in
  let* s := get in
  if is_static s then ret true else
  if SC <? n then ret false else
  shrink_to_fit ;;;
  ret true.

(** small_vector.hpp:560-581 clear. *)
Definition clear : M vec unit :=
  destroy_all ;;;
  let* s := get in
  if (0 <? RB) && negb (is_static s) then
    deallocate (vb s) (vcap s) ;;;
    set_buf 0 (0, 0) SC
  else set_end (vb s, 0).

(** small_vector.hpp:773-777, k elements left:
    [for (p = m_end - num - 1; p >= position; --p) { construct(p + num, move( *p)); destroy(p); }] *)
Fixpoint grow_loop (b position num k : nat) : M vec unit :=
  match k with
  | 0 => ret tt
  | S k' =>
      move_to (b, position + k' + num) (b, position + k') ;;;
      destroy (b, position + k') ;;;
      grow_loop b position num k'
  end.

(** small_vector.hpp:759-820 grow_at; [position] is an offset from m_begin (it may be
    negative).  Returns the offset of the hole from the new m_begin. [s + num] is computed
    in 64 bits. *)
Definition grow_at (position : Z) (num : N) : M vec nat :=
  let* n := msize in
  throw_if ((position <? 0) || (Z.of_nat n <? position))%Z OutOfRange ;;;
  let pos := Z.to_nat position in
  let* s := get in
  let* cdr := choose_data ((N.of_nat n + num) mod two64)%N in
  let num := N.to_nat num in
  if fst cdr =? vb s then
    set_end (vb s, n + num) ;;;
    grow_loop (vb s) pos num (n - pos) ;;;
    ret pos
  else
    move_range (fst cdr) 0 (vb s) 0 pos ;;;
    move_range (fst cdr) (pos + num) (vb s) pos (n - pos) ;;;
    destroy_from (vb s) 0 n ;;;
    (if is_static s then ret tt else deallocate (vb s) (vcap s)) ;;;
    set_buf (fst cdr) (fst cdr, n + num) (snd cdr) ;;;
    ret pos.

(** small_vector.hpp:840-844, k left: [destroy(p); construct(p, move( *np))]. *)
Fixpoint shrink_loop (b p np k : nat) : M vec unit :=
  match k with
  | 0 => ret tt
  | S k' =>
      destroy (b, p) ;;;
      move_to (b, p) (b, np) ;;;
      shrink_loop b (S p) (S np) k'
  end.

(** small_vector.hpp:822-888 shrink_at. ([position + num > m_end] is taken to be computed
    without overflow.) *)
Definition shrink_at (position : Z) (num : N) : M vec nat :=
  let* n := msize in
  throw_if ((position <? 0) || (Z.of_nat n <? position)
            || (Z.of_nat n <? position + Z.of_N num))%Z OutOfRange ;;;
  let pos := Z.to_nat position in
  let* s := get in
  let num := N.to_nat num in
  if n - num =? 0 then clear ;;; ret 0 else
  let* cdr := choose_data (N.of_nat (n - num)) in
  if fst cdr =? vb s then
    shrink_loop (vb s) pos (pos + num) (n - (pos + num)) ;;;
    destroy_from (vb s) (n - num) num ;;;
    set_end (vb s, n - num) ;;;
    ret pos
  else
    relocate_range (fst cdr) 0 (vb s) 0 pos ;;;
    destroy_from (vb s) pos num ;;;
    relocate_range (fst cdr) pos (vb s) (pos + num) (n - num - pos) ;;;
    deallocate (vb s) (vcap s) ;;;
    set_buf (fst cdr) (fst cdr, n - num) SC ;;;
    ret pos.

(** small_vector.hpp:583-596 insert(position, val), 631-637 emplace. *)
Definition insert1 (position : Z) (x : vsrc V) : M vec nat :=
  let* pos := grow_at position 1%N in
  let* s := get in
  construct (vb s, pos) x ;;;
  ret pos.

(** Loop of 601-604, k left. *)
Fixpoint fill_loop (b i : nat) (x : vsrc V) (k : nat) : M vec unit :=
  match k with
  | 0 => ret tt
  | S k' => construct (b, i) x ;;; fill_loop b (S i) x k'
  end.

(** small_vector.hpp:598-606 insert(position, count, val). *)
Definition insert_n (position : Z) (count : N) (x : vsrc V) : M vec nat :=
  let* pos := grow_at position count in
  let* s := get in
  fill_loop (vb s) pos x (N.to_nat count) ;;;
  ret pos.

(** Loops of 613-616 and 624-628. *)
Fixpoint copy_loop (b i : nat) (l : list V) : M vec unit :=
  match l with
  | [] => ret tt
  | v :: l' => construct (b, i) (CopyOf v) ;;; copy_loop b (S i) l'
  end.

(** small_vector.hpp:608-618 insert(position, first, last), 620-629 insert(position, ilist)
    (moving from the const elements of an initializer_list copies them). *)
Definition insert_range (position : Z) (l : list V) : M vec nat :=
  let* pos := grow_at position (N.of_nat (length l)) in
  let* s := get in
  copy_loop (vb s) pos l ;;;
  ret pos.

(** small_vector.hpp:639-642 erase(position). *)
Definition erase (position : Z) : M vec nat := shrink_at position 1%N.

(** small_vector.hpp:644-648 erase(first, last). *)
Definition erase_range (first last : Z) : M vec nat :=
  throw_if (last <? first)%Z OutOfRange ;;;
  shrink_at first (Z.to_N (last - first)).

(** small_vector.hpp:650-668 push_back, emplace_back. *)
Definition push_back (x : vsrc V) : M vec unit :=
  let* n := msize in
  let* pos := grow_at (Z.of_nat n) 1%N in
  let* s := get in
  construct (vb s, pos) x.

(** small_vector.hpp:670-673 pop_back. *)
Definition pop_back : M vec unit :=
  let* n := msize in
  shrink_at (Z.of_nat n - 1) 1%N ;;;
  ret tt.

(** small_vector.hpp:681-684 / 698-701, k left: [destroy(--m_end)]. *)
Fixpoint cut_loop (k : nat) : M vec unit :=
  match k with
  | 0 => ret tt
  | S k' =>
      let* s := get in
      set_end (fst (ve s), snd (ve s) - 1) ;;;
      destroy (fst (ve s), snd (ve s) - 1) ;;;
      cut_loop k'
  end.

(** small_vector.hpp:686-689 / 703-706, k left: [construct(m_end++, ..)]; m_end has
    advanced before the constructor runs. *)
Fixpoint extend_loop (k : nat) (x : vsrc V) : M vec unit :=
  match k with
  | 0 => ret tt
  | S k' =>
      let* s := get in
      set_end (fst (ve s), S (snd (ve s))) ;;;
      construct (ve s) x ;;;
      extend_loop k' x
  end.

(** small_vector.hpp:675-690 resize(n, v). *)
Definition resize_val (n : N) (x : vsrc V) : M vec unit :=
  reserve n ;;;
  let* m := msize in
  cut_loop (m - N.to_nat n) ;;;
  let* m := msize in
  extend_loop (N.to_nat n - m) x.

(** small_vector.hpp:692-707 resize(n). *)
Definition resize (n : N) : M vec unit := resize_val n (CopyOf dflt).

(** Loops of 895-899, 916-920, 937-941: [construct(m_end, ..); ++m_end]. *)
Fixpoint append_loop (l : list V) : M vec unit :=
  match l with
  | [] => ret tt
  | v :: l' =>
      let* s := get in
      construct (ve s) (CopyOf v) ;;;
      let* s' := get in
      set_end (fst (ve s'), S (snd (ve s'))) ;;;
      append_loop l'
  end.

(** small_vector.hpp:910-929 assign_copy, 931-950 assign_move (from const elements) and
    890-908 assign_fill (with [count] copies of the value). *)
Definition assign_copy (l : list V) : M vec unit :=
  let* cdr := choose_data (N.of_nat (length l)) in
  set_end (fst cdr, 0) ;;;
  append_loop l ;;;
  let* s := get in
  (if negb (is_static s) && negb (vb s =? fst cdr) then deallocate (vb s) (vcap s)
   else ret tt) ;;;
  let* s := get in
  set_buf (fst cdr) (ve s) (snd cdr).

(** small_vector.hpp:319-336 assign. *)
Definition assign_range (l : list V) : M vec unit := destroy_all ;;; assign_copy l.
Definition assign_n (count : nat) (v : V) : M vec unit :=
  destroy_all ;;; assign_copy (repeat v count).

(** small_vector.hpp:343-363 at / operator[] without the assertion. *)
Definition at_ (i : nat) : M vec V := let* s := get in read (vb s, i).

(** small_vector.hpp:273-281 destructor. *)
Definition destructor : M vec unit :=
  destroy_all ;;;
  let* s := get in
  if is_static s then ret tt else deallocate (vb s) (vcap s).

(** ** Two vectors *)

(** Reading of the elements [begin(), end()) of a vector. *)
Fixpoint read_from (b i k : nat) : M vec (list V) :=
  match k with
  | 0 => ret []
  | S k' =>
      let* v := read (b, i) in
      let* l := read_from b (S i) k' in
      ret (v :: l)
  end.
Definition read_all : M vec (list V) :=
  let* n := msize in
  let* s := get in
  read_from (vb s) 0 n.

(** small_vector.hpp:283-295 copy assignment (not from itself), *this on the left.  The
    elements of [v] are read up front: the loop does not change them. *)
Definition copy_assign : M (vec * vec) unit :=
  onL destroy_all ;;;
  let* l := onR read_all in
  onL (assign_copy l).

(** small_vector.hpp:256-264 copy constructor. *)
Definition copy_construct (v : vec) : res (vec * vec) unit :=
  (let* l := onR read_all in onL (assign_copy l)) (init_vec, v).

(** small_vector.hpp:735-742, take_impl's loop: [construct(m_end, std::move( *p)); ++m_end]. *)
Fixpoint take_loop (sb si k : nat) : M (vec * vec) unit :=
  match k with
  | 0 => ret tt
  | S k' =>
      let* v := onR (move_from (sb, si)) in
      let* st := get in
      onL (construct (ve (fst st)) (MoveOf v)) ;;;
      onL (set_end (fst (ve (fst st)), S (snd (ve (fst st))))) ;;;
      take_loop sb (S si) k'
  end.

(** The dynamic block of [v] becomes a block of *this (747-748); [v] must not use it any
    more.  Both m_begin and m_end are taken over. *)
Definition take_block : M (vec * vec) unit := fun st =>
  let '(a, v) := st in
  match nth_error (blocks v) (vb v) with
  | Some (Blk l) =>
      if fst (ve v) =? vb v then
        let id := length (blocks a) in
        Ok tt (with_buf id (id, snd (ve v)) (vcap a) (with_blocks (blocks a ++ [Blk l]) a),
               with_blocks (upd (blocks v) (vb v) Freed) v)
      else UB
  | _ => UB
  end.

(** small_vector.hpp:733-754 take_impl. *)
Definition take_impl : M (vec * vec) unit :=
  let* st := get in
  let v := snd st in
  (if is_static v then
     onL (set_buf 0 (0, 0) (vcap (fst st))) ;;;
     let* n := onR msize in
     take_loop (vb v) 0 n ;;;
     onR destroy_all
   else take_block) ;;;
  onR (set_buf 0 (0, 0) SC).

(** small_vector.hpp:297-317 move assignment (not from itself). *)
Definition move_assign : M (vec * vec) unit :=
  onL destroy_all ;;;
  let* st := get in
  (if is_static (fst st) then ret tt
   else onL (deallocate (vb (fst st)) (vcap (fst st)))) ;;;
  let* st := get in
  onL (set_buf (vb (fst st)) (ve (fst st)) (vcap (snd st))) ;;;
  take_impl.

(** small_vector.hpp:266-271 move constructor: m_capacity taken over, m_begin and m_end set
    by take_impl. *)
Definition move_construct (v : vec) : res (vec * vec) unit :=
  (onL (set_buf 0 (0, 0) (vcap v)) ;;; take_impl) (init_vec, v).

(** small_vector.hpp:1013-1028 operator==; the loop with k left. *)
Fixpoint eq_loop (eqb : V -> V -> bool) (i k : nat) : M (vec * vec) bool :=
  match k with
  | 0 => ret true
  | S k' =>
      let* a := onL (at_ i) in
      let* b := onR (at_ i) in
      if eqb a b then eq_loop eqb (S i) k' else ret false
  end.
Definition equal (eqb : V -> V -> bool) : M (vec * vec) bool :=
  let* n := onL msize in
  let* m := onR msize in
  if n =? m then eq_loop eqb 0 n else ret false.

(** ** Histories *)

(** The calls of small_vector: those of every vector, and those about storage. *)
Inductive smallop : Type :=
| Seq (o : vop V)
| Reserve (n : nat)
| ShrinkToFit
| RevertToStatic.

Definition call (o : smallop) : M vec (option nat) :=
  match o with
  | Seq (PushBack v) => no_answer (push_back (CopyOf v))
  | Seq PopBack => no_answer pop_back
  | Seq (Insert pos v) => position_answer (insert1 (Z.of_nat pos) (CopyOf v))
  | Seq (InsertN pos n v) => position_answer (insert_n (Z.of_nat pos) (N.of_nat n) (CopyOf v))
  | Seq (InsertRange pos l) => position_answer (insert_range (Z.of_nat pos) l)
  | Seq (Erase pos) => position_answer (erase (Z.of_nat pos))
  | Seq (EraseRange first last) =>
      position_answer (erase_range (Z.of_nat first) (Z.of_nat last))
  | Seq (Resize n) => no_answer (resize (N.of_nat n))
  | Seq (ResizeVal n v) => no_answer (resize_val (N.of_nat n) (CopyOf v))
  | Seq Clear => no_answer clear
  | Seq (AssignN n v) => no_answer (assign_n n v)
  | Seq (AssignRange l) => no_answer (assign_range l)
  | Reserve n => no_answer (reserve (N.of_nat n))
  | ShrinkToFit => no_answer shrink_to_fit
  | RevertToStatic => no_answer revert_to_static
  end.

(** Calls on a family of vectors; assignment from itself returns at once (285, 299). There
    is no swap member; std::swap is a move construction and two move assignments. *)
Inductive smallsys : Type :=
| On (i : nat) (o : smallop)
| CopyAssign (i j : nat)
| MoveAssign (i j : nat).

Definition sys_call (o : smallsys) : M (list vec) (option nat) :=
  match o with
  | On i op => on_one (call op) i
  | CopyAssign i j => if i =? j then on_one (ret None) i else on_two copy_assign i j
  | MoveAssign i j => if i =? j then on_one (ret None) i else on_two move_assign i j
  end.

End SmallVector.
