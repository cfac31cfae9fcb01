(** Model of /repo/include/itlib/static_vector.hpp.

    The storage [m_data] (line 672) is a list of slots, each either raw memory or
    a live object.  The error handling macros are modelled in their default setting
    ITLIB_STATIC_VECTOR_ERROR_HANDLING_THROW (lines 125-133); the debug assertions
    I_ITLIB_STATIC_VECTOR_BOUNDS_CHECK* (lines 147-154) are modelled as compiled out
    (NDEBUG): what they guard against shows up as [UB] when memory is misused. *)
From Coq Require Import List Arith NArith Bool Lia.
From Verif Require Import Base SeqSpec VecCommon.
Import ListNotations.

(** Where the value of a newly constructed element comes from.
    [CopyOf v]: copy of an object outside the vector (const T&), or construction from
    arbitrary arguments giving the value [v]; may throw.
    [MoveOf v]: move construction from an object outside the vector (T&&); assumed not
    to throw (the effect on the outside object is not modelled).
    [CopyOwn k]: copy of a reference to the vector's own k-th slot; may throw. *)
Inductive src (V : Type) : Type :=
| CopyOf (v : V)
| MoveOf (v : V)
| CopyOwn (k : nat).
Arguments CopyOf {V} v.
Arguments MoveOf {V} v.
Arguments CopyOwn {V} k.

Section StaticVector.
Context {V : Type}.
(** [moved v] is the value an object of value [v] has after it was moved from: it is
    arbitrary, each element type has its own. [dflt] is the value of [T()]. *)
Variable moved : V -> V.
Variable dflt : V.
(** The template argument Capacity (line 159). *)
Variable Capacity : nat.

(** static_vector.hpp:672-673: m_data and m_size.  [fuse] belongs to the environment:
    [Some k] means that the k-th next throwing-capable element construction throws
    (0 = the very next), [None] that no construction throws. *)
Record sv : Type := mkSv {
  data : list (slot V);
  size : nat;
  fuse : option nat
}.

Definition with_data (d : list (slot V)) (s : sv) : sv := mkSv d (size s) (fuse s).
Definition with_size (n : nat) (s : sv) : sv := mkSv (data s) n (fuse s).
Definition with_fuse (f : option nat) (s : sv) : sv := mkSv (data s) (size s) f.

Definition set_size (n : nat) : M sv unit := fun s => Ok tt (with_size n s).

(** static_vector.hpp:183 [static_vector() = default] with m_size = 0 (673). *)
Definition init_sv : sv := mkSv (repeat Raw Capacity) 0 None.

(** [p->~T()]: destroying anything but a live object is undefined. *)
Definition destroy (i : nat) : M sv unit := fun s =>
  match nth_error (data s) i with
  | Some (Live _) => Ok tt (with_data (upd (data s) i Raw) s)
  | _ => UB
  end.

(** Read of the object in slot i through a reference. *)
Definition read (i : nat) : M sv V := fun s =>
  match nth_error (data s) i with
  | Some (Live v) => Ok v s
  | _ => UB
  end.

(** The source side of [T(std::move( *p))]: the value moves out, the object stays alive. *)
Definition move_from (i : nat) : M sv V := fun s =>
  match nth_error (data s) i with
  | Some (Live v) => Ok v (with_data (upd (data s) i (Live (moved v))) s)
  | _ => UB
  end.

(** A construction which may throw burns the fuse. *)
Definition tick : M sv unit := fun s =>
  match fuse s with
  | None => Ok tt s
  | Some 0 => Throw ElemThrow (with_fuse None s)
  | Some (S k) => Ok tt (with_fuse (Some k) s)
  end.

(** The object comes to life in slot i: the slot must exist and be raw. *)
Definition begin_life (i : nat) (v : V) : M sv unit := fun s =>
  match nth_error (data s) i with
  | Some Raw => Ok tt (with_data (upd (data s) i (Live v)) s)
  | _ => UB
  end.

(** [::new (m_data + i) T(...)]. *)
Definition construct (i : nat) (x : src V) : M sv unit :=
  match x with
  | CopyOf v => tick ;;; begin_life i v
  | MoveOf v => begin_life i v
  | CopyOwn k => let* v := read k in tick ;;; begin_life i v
  end.

(** A plain loop [for (p = i; p != e; ++p) p->~T()]; the fuel only bounds the walk of a
    loop which misses its end (such a loop leaves the storage, hence UB, first). *)
Fixpoint destroy_range (fuel p e : nat) : M sv unit :=
  if p =? e then ret tt else
  match fuel with
  | 0 => diverge
  | S f => destroy p ;;; destroy_range f (S p) e
  end.

(** static_vector.hpp:429-436 clear. *)
Definition clear : M sv unit :=
  let* s := get in
  destroy_range (S Capacity) 0 (size s) ;;;
  set_size 0.

(** static_vector.hpp:438-462 push_back (both overloads) and emplace_back. *)
Definition push_back (x : src V) : M sv unit :=
  let* s := get in
  throw_if (Capacity <=? size s) OutOfRange ;;;
  construct (size s) x ;;;
  let* s' := get in
  set_size (S (size s')).

(** static_vector.hpp:631-635, the loop of grow_at, with k elements left to shift:
    [for (p = end()-1; p >= position; --p) { new (p+by) T(move( *p)); p->~T(); }] *)
Fixpoint grow_loop (position by_ : nat) (k : nat) : M sv unit :=
  match k with
  | 0 => ret tt
  | S k' =>
      let p := position + k' in
      let* v := move_from p in
      construct (p + by_) (MoveOf v) ;;;
      destroy p ;;;
      grow_loop position by_ k'
  end.

(** static_vector.hpp:624-639 grow_at.  [size() + by > Capacity] and [m_size += by] are
    computed in 64 bits.  An iterator beyond end() makes the loop run zero times. *)
Definition grow_at (position : nat) (by_ : N) : M sv nat :=
  let* s := get in
  throw_if (N.of_nat Capacity <? (N.of_nat (size s) + by_) mod two64)%N OutOfRange ;;;
  if (by_ =? 0)%N then ret position else
  grow_loop position (N.to_nat by_) (size s - position) ;;;
  set_size (N.to_nat ((N.of_nat (size s) + by_) mod two64)) ;;;
  ret position.

(** static_vector.hpp:656-660, the first loop of shrink_at. *)
Fixpoint shrink_loop (fuel p np myend : nat) : M sv unit :=
  if np =? myend then ret tt else
  match fuel with
  | 0 => diverge
  | S f =>
      destroy p ;;;
      let* v := move_from np in
      construct p (MoveOf v) ;;;
      shrink_loop f (S p) (S np) myend
  end.

(** static_vector.hpp:641-670 shrink_at. *)
Definition shrink_at (position : nat) (num : N) : M sv nat :=
  let* s := get in
  throw_if (N.of_nat (size s) <? num)%N OutOfRange ;;;
  let n := N.to_nat num in
  if size s - n =? 0 then clear ;;; ret 0 else
  shrink_loop (S Capacity) position (position + n) (size s) ;;;
  destroy_range (S Capacity) (size s - n) (size s) ;;;
  set_size (size s - n) ;;;
  ret position.

(** static_vector.hpp:424-427 pop_back. On an empty vector [end()-1] is not used. *)
Definition pop_back : M sv unit :=
  let* s := get in
  shrink_at (size s - 1) 1%N ;;;
  ret tt.

(** static_vector.hpp:464-476 insert(position, val), 512-518 emplace. *)
Definition insert1 (position : nat) (x : src V) : M sv nat :=
  let* pos := grow_at position 1%N in
  construct pos x ;;;
  ret pos.

(** Loop of 481-484, [for (i = 0; i < count; ++i) new (pos + i) T(val)], k left. *)
Fixpoint fill_loop (p : nat) (x : src V) (k : nat) : M sv unit :=
  match k with
  | 0 => ret tt
  | S k' => construct p x ;;; fill_loop (S p) x k'
  end.

(** static_vector.hpp:478-486 insert(position, count, val). *)
Definition insert_n (position : nat) (count : N) (x : src V) : M sv nat :=
  let* pos := grow_at position count in
  fill_loop pos x (N.to_nat count) ;;;
  ret pos.

(** Loop of 493-496 (and 504-508): copies a range of outside elements. *)
Fixpoint copy_loop (p : nat) (l : list V) : M sv unit :=
  match l with
  | [] => ret tt
  | v :: l' => construct p (CopyOf v) ;;; copy_loop (S p) l'
  end.

(** static_vector.hpp:488-498 insert(position, first, last) and 500-510
    insert(position, ilist) ([std::move] of a const element is a copy). The range is a
    list of outside values (a range inside the vector itself is excluded, as for
    std::vector). *)
Definition insert_range (position : nat) (l : list V) : M sv nat :=
  let* pos := grow_at position (N.of_nat (length l)) in
  copy_loop pos l ;;;
  ret pos.

(** static_vector.hpp:520-523 erase(position). *)
Definition erase (position : nat) : M sv nat := shrink_at position 1%N.

(** static_vector.hpp:525-528 erase(first, last): [last - first] converted to size_t. *)
Definition erase_range (first last : nat) : M sv nat :=
  shrink_at first ((N.of_nat last + two64 - N.of_nat first) mod two64)%N.

(** static_vector.hpp:534-537 / 549-552 [while (m_size > n) pop_back();] *)
Fixpoint pop_while (fuel n : nat) : M sv unit :=
  let* s := get in
  if n <? size s then
    match fuel with
    | 0 => diverge
    | S f => pop_back ;;; pop_while f n
    end
  else ret tt.

(** static_vector.hpp:539-542 / 554-557 [while (n > m_size) push_back(v)] (or
    emplace_back(), i.e. construction of the default value, which may throw). *)
Fixpoint push_while (fuel n : nat) (x : src V) : M sv unit :=
  let* s := get in
  if size s <? n then
    match fuel with
    | 0 => diverge
    | S f => push_back x ;;; push_while f n x
    end
  else ret tt.

(** static_vector.hpp:545-558 resize(n, v). *)
Definition resize_val (n : nat) (x : src V) : M sv unit :=
  throw_if (Capacity <? n) OutOfRange ;;;
  pop_while (S Capacity) n ;;;
  push_while (S Capacity) n x.

(** static_vector.hpp:530-543 resize(n). *)
Definition resize (n : nat) : M sv unit := resize_val n (CopyOf dflt).

(** Loop of 597-600. *)
Fixpoint push_n (k : nat) (x : src V) : M sv unit :=
  match k with
  | 0 => ret tt
  | S k' => push_back x ;;; push_n k' x
  end.

(** Loops of 608-611, 618-621 and 250-253 over outside values. *)
Fixpoint push_list (l : list V) : M sv unit :=
  match l with
  | [] => ret tt
  | v :: l' => push_back (CopyOf v) ;;; push_list l'
  end.

(** static_vector.hpp:270-274 assign(count, value) with 593-601 assign_impl_val. *)
Definition assign_n (count : nat) (v : V) : M sv unit :=
  clear ;;;
  throw_if (Capacity <? count) OutOfRange ;;;
  push_n count (CopyOf v).

(** static_vector.hpp:276-287 assign(first, last) / assign(ilist) with 603-622. (The
    comparison of 606 is made in [long]; it agrees with this one for ranges shorter than
    2^63 and capacities below 2^63.) *)
Definition assign_range (l : list V) : M sv unit :=
  clear ;;;
  throw_if (Capacity <? length l) OutOfRange ;;;
  push_list l.

(** static_vector.hpp:289-299 at / operator[]: no check without assertions. *)
Definition at_ (i : nat) : M sv V := read i.

(** * Calls which involve a second vector of the same type *)

(** Loop of 210-213 / 250-253, [for (elem : v) push_back(elem)]; k elements left, next i. *)
Fixpoint copy_from_loop (i k : nat) : M (sv * sv) unit :=
  match k with
  | 0 => ret tt
  | S k' =>
      let* v := onR (read i) in
      onL (push_back (CopyOf v)) ;;;
      copy_from_loop (S i) k'
  end.

(** static_vector.hpp:241-256 copy assignment from another vector (the self check of 243
    makes self assignment do nothing), *this on the left. *)
Definition copy_assign : M (sv * sv) unit :=
  onL clear ;;;
  let* st := get in
  copy_from_loop 0 (size (snd st)).

(** Loop of 229-232 / 261-264, [emplace_back(std::move( *i))]. *)
Fixpoint move_from_loop (i k : nat) : M (sv * sv) unit :=
  match k with
  | 0 => ret tt
  | S k' =>
      let* v := onR (move_from i) in
      onL (push_back (MoveOf v)) ;;;
      move_from_loop (S i) k'
  end.

(** static_vector.hpp:258-268 move assignment from another vector. *)
Definition move_assign : M (sv * sv) unit :=
  onL clear ;;;
  let* st := get in
  move_from_loop 0 (size (snd st)) ;;;
  onR clear.

(** static_vector.hpp:258-268 with [&v == this]: clear, an empty loop, clear. *)
Definition self_move_assign : M sv unit := clear ;;; clear.

(** static_vector.hpp:208-214 copy constructor and 227-234 move constructor: as the
    assignments, into a fresh vector. *)
Definition copy_construct (v : sv) : res (sv * sv) unit :=
  (let* st := get in copy_from_loop 0 (size (snd st))) (init_sv, v).
Definition move_construct (v : sv) : res (sv * sv) unit :=
  (let* st := get in move_from_loop 0 (size (snd st)) ;;; onR clear) (init_sv, v).

(** [std::swap(a, b)] of two elements: both must be alive. *)
Definition swap_elems (i : nat) : M (sv * sv) unit := fun st =>
  match nth_error (data (fst st)) i, nth_error (data (snd st)) i with
  | Some (Live a), Some (Live b) =>
      Ok tt (with_data (upd (data (fst st)) i (Live b)) (fst st),
             with_data (upd (data (snd st)) i (Live a)) (snd st))
  | _, _ => UB
  end.

(** Loop of 576-579. *)
Fixpoint swap_loop (i k : nat) : M (sv * sv) unit :=
  match k with
  | 0 => ret tt
  | S k' => swap_elems i ;;; swap_loop (S i) k'
  end.

(** Loop of 583-587, shorter on the left. *)
Fixpoint swap_tail (i k : nat) : M (sv * sv) unit :=
  match k with
  | 0 => ret tt
  | S k' =>
      let* v := onR (move_from i) in
      onL (push_back (MoveOf v)) ;;;
      onR (destroy i) ;;;
      swap_tail (S i) k'
  end.

(** static_vector.hpp:576-589, with the shorter vector on the left. *)
Definition swap_short_long : M (sv * sv) unit :=
  let* st := get in
  let short_size := size (fst st) in
  swap_loop 0 short_size ;;;
  swap_tail short_size (size (snd st) - short_size) ;;;
  onR (set_size short_size).

(** static_vector.hpp:560-590 swap of two distinct vectors, *this on the left. *)
Definition swap : M (sv * sv) unit := fun st =>
  if size (fst st) <? size (snd st)
  then swap_short_long st
  else flip_res (swap_short_long (flip_pair st)).

(** static_vector.hpp:676-691 operator==, loop with k comparisons left; [eqb] is the
    element's operator==. *)
Fixpoint eq_loop (eqb : V -> V -> bool) (i k : nat) : M (sv * sv) bool :=
  match k with
  | 0 => ret true
  | S k' =>
      let* a := onL (read i) in
      let* b := onR (read i) in
      if eqb a b then eq_loop eqb (S i) k' else ret false
  end.
Definition equal (eqb : V -> V -> bool) : M (sv * sv) bool :=
  let* st := get in
  if size (fst st) =? size (snd st)
  then eq_loop eqb 0 (size (fst st))
  else ret false.

(** * Histories *)

(** The calls of [SeqSpec.vop] on this container: each one is the member function of the
    same name (emplace_back / emplace take the place of push_back / insert). *)
Definition call (o : vop V) : M sv (option nat) :=
  match o with
  | PushBack v => no_answer (push_back (CopyOf v))
  | PopBack => no_answer pop_back
  | Insert pos v => position_answer (insert1 pos (CopyOf v))
  | InsertN pos n v => position_answer (insert_n pos (N.of_nat n) (CopyOf v))
  | InsertRange pos l => position_answer (insert_range pos l)
  | Erase pos => position_answer (erase pos)
  | EraseRange first last => position_answer (erase_range first last)
  | Resize n => no_answer (resize n)
  | ResizeVal n v => no_answer (resize_val n (CopyOf v))
  | Clear => no_answer clear
  | AssignN n v => no_answer (assign_n n v)
  | AssignRange l => no_answer (assign_range l)
  end.

(** Calls on a family of vectors. Self assignment is decided by the addresses: copy
    assignment returns at once (243-247), move assignment does not check (258-268), and
    swapping a vector with itself swaps every element with itself (576-579) and has no
    tail to move, which leaves it as it is. *)
Definition sys_call (o : sysop V) : M (list sv) (option nat) :=
  match o with
  | On i op => on_one (call op) i
  | CopyAssign i j => if i =? j then on_one (ret None) i else on_two copy_assign i j
  | MoveAssign i j => if i =? j then on_one (no_answer self_move_assign) i
                      else on_two move_assign i j
  | SwapOp i j => if i =? j then on_one (ret None) i else on_two swap i j
  end.

End StaticVector.
