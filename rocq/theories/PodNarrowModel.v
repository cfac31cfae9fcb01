(** pod_vector.hpp once more, for an allocator whose size_type (pod_vector.hpp 88, 161) has [W]
    bits and may be narrower than size_t: an unsigned type, so what does not fit is cut.

    The functions of PodVectorModel.v are written again here with every conversion to size_type
    the code makes: parameters and results declared as size_type, and the arguments of the
    allocator's malloc, realloc and expand.  m_capacity and e2b are size_t.  Memory, pointers and
    the allocator's answers are those of PodVectorModel.v. *)
From Coq Require Import List Arith NArith ZArith Bool Lia.
From Verif Require Import Base SeqSpec VecCommon SmallVectorModel PodVectorModel.
Import ListNotations.

Section Narrow.
(** pod_vector.hpp:161 the number of bits of size_type. *)
Variable W : N.
Variable A : alc.
Variable T : ety.

Notation SZ := (esz T).
Notation AL := (eal T).

(** Conversion to size_type. *)
Definition cut (x : N) : N := (x mod 2 ^ W)%N.
(** The sum of two numbers of size_type: types narrower than int (32 bits) are promoted. *)
Definition sum (x y : N) : N := (if W <? 32 then x + y else cut (x + y))%N.

(** pod_vector.hpp:426-429 size. *)
Definition nsize : M pst N := let* n := psize T in ret (cut (N.of_nat n)).

(** pod_vector.hpp:825-837 a_malloc(size_type). *)
Definition na_malloc (n : N) : M pst bptr :=
  if allocator_aligned A T then alloc_malloc A (cut (e2b T (cut n)))
  else
    let* buf := alloc_malloc A (cut ((e2b T (cut n) + N.of_nat AL) mod two64)) in
    align_ptr T buf.

(** pod_vector.hpp:839-863 a_realloc_begin(size_type). *)
Definition na_realloc_begin (n : N) : M pst unit :=
  let* b := mbegin in
  (if allocator_aligned A T then
     let* p := alloc_realloc A b (cut (e2b T (cut n))) in set_begin p
   else
     let* new_buf := na_malloc (cut n) in
     (match b with
      | None => ret tt
      | Some _ =>
          let* s := nsize in
          memcpy new_buf b (e2b T s) ;;;
          a_free_begin A T
      end) ;;;
     set_begin new_buf) ;;;
  set_cap (N.to_nat (cut n)).

(** pod_vector.hpp:865-879 a_expand_begin(size_type). *)
Definition na_expand_begin (n : N) : M pst bool :=
  let* b := mbegin in
  let* ok :=
    (if allocator_aligned A T then alloc_expand A b (cut (e2b T (cut n)))
     else let* p := real_addr A T b in
          alloc_expand A p (cut ((e2b T (cut n) + N.of_nat AL) mod two64))) in
  if ok then set_cap (N.to_nat (cut n)) ;;; ret true else ret false.

(** pod_vector.hpp:655-675 size_type get_new_capacity(size_type): new_cap is a size_t. *)
Definition nget_new_capacity (desired : N) : M pst N :=
  let* c := get_new_capacity (cut desired) in ret (cut c).

(** The lambda malloc_copy of reserve (450-456). *)
Definition nmalloc_copy (new_cap : N) (s : N) : M pst unit :=
  let* new_buf := na_malloc new_cap in
  let* b := mbegin in
  (if (s =? 0)%N then ret tt
   else let* n := nsize in memcpy new_buf b (e2b T n)) ;;;
  a_free_begin A T ;;;
  set_begin new_buf ;;;
  set_cap (N.to_nat new_cap).

(** pod_vector.hpp:441-487 reserve(size_t). *)
Definition npreserve (desired : N) : M pst bool :=
  let* c := mcap in
  if (desired <=? N.of_nat c)%N then ret false else
  let* old := mbegin in
  let* new_cap := nget_new_capacity desired in
  let* s := nsize in
  (if a_has_expand A then
     match old with
     | None =>
         let* p := na_malloc new_cap in
         set_begin p ;;; set_cap (N.to_nat new_cap)
     | Some _ =>
         let* ok := na_expand_begin new_cap in
         if ok then ret tt else nmalloc_copy new_cap s
     end
   else if (a_wasteful A <? e2b T (Z.to_N ((Z.of_nat c - Z.of_N s) mod Z.of_N two64)))%N
   then nmalloc_copy new_cap s
   else na_realloc_begin new_cap) ;;;
  end_at T s ;;;
  begin_changed old.

(** pod_vector.hpp:494-530 shrink_to_fit. *)
Definition npshrink_to_fit : M pst bool :=
  let* s := nsize in
  let* c := mcap in
  if (s =? N.of_nat c)%N then ret false else
  if (s =? 0)%N then
    a_free_begin A T ;;; set_cap 0 ;;; set_begin None ;;; set_pend None ;;; ret true
  else
  let* old := mbegin in
  (if a_has_expand A then
     let* ok := na_expand_begin s in
     if ok then ret tt else
       let* new_buf := na_malloc s in
       memcpy new_buf old (e2b T s) ;;;
       a_free_begin A T ;;;
       set_begin new_buf ;;;
       set_cap (N.to_nat s)
   else na_realloc_begin s) ;;;
  end_at T s ;;;
  begin_changed old.

(** pod_vector.hpp:615-624 resize(size_type). *)
Definition npresize (count : N) : M pst bool :=
  let n := cut count in
  let* r := npreserve n in
  let* s := nsize in
  let* e := mend in
  (if (s <? n)%N && a_zero A then memset0 e (e2b T (n - s)) else ret tt) ;;;
  end_at T n ;;;
  ret r.

(** pod_vector.hpp:607-613 resize(size_type, val). *)
Definition npresize_val (count : N) (x : psrc) : M pst bool :=
  let n := cut count in
  let* r := npreserve n in
  let* e := mend in
  pfill T e (N.to_nat n) x ;;;
  end_at T n ;;;
  ret r.

(** pod_vector.hpp:680-742 grow_at(cp, size_type); [offset] is cp - m_begin in elements. *)
Definition npgrow_at (offset : nat) (count : N) : M pst bptr :=
  let num := cut count in
  let* s := nsize in
  let* here := psize T in        (* cp == m_end compares pointers *)
  (if offset =? here then
     let* r := npresize (sum s num) in ret tt
   else
     let make_gap : M pst unit :=
       let* b := mbegin in
       let* dst := padd b ((N.of_nat offset + num) * N.of_nat SZ)%N in
       let* src := padd b (N.of_nat offset * N.of_nat SZ)%N in
       memmove dst src (e2b T (Z.to_N ((Z.of_N s - Z.of_nat offset) mod Z.of_N two64))) in
     let* c := mcap in
     if (N.of_nat c <? sum s num)%N then
       let* new_cap := nget_new_capacity (sum s num) in
       let malloc_copy : M pst unit :=
         let* b := mbegin in
         let* new_buf := na_malloc new_cap in
         (if offset =? 0 then ret tt else memcpy new_buf b (e2b T (N.of_nat offset))) ;;;
         let* dst := padd new_buf ((N.of_nat offset + num) * N.of_nat SZ)%N in
         let* src := padd b (N.of_nat offset * N.of_nat SZ)%N in
         memcpy dst src (e2b T (Z.to_N ((Z.of_N s - Z.of_nat offset) mod Z.of_N two64))) ;;;
         a_free_begin A T ;;;
         set_begin new_buf ;;;
         set_cap (N.to_nat new_cap) in
       if a_has_expand A then
         let* ok := na_expand_begin new_cap in
         if ok then make_gap else malloc_copy
       else if (a_wasteful A <? e2b T (N.of_nat (c - offset)))%N then malloc_copy
       else na_realloc_begin new_cap ;;; make_gap
     else make_gap) ;;;
  end_at T (s + num)%N ;;;
  let* b := mbegin in
  padd b (N.of_nat offset * N.of_nat SZ)%N.

(** pod_vector.hpp:746-762 shrink_at(cp, size_type). *)
Definition npshrink_at (offset count : nat) : M pst nat :=
  let num := cut (N.of_nat count) in
  let* s := nsize in
  if (s =? num)%N then pclear ;;; ret 0 else
  let* here := psize T in        (* m_end - position is a difference of pointers *)
  let* b := mbegin in
  let* position := padd b (N.of_nat offset * N.of_nat SZ)%N in
  let* from := padd position (num * N.of_nat SZ)%N in
  memmove position from (e2b T (Z.to_N ((Z.of_nat here - Z.of_nat offset - Z.of_N num)
                                         mod Z.of_N two64))) ;;;
  end_at T (N.of_nat here - num)%N ;;;
  ret offset.

(** pod_vector.hpp:538-565 insert of an element, of copies, of a range or initializer_list. *)
Definition npinsert1 (pos : nat) (x : psrc) : M pst nat :=
  let* p := npgrow_at pos 1%N in
  let* v := value_of T x in
  write_bytes p v ;;;
  ret pos.
Definition npinsert_n (pos : nat) (count : N) (x : psrc) : M pst nat :=
  let* p := npgrow_at pos (cut count) in
  pfill T p (N.to_nat (cut count)) x ;;;
  ret pos.
Definition npinsert_range (pos : nat) (l : list (list N)) : M pst nat :=
  let* p := npgrow_at pos (N.of_nat (length l)) in
  copy_not_aliased p l ;;;
  ret pos.

(** pod_vector.hpp:573-581 erase, 602-605 pop_back. *)
Definition nperase (pos : nat) : M pst nat := npshrink_at pos 1.
Definition nperase_range (first last : nat) : M pst nat := npshrink_at first (last - first).
Definition nppop_back : M pst unit :=
  let* s := psize T in
  if s =? 0 then ub else npshrink_at (s - 1) 1 ;;; ret tt.

(** pod_vector.hpp:584-594 emplace_back(), push_back. *)
Definition npemplace_back : M pst bptr :=
  let* s := nsize in
  let* r := npreserve (sum s 1) in
  let* e := mend in
  let* e' := padd e (N.of_nat SZ) in
  set_pend e' ;;;
  ret e.
Definition nppush_back (early : bool) (x : psrc) : M pst unit :=
  if early then
    let* v := value_of T x in
    let* e := npemplace_back in
    write_bytes e v
  else
    let* e := npemplace_back in
    let* v := value_of T x in
    write_bytes e v.

(** pod_vector.hpp:765-773 safe_grow(size_t). *)
Definition nsafe_grow (n : N) : M pst unit :=
  let* c := mcap in
  if (n <=? N.of_nat c)%N then ret tt else
  a_free_begin A T ;;;
  let* nc := nget_new_capacity n in
  set_cap (N.to_nat nc) ;;;
  let* p := na_malloc nc in
  set_begin p ;;;
  set_pend p.

(** pod_vector.hpp:776-782 assign_fill(size_type, value). *)
Definition npassign_fill (n : N) (x : psrc) : M pst unit :=
  let count := cut n in
  nsafe_grow count ;;;
  let* b := mbegin in
  pfill T b (N.to_nat count) x ;;;
  end_at T count.

(** pod_vector.hpp:785-792 assign_copy: count is a difference of iterators. *)
Definition npassign_copy (l : list (list N)) : M pst unit :=
  nsafe_grow (N.of_nat (length l)) ;;;
  let* b := mbegin in
  copy_not_aliased b l ;;;
  end_at T (N.of_nat (length l)).

(** pod_vector.hpp:182-186 the constructor with a size_t. *)
Definition npmake (count : N) : M pst unit := let* r := npresize count in ret tt.

(** pod_vector.hpp:232-238 copy assignment. *)
Definition npcopy_assign : M pst2 unit :=
  on_a pclear ;;;
  let* l := on_b (pread_all T) in
  on_a (npassign_copy l).

Variable early : bool.

Definition npcall (o : podop) : M pst (option nat) :=
  match o with
  | PSeq (PushBack v) => no_answer (nppush_back early (Val v))
  | PSeq PopBack => no_answer nppop_back
  | PSeq (Insert pos v) => position_answer (npinsert1 pos (Val v))
  | PSeq (InsertN pos n v) => position_answer (npinsert_n pos (N.of_nat n) (Val v))
  | PSeq (InsertRange pos l) => position_answer (npinsert_range pos l)
  | PSeq (Erase pos) => position_answer (nperase pos)
  | PSeq (EraseRange first last) => position_answer (nperase_range first last)
  | PSeq (Resize n) => no_answer (npresize (N.of_nat n))
  | PSeq (ResizeVal n v) => no_answer (npresize_val (N.of_nat n) (Val v))
  | PSeq Clear => no_answer pclear
  | PSeq (AssignN n v) => no_answer (npassign_fill (N.of_nat n) (Val v))
  | PSeq (AssignRange l) => no_answer (npassign_copy l)
  | PEmplaceBack => no_answer npemplace_back
  | PReserve n => no_answer (npreserve (N.of_nat n))
  | PShrinkToFit => no_answer npshrink_to_fit
  end.

Definition npsys_call (o : podsys) : M pfam (option nat) :=
  match o with
  | POn i op => pon_one (npcall op) i
  | PCopyAssign i j => if i =? j then pon_one (ret None) i else pon_two npcopy_assign i j
  | PMoveAssign i j => if i =? j then pon_one (ret None) i else pon_two (pmove_assign A T) i j
  | PSwap i j => if i =? j then pon_one (ret None) i else pon_two (pswap A T) i j
  end.
End Narrow.
