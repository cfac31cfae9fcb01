(** Model of /repo/include/itlib/pod_vector.hpp.

    Elements are plain bytes here: the value of a T is the list of its sizeof(T) bytes.
    memcpy, memmove, memset, memcmp, std::copy and std::fill are modelled by what the
    standard says they do to bytes.  Pointers are null or a block and a byte offset; an
    access outside a live block is undefined behaviour, and so is a pointer which is moved
    out of its block. *)
From Coq Require Import List Arith NArith ZArith Bool Lia.
From Verif Require Import Base SeqSpec VecCommon SmallVectorModel.
Import ListNotations.

(** sizeof(T) and alignof(T). *)
Record ety : Type := mkEty { esz : nat; eal : nat }.

(** The Alloc template argument (82-103, 121-146): its constants alloc_align, has_expand,
    realloc_wasteful_copy_size and zero_fill_new; and how it will answer.  The answers may
    depend on the number of the call, so that every sequence of answers is some [alc]:
    the address given for a request ([None]: null is returned), the bytes found in new
    memory, and whether expand succeeds. *)
Record alc : Type := mkAlc {
  a_align : nat;
  a_has_expand : bool;
  a_wasteful : N;
  a_zero : bool;
  a_addr : nat -> N -> option N;
  a_junk : nat -> nat -> N;
  a_grant : nat -> bool
}.

(** Memory obtained from the allocator: address and bytes; freed blocks keep their number. *)
Inductive mblk : Type :=
| MBlk (addr : N) (bytes : list N)
| MFreed (addr : N).

Record mem : Type := mkMem { blks : list mblk; ncall : nat }.

Definition bptr : Type := option (nat * nat).

(** pod_vector.hpp:903-906: m_begin, m_end, m_capacity. *)
Record pv : Type := mkPv { pb : bptr; pe : bptr; pcap : nat }.

(** pod_vector.hpp:175-180 default constructor. *)
Definition init_pv : pv := mkPv None None 0.

Definition pst : Type := (mem * pv)%type.

(** A value passed by const reference: an object outside the vector, or a reference to the
    storage at a pointer. *)
Inductive psrc : Type :=
| Val (v : list N)
| Ref (p : bptr).

Section Pod.
Variable A : alc.
Variable T : ety.

Notation SZ := (esz T).
Notation AL := (eal T).

Definition set_begin (p : bptr) : M pst unit :=
  fun s => Ok tt (fst s, mkPv p (pe (snd s)) (pcap (snd s))).
Definition set_pend (p : bptr) : M pst unit :=
  fun s => Ok tt (fst s, mkPv (pb (snd s)) p (pcap (snd s))).
Definition set_cap (c : nat) : M pst unit :=
  fun s => Ok tt (fst s, mkPv (pb (snd s)) (pe (snd s)) c).
Definition mbegin : M pst bptr := fun s => Ok (pb (snd s)) s.
Definition mend : M pst bptr := fun s => Ok (pe (snd s)) s.
Definition mcap : M pst nat := fun s => Ok (pcap (snd s)) s.

(** ** Bytes *)

(** [n] bytes at [p]. *)
Definition read_bytes (p : bptr) (n : nat) : M pst (list N) := fun s =>
  match p with
  | None => UB
  | Some (b, o) =>
      match nth_error (blks (fst s)) b with
      | Some (MBlk a bytes) =>
          if o + n <=? length bytes then Ok (firstn n (skipn o bytes)) s else UB
      | _ => UB
      end
  end.

Definition splice (bytes : list N) (o : nat) (l : list N) : list N :=
  firstn o bytes ++ l ++ skipn (o + length l) bytes.

Definition write_bytes (p : bptr) (l : list N) : M pst unit := fun s =>
  match p with
  | None => UB
  | Some (b, o) =>
      match nth_error (blks (fst s)) b with
      | Some (MBlk a bytes) =>
          if o + length l <=? length bytes
          then Ok tt (mkMem (upd (blks (fst s)) b (MBlk a (splice bytes o l))) (ncall (fst s)), snd s)
          else UB
      | _ => UB
      end
  end.

(** Pointer arithmetic in bytes: the result stays within the block or one past it. *)
Definition padd (p : bptr) (n : N) : M pst bptr := fun s =>
  match p with
  | None => if (n =? 0)%N then Ok None s else UB
  | Some (b, o) =>
      match nth_error (blks (fst s)) b with
      | Some (MBlk a bytes) =>
          if (N.of_nat o + n <=? N.of_nat (length bytes))%N
          then Ok (Some (b, o + N.to_nat n)) s else UB
      | _ => UB
      end
  end.

(** The address a pointer stands for (used in comparisons only). *)
Definition addr_of (p : bptr) (m : mem) : N :=
  match p with
  | None => 0%N
  | Some (b, o) =>
      match nth_error (blks m) b with
      | Some (MBlk a _) | Some (MFreed a) => (a + N.of_nat o)%N
      | None => 0%N
      end
  end.

Definition overlap (p q : bptr) (n : nat) : bool :=
  match p, q with
  | Some (b, o), Some (b', o') => (b =? b') && (o <? o' + n) && (o' <? o + n)
  | _, _ => false
  end.

Definition memmove (dst src : bptr) (n : N) : M pst unit :=
  let* l := read_bytes src (N.to_nat n) in write_bytes dst l.

(** memcpy between overlapping ranges is undefined. *)
Definition memcpy (dst src : bptr) (n : N) : M pst unit :=
  if overlap dst src (N.to_nat n) then ub else memmove dst src n.

Definition memset0 (dst : bptr) (n : N) : M pst unit :=
  write_bytes dst (repeat 0%N (N.to_nat n)).

(** ** The allocator *)

Definition junk (k : nat) (from n : nat) : list N := map (a_junk A k) (seq from n).

Definition alloc_malloc (size : N) : M pst bptr := fun s =>
  let m := fst s in
  match a_addr A (ncall m) size with
  | None => Ok None (mkMem (blks m) (S (ncall m)), snd s)
  | Some a =>
      Ok (Some (length (blks m), 0))
         (mkMem (blks m ++ [MBlk a (junk (ncall m) 0 (N.to_nat size))]) (S (ncall m)), snd s)
  end.

(** Only the start of a live block may be freed; freeing null does nothing. *)
Definition alloc_free (p : bptr) : M pst unit := fun s =>
  match p with
  | None => Ok tt s
  | Some (b, o) =>
      match o, nth_error (blks (fst s)) b with
      | 0, Some (MBlk a _) =>
          Ok tt (mkMem (upd (blks (fst s)) b (MFreed a)) (ncall (fst s)), snd s)
      | _, _ => UB
      end
  end.

(** realloc gives a block (perhaps at the same address) with the old bytes and gives the old
    one up; if it fails the old block stays. *)
Definition alloc_realloc (p : bptr) (size : N) : M pst bptr :=
  match p with
  | None => alloc_malloc size
  | Some (b, o) => fun s =>
      let m := fst s in
      match o, nth_error (blks m) b with
      | 0, Some (MBlk a0 bytes) =>
          match a_addr A (ncall m) size with
          | None => Ok None (mkMem (blks m) (S (ncall m)), snd s)
          | Some a =>
              Ok (Some (length (blks m), 0))
                 (mkMem (upd (blks m) b (MFreed a0) ++
                         [MBlk a (firstn (N.to_nat size) bytes ++
                                  junk (ncall m) (length bytes) (N.to_nat size - length bytes))])
                        (S (ncall m)), snd s)
          end
      | _, _ => UB
      end
  end.

(** expand changes the size of a block in place, if it can. *)
Definition alloc_expand (p : bptr) (size : N) : M pst bool :=
  match p with
  | None => ub
  | Some (b, o) => fun s =>
      let m := fst s in
      match o, nth_error (blks m) b with
      | 0, Some (MBlk a bytes) =>
          if a_grant A (ncall m) then
            Ok true (mkMem (upd (blks m) b
                       (MBlk a (firstn (N.to_nat size) bytes ++
                                junk (ncall m) (length bytes) (N.to_nat size - length bytes))))
                       (S (ncall m)), snd s)
          else Ok false (mkMem (blks m) (S (ncall m)), snd s)
      | _, _ => UB
      end
  end.

(** ** Private members *)

(** pod_vector.hpp:894-897 e2b, in 64 bits. *)
Definition e2b (n : N) : N := ((n * N.of_nat SZ) mod two64)%N.

(** pod_vector.hpp:426-429 size. *)
Definition psize : M pst nat := fun s =>
  match pb (snd s), pe (snd s) with
  | None, None => Ok 0 s
  | Some (b, o), Some (b', o') =>
      if (b =? b') && (o <=? o') then Ok ((o' - o) / SZ) s else UB
  | _, _ => UB
  end.

(** pod_vector.hpp:794-797 allocator_aligned. *)
Definition allocator_aligned : bool := AL <=? a_align A.

(** pod_vector.hpp:799-810 real_addr. *)
Definition real_addr (p : bptr) : M pst bptr :=
  if allocator_aligned then ret p else
  match p with
  | None => ret None
  | Some (b, 0) => ub
  | Some (b, S o) =>
      let* l := read_bytes (Some (b, o)) 1 in
      match l with
      | [off] => if N.to_nat off <=? S o then ret (Some (b, S o - N.to_nat off)) else ub
      | _ => ub
      end
  end.

(** pod_vector.hpp:812-823 align_ptr. *)
Definition align_ptr (p : bptr) : M pst bptr :=
  match p with
  | None => ret None
  | Some (b, o) =>
      let* s := get in
      let addr := addr_of p (fst s) in
      let offset := N.to_nat (N.of_nat AL - addr mod N.of_nat AL)%N in
      let* fix_ := padd p (N.of_nat offset) in
      write_bytes (Some (b, o + offset - 1)) [(N.of_nat offset mod 256)%N] ;;;
      ret fix_
  end.

(** pod_vector.hpp:825-837 a_malloc. *)
Definition a_malloc (n : N) : M pst bptr :=
  if allocator_aligned then alloc_malloc (e2b n)
  else
    let* buf := alloc_malloc ((e2b n + N.of_nat AL) mod two64)%N in
    align_ptr buf.

(** pod_vector.hpp:881-891 a_free_begin. *)
Definition a_free_begin : M pst unit :=
  let* b := mbegin in
  if allocator_aligned then alloc_free b
  else let* p := real_addr b in alloc_free p.

(** pod_vector.hpp:839-863 a_realloc_begin. *)
Definition a_realloc_begin (n : N) : M pst unit :=
  let* b := mbegin in
  (if allocator_aligned then
     let* p := alloc_realloc b (e2b n) in set_begin p
   else
     let* new_buf := a_malloc n in
     (match b with
      | None => ret tt
      | Some _ =>
          let* s := psize in
          memcpy new_buf b (e2b (N.of_nat s)) ;;;
          a_free_begin
      end) ;;;
     set_begin new_buf) ;;;
  set_cap (N.to_nat n).

(** pod_vector.hpp:865-879 a_expand_begin. *)
Definition a_expand_begin (n : N) : M pst bool :=
  let* b := mbegin in
  let* ok :=
    (if allocator_aligned then alloc_expand b (e2b n)
     else let* p := real_addr b in
          alloc_expand p ((e2b n + N.of_nat AL) mod two64)%N) in
  if ok then set_cap (N.to_nat n) ;;; ret true else ret false.

(** pod_vector.hpp:655-675 get_new_capacity. *)
Definition get_new_capacity (desired : N) : M pst N :=
  let* c := mcap in
  if c =? 0 then ret desired
  else match grow_cap (S (N.to_nat desired)) (N.of_nat c) desired with
       | None => diverge
       | Some nc => ret nc
       end.

(** [m_begin != old_begin] as addresses. *)
Definition begin_changed (old : bptr) : M pst bool :=
  let* s := get in
  ret (negb (addr_of old (fst s) =? addr_of (pb (snd s)) (fst s))%N).

(** [m_end = m_begin + n]. *)
Definition end_at (n : N) : M pst unit :=
  let* b := mbegin in
  let* e := padd b (n * N.of_nat SZ)%N in
  set_pend e.

(** ** Public members *)

(** The lambda malloc_copy of reserve (450-456). *)
Definition malloc_copy (new_cap : N) (s : nat) : M pst unit :=
  let* new_buf := a_malloc new_cap in
  let* b := mbegin in
  (if s =? 0 then ret tt
   else let* n := psize in memcpy new_buf b (e2b (N.of_nat n))) ;;;
  a_free_begin ;;;
  set_begin new_buf ;;;
  set_cap (N.to_nat new_cap).

(** pod_vector.hpp:441-487 reserve. *)
Definition preserve (desired : N) : M pst bool :=
  let* c := mcap in
  if (desired <=? N.of_nat c)%N then ret false else
  let* old := mbegin in
  let* new_cap := get_new_capacity desired in
  let* s := psize in
  (if a_has_expand A then
     match old with
     | None =>
         let* p := a_malloc new_cap in
         set_begin p ;;; set_cap (N.to_nat new_cap)
     | Some _ =>
         let* ok := a_expand_begin new_cap in
         if ok then ret tt else malloc_copy new_cap s
     end
   else if (a_wasteful A <? e2b (N.of_nat (c - s)))%N then malloc_copy new_cap s
   else a_realloc_begin new_cap) ;;;
  end_at (N.of_nat s) ;;;
  begin_changed old.

(** pod_vector.hpp:494-530 shrink_to_fit. *)
Definition pshrink_to_fit : M pst bool :=
  let* s := psize in
  let* c := mcap in
  if s =? c then ret false else
  if s =? 0 then
    a_free_begin ;;; set_cap 0 ;;; set_begin None ;;; set_pend None ;;; ret true
  else
  let* old := mbegin in
  (if a_has_expand A then
     let* ok := a_expand_begin (N.of_nat s) in
     if ok then ret tt else
       let* new_buf := a_malloc (N.of_nat s) in
       memcpy new_buf old (e2b (N.of_nat s)) ;;;
       a_free_begin ;;;
       set_begin new_buf ;;;
       set_cap s
   else a_realloc_begin (N.of_nat s)) ;;;
  end_at (N.of_nat s) ;;;
  begin_changed old.

(** pod_vector.hpp:533-536 clear. *)
Definition pclear : M pst unit := let* b := mbegin in set_pend b.

(** pod_vector.hpp:615-624 resize(n). *)
Definition presize (n : N) : M pst bool :=
  let* r := preserve n in
  let* s := psize in
  let* e := mend in
  (if (N.of_nat s <? n)%N && a_zero A then memset0 e (e2b (n - N.of_nat s)) else ret tt) ;;;
  end_at n ;;;
  ret r.

(** The element a value argument stands for, read when it is used. *)
Definition value_of (x : psrc) : M pst (list N) :=
  match x with
  | Val v => ret v
  | Ref p => read_bytes p SZ
  end.

(** pod_vector.hpp:634-638 fill (std::fill), k left. *)
Fixpoint pfill (p : bptr) (k : nat) (x : psrc) : M pst unit :=
  match k with
  | 0 => ret tt
  | S k' =>
      let* v := value_of x in
      write_bytes p v ;;;
      let* p' := padd p (N.of_nat SZ) in
      pfill p' k' x
  end.

(** pod_vector.hpp:640-653 copy_not_aliased, from elements outside the vector. *)
Definition copy_not_aliased (p : bptr) (l : list (list N)) : M pst unit :=
  match l with
  | [] => ret tt
  | _ => write_bytes p (concat l)
  end.

(** pod_vector.hpp:607-613 resize(n, val): n (not n - size()) elements are filled from the
    end. *)
Definition presize_val (n : N) (x : psrc) : M pst bool :=
  let* r := preserve n in
  let* e := mend in
  pfill e (N.to_nat n) x ;;;
  end_at n ;;;
  ret r.

(** pod_vector.hpp:680-742 grow_at; [offset] is cp - m_begin in elements.  Returns the
    address of the hole. *)
Definition pgrow_at (offset : nat) (num : N) : M pst bptr :=
  let* s := psize in
  (if offset =? s then
     let* r := presize ((N.of_nat s + num) mod two64)%N in ret tt
   else
     let make_gap : M pst unit :=
       let* b := mbegin in
       let* dst := padd b ((N.of_nat offset + num) * N.of_nat SZ)%N in
       let* src := padd b (N.of_nat offset * N.of_nat SZ)%N in
       memmove dst src (e2b (N.of_nat (s - offset))) in
     let* c := mcap in
     if (N.of_nat c <? (N.of_nat s + num) mod two64)%N then
       let* new_cap := get_new_capacity ((N.of_nat s + num) mod two64)%N in
       let malloc_copy : M pst unit :=
         let* b := mbegin in
         let* new_buf := a_malloc new_cap in
         (if offset =? 0 then ret tt else memcpy new_buf b (e2b (N.of_nat offset))) ;;;
         let* dst := padd new_buf ((N.of_nat offset + num) * N.of_nat SZ)%N in
         let* src := padd b (N.of_nat offset * N.of_nat SZ)%N in
         memcpy dst src (e2b (N.of_nat (s - offset))) ;;;
         a_free_begin ;;;
         set_begin new_buf ;;;
         set_cap (N.to_nat new_cap) in
       if a_has_expand A then
         let* ok := a_expand_begin new_cap in
         if ok then make_gap else malloc_copy
       else if (a_wasteful A <? e2b (N.of_nat (c - offset)))%N then malloc_copy
       else a_realloc_begin new_cap ;;; make_gap
     else make_gap) ;;;
  end_at (N.of_nat s + num)%N ;;;
  let* b := mbegin in
  padd b (N.of_nat offset * N.of_nat SZ)%N.

(** pod_vector.hpp:746-762 shrink_at; [offset] is cp - m_begin in elements; returns the
    offset of the answered iterator.  [None]: the answer is not within the vector. *)
Definition pshrink_at (offset num : nat) : M pst nat :=
  let* s := psize in
  if s =? num then pclear ;;; ret 0 else
  let* b := mbegin in
  let* position := padd b (N.of_nat offset * N.of_nat SZ)%N in
  let* from := padd position (N.of_nat num * N.of_nat SZ)%N in
  memmove position from (e2b (Z.to_N ((Z.of_nat s - Z.of_nat offset - Z.of_nat num)
                                       mod Z.of_N two64))) ;;;
  end_at (N.of_nat (s - num)) ;;;
  ret offset.

(** pod_vector.hpp:538-543 insert(position, val). *)
Definition pinsert1 (pos : nat) (x : psrc) : M pst nat :=
  let* p := pgrow_at pos 1%N in
  let* v := value_of x in
  write_bytes p v ;;;
  ret pos.

(** pod_vector.hpp:545-550 insert(position, count, val). *)
Definition pinsert_n (pos : nat) (count : N) (x : psrc) : M pst nat :=
  let* p := pgrow_at pos count in
  pfill p (N.to_nat count) x ;;;
  ret pos.

(** pod_vector.hpp:552-565 insert of a range or of an initializer_list. *)
Definition pinsert_range (pos : nat) (l : list (list N)) : M pst nat :=
  let* p := pgrow_at pos (N.of_nat (length l)) in
  copy_not_aliased p l ;;;
  ret pos.

(** pod_vector.hpp:573-581 erase. *)
Definition perase (pos : nat) : M pst nat := pshrink_at pos 1.
Definition perase_range (first last : nat) : M pst nat := pshrink_at first (last - first).

(** pod_vector.hpp:584-589 emplace_back(); returns the address of the new last element. *)
Definition pemplace_back : M pst bptr :=
  let* s := psize in
  let* r := preserve ((N.of_nat s + 1) mod two64)%N in
  let* e := mend in
  let* e' := padd e (N.of_nat SZ) in
  set_pend e' ;;;
  ret e.

(** pod_vector.hpp:591-594 push_back: [emplace_back() = val].  [early]: T is not a class and
    the rules of C++17 apply, so the value is loaded before emplace_back() runs; otherwise
    it may be (and by the usual compilers is) read afterwards, through the reference. *)
Definition ppush_back (early : bool) (x : psrc) : M pst unit :=
  if early then
    let* v := value_of x in
    let* e := pemplace_back in
    write_bytes e v
  else
    let* e := pemplace_back in
    let* v := value_of x in
    write_bytes e v.

(** pod_vector.hpp:602-605 pop_back: m_end - 1 of an empty vector is out of its block. *)
Definition ppop_back : M pst unit :=
  let* s := psize in
  if s =? 0 then ub else pshrink_at (s - 1) 1 ;;; ret tt.

(** pod_vector.hpp:765-773 safe_grow. *)
Definition safe_grow (n : N) : M pst unit :=
  let* c := mcap in
  if (n <=? N.of_nat c)%N then ret tt else
  a_free_begin ;;;
  let* nc := get_new_capacity n in
  set_cap (N.to_nat nc) ;;;
  let* p := a_malloc nc in
  set_begin p ;;;
  set_pend p.

(** pod_vector.hpp:776-782 assign_fill. *)
Definition passign_fill (count : N) (x : psrc) : M pst unit :=
  safe_grow count ;;;
  let* b := mbegin in
  pfill b (N.to_nat count) x ;;;
  end_at count.

(** pod_vector.hpp:785-792 assign_copy, from elements outside the vector. *)
Definition passign_copy (l : list (list N)) : M pst unit :=
  safe_grow (N.of_nat (length l)) ;;;
  let* b := mbegin in
  copy_not_aliased b l ;;;
  end_at (N.of_nat (length l)).

(** pod_vector.hpp:308-326 at / operator[]. *)
Definition pat (i : nat) : M pst (list N) :=
  let* b := mbegin in
  let* p := padd b (N.of_nat i * N.of_nat SZ)%N in
  read_bytes p SZ.

(** pod_vector.hpp:227-230 destructor. *)
Definition pdestructor : M pst unit := a_free_begin.

(** All elements of a vector: the bytes from begin() to end(), cut in elements. *)
Fixpoint chunks (k : nat) (l : list N) : list (list N) :=
  match k with
  | 0 => []
  | S k' => firstn SZ l :: chunks k' (skipn SZ l)
  end.
Definition pread_all : M pst (list (list N)) :=
  let* n := psize in
  let* b := mbegin in
  if n =? 0 then ret [] else
  let* l := read_bytes b (n * SZ) in
  ret (chunks n l).

End Pod.

(** ** Two vectors over the same memory *)

Definition pst2 : Type := (mem * (pv * pv))%type.
Definition on_a {R} (f : M pst R) : M pst2 R := fun st =>
  match f (fst st, fst (snd st)) with
  | Ok r (m, a) => Ok r (m, (a, snd (snd st)))
  | Throw e (m, a) => Throw e (m, (a, snd (snd st)))
  | UB => UB
  | Diverge => Diverge
  end.
Definition on_b {R} (f : M pst R) : M pst2 R := fun st =>
  match f (fst st, snd (snd st)) with
  | Ok r (m, b) => Ok r (m, (fst (snd st), b))
  | Throw e (m, b) => Throw e (m, (fst (snd st), b))
  | UB => UB
  | Diverge => Diverge
  end.

Section Pod2.
Variable A : alc.

(** pod_vector.hpp:232-238 copy assignment (not from itself), *this first. *)
Definition pcopy_assign (T : ety) : M pst2 unit :=
  on_a pclear ;;;
  let* l := on_b (pread_all T) in
  on_a (passign_copy A T l).

(** pod_vector.hpp:240-255 move assignment (not from itself). *)
Definition ptake : M pst2 unit := fun st =>
  Ok tt (fst st, (snd (snd st), init_pv)).
Definition pmove_assign (T : ety) : M pst2 unit :=
  on_a (a_free_begin A T) ;;;
  ptake.

(** pod_vector.hpp:626-631 swap: tmp is move constructed from other, other move assigned from
    *this, *this from tmp; then tmp, by now null, is destroyed. *)
Definition pput (v : pv) : M pst unit := fun s => Ok tt (fst s, v).
Definition pswap (T : ety) : M pst2 unit :=
  let* st := get in
  let tmp := snd (snd st) in
  on_b (pput init_pv) ;;;
  on_b (a_free_begin A T) ;;;
  let* st := get in
  on_b (pput (fst (snd st))) ;;;
  on_a (pput init_pv) ;;;
  on_a (a_free_begin A T) ;;;
  on_a (pput tmp).

(** pod_vector.hpp:257-264 recast_copy_from: *this has elements T, the other U.  The bytes
    of other are copied as they are. *)
Definition recast_copy_from (T U : ety) : M pst2 unit :=
  on_a pclear ;;;
  let* n := on_b (psize U) in
  let* b := on_b mbegin in
  let new_size := N.to_nat (e2b U (N.of_nat n) / N.of_nat (esz T))%N in
  let* l := (if new_size =? 0 then ret []
             else let* bytes := on_b (read_bytes b (new_size * esz T)) in
                  ret (chunks T new_size bytes)) in
  on_a (passign_copy A T l).

(** pod_vector.hpp:266-286 recast_take_from. [None]: the static_assert fails. *)
Definition recast_take_from (T U : ety) : M pst2 unit :=
  on_a (a_free_begin A T) ;;;
  let* n := on_b (psize U) in
  let* b := on_b mbegin in
  let* c := on_b mcap in
  on_a (set_begin b) ;;;
  on_a (end_at T (e2b U (N.of_nat n) / N.of_nat (esz T))%N) ;;;
  on_a (set_cap (N.to_nat (((N.of_nat (esz U) * N.of_nat c) mod two64) / N.of_nat (esz T))%N)) ;;;
  on_b (set_begin None) ;;; on_b (set_pend None) ;;; on_b (set_cap 0).

(** pod_vector.hpp:909-915 operator==. *)
Definition pequal (T : ety) : M pst2 bool :=
  let* n := on_a (psize T) in
  let* k := on_b (psize T) in
  if negb (n =? k) then ret false else
  if n =? 0 then ret true else
  let* a := on_a mbegin in
  let* b := on_b mbegin in
  let* x := on_a (read_bytes a (N.to_nat (e2b T (N.of_nat n)))) in
  let* y := on_b (read_bytes b (N.to_nat (e2b T (N.of_nat n)))) in
  ret (if list_eq_dec N.eq_dec x y then true else false).

(** pod_vector.hpp:917-923 operator!=. *)
Definition pnequal (T : ety) : M pst2 bool :=
  let* n := on_a (psize T) in
  let* k := on_b (psize T) in
  if negb (n =? k) then ret true else
  if n =? 0 then ret false else
  let* a := on_a mbegin in
  let* b := on_b mbegin in
  let* x := on_a (read_bytes a (N.to_nat (e2b T (N.of_nat n)))) in
  let* y := on_b (read_bytes b (N.to_nat (e2b T (N.of_nat n)))) in
  ret (if list_eq_dec N.eq_dec x y then false else true).

End Pod2.

(** ** Histories *)

Inductive podop : Type :=
| PSeq (o : vop (list N))
| PEmplaceBack           (* emplace_back() *)
| PReserve (n : nat)
| PShrinkToFit.

Section Calls.
Variable A : alc.
Variable T : ety.
Variable early : bool.

Definition pcall (o : podop) : M pst (option nat) :=
  match o with
  | PSeq (PushBack v) => no_answer (ppush_back A T early (Val v))
  | PSeq PopBack => no_answer (ppop_back T)
  | PSeq (Insert pos v) => position_answer (pinsert1 A T pos (Val v))
  | PSeq (InsertN pos n v) => position_answer (pinsert_n A T pos (N.of_nat n) (Val v))
  | PSeq (InsertRange pos l) => position_answer (pinsert_range A T pos l)
  | PSeq (Erase pos) => position_answer (perase T pos)
  | PSeq (EraseRange first last) => position_answer (perase_range T first last)
  | PSeq (Resize n) => no_answer (presize A T (N.of_nat n))
  | PSeq (ResizeVal n v) => no_answer (presize_val A T (N.of_nat n) (Val v))
  | PSeq Clear => no_answer pclear
  | PSeq (AssignN n v) => no_answer (passign_fill A T (N.of_nat n) (Val v))
  | PSeq (AssignRange l) => no_answer (passign_copy A T l)
  | PEmplaceBack => no_answer (pemplace_back A T)
  | PReserve n => no_answer (preserve A T (N.of_nat n))
  | PShrinkToFit => no_answer (pshrink_to_fit A T)
  end.

(** Any number of vectors over one memory; assignment from itself returns at once. *)
Inductive podsys : Type :=
| POn (i : nat) (o : podop)
| PCopyAssign (i j : nat)
| PMoveAssign (i j : nat)
| PSwap (i j : nat).

Definition pfam : Type := (mem * list pv)%type.

Definition pon_one (f : M pst (option nat)) (i : nat) : M pfam (option nat) := fun st =>
  match nth_error (snd st) i with
  | None => UB
  | Some v =>
      match f (fst st, v) with
      | Ok r (m, v') => Ok r (m, upd (snd st) i v')
      | Throw e (m, v') => Throw e (m, upd (snd st) i v')
      | UB => UB
      | Diverge => Diverge
      end
  end.
Definition pon_two (f : M pst2 unit) (i j : nat) : M pfam (option nat) := fun st =>
  match nth_error (snd st) i, nth_error (snd st) j with
  | Some a, Some b =>
      match f (fst st, (a, b)) with
      | Ok _ (m, (a', b')) => Ok None (m, upd (upd (snd st) i a') j b')
      | Throw e (m, (a', b')) => Throw e (m, upd (upd (snd st) i a') j b')
      | UB => UB
      | Diverge => Diverge
      end
  | _, _ => UB
  end.

Definition psys_call (o : podsys) : M pfam (option nat) :=
  match o with
  | POn i op => pon_one (pcall op) i
  | PCopyAssign i j => if i =? j then pon_one (ret None) i else pon_two (pcopy_assign A T) i j
  | PMoveAssign i j => if i =? j then pon_one (ret None) i else pon_two (pmove_assign A T) i j
  | PSwap i j => if i =? j then pon_one (ret None) i else pon_two (pswap A T) i j
  end.

(** Destruction of all vectors, one after the other. *)
Fixpoint destroy_all_pods (vs : list pv) : M mem unit := fun m =>
  match vs with
  | [] => Ok tt m
  | v :: vs' =>
      match pdestructor A T (m, v) with
      | Ok _ (m', _) => destroy_all_pods vs' m'
      | Throw e (m', _) => Throw e m'
      | UB => UB
      | Diverge => Diverge
      end
  end.
End Calls.
