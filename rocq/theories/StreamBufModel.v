(** mem_ostreambuf (itlib/mem_streambuf.hpp 97-202) over the vectors of this library: the
    container is a template argument, and the functions of StreamModel.v are written here once
    more, over any container; then the containers itlib::static_vector (StaticVectorModel.v),
    itlib::small_vector (SmallVectorModel.v) and itlib::pod_vector (PodVectorModel.v).

    Unlike in StreamModel.v, a pointer of the put area tells which memory it points into, and
    is of no use once data() points elsewhere; sums of size_t wrap around; and memcpy to a null
    pointer is undefined behaviour also when there is nothing to copy (C17 7.24.1).

    Simplified: the source of a block write does not overlap the buffer; elements of the
    container are read and written one at a time. *)
From Coq Require Import List Arith NArith ZArith Bool.
From Verif Require Import Base SeqSpec VecCommon StreamModel FlatModel SmallFlatModel BitsetBufModel.
From Verif Require StaticVectorModel SmallVectorModel PodVectorModel.
Import ListNotations.
Open Scope nat_scope.

(** A place in memory, and where data() points to: nowhere, or to such a place. *)
Definition place : Type := (nat * nat)%type.
Definition place_eqb (a b : place) : bool := (fst a =? fst b) && (snd a =? snd b).

(** What mem_ostreambuf uses of its container. *)
Record store (C F : Type) : Type := mkStore {
  k_size : M F nat;
  k_cap : M F nat;
  k_base : F -> option place;          (* data() *)
  k_get : nat -> M F C;                (* data()[i] *)
  k_put : nat -> C -> M F unit;        (* data()[i] = c *)
  k_resize : N -> M F unit;
  k_clear : M F unit;
  k_take : option (N -> M F (list C)); (* Container ret; ret.swap(m_data); ret.resize(n), and
                                          what is in ret, which its owner destroys afterwards;
                                          None: there is no member swap *)
  k_destroy : M F unit
}.
Arguments mkStore {C F}.
Arguments k_size {C F} s.
Arguments k_cap {C F} s.
Arguments k_base {C F} s.
Arguments k_get {C F} s.
Arguments k_put {C F} s.
Arguments k_resize {C F} s.
Arguments k_clear {C F} s.
Arguments k_take {C F} s.
Arguments k_destroy {C F} s.

Inductive kptr : Type :=
| KNull
| KAt (b : place) (n : nat).   (* n elements behind b *)

Section Over.
Context {C F : Type}.
Variable K : store C F.

(** m_data (102) and the put area of the base class *)
Record mb : Type := mkMb { held : F; kpptr : kptr; kepptr : kptr }.

Definition in_held {R} (m : M F R) : M mb R := fun s =>
  match m (held s) with
  | Ok r f => Ok r (mkMb f (kpptr s) (kepptr s))
  | Throw e f => Throw e (mkMb f (kpptr s) (kepptr s))
  | UB => UB
  | Diverge => Diverge
  end.

(** p - data(): null pointers may be subtracted from each other, other pointers if they point
    into the same memory. *)
Definition kdiff (p : kptr) (b : option place) : option nat :=
  match p, b with
  | KNull, None => Some 0
  | KAt b n, Some b' => if place_eqb b b' then Some n else None
  | _, _ => None
  end.

(** 117-121 poff *)
Definition kpoff : M mb nat := fun s =>
  match kdiff (kpptr s) (k_base K (held s)) with Some n => Ok n s | None => UB end.

(** data() + off, for a container of [size] elements *)
Definition kaddr (b : option place) (size : nat) (off : Z) : option kptr :=
  match b with
  | None => if (off =? 0)%Z then Some KNull else None
  | Some b =>
      if ((0 <=? off) && (off <=? Z.of_nat size))%Z then Some (KAt b (Z.to_nat off)) else None
  end.

(** setp(data() + off, data() + end); it sets pptr to its first argument. *)
Definition ksetp (off : Z) (end_ : nat) : M mb unit :=
  let* size := in_held (k_size K) in
  fun s =>
    match kaddr (k_base K (held s)) size off, kaddr (k_base K (held s)) size (Z.of_nat end_) with
    | Some p, Some e => Ok tt (mkMb (held s) p e)
    | _, _ => UB
    end.

(** 191-201 cap_resize_by *)
Definition kcap_resize_by (by_ : N) : M mb unit :=
  let* off := kpoff in
  let* size := in_held (k_size K) in
  in_held (k_resize K ((N.of_nat size + by_) mod two64)%N) ;;;
  let* new_size := in_held (k_cap K) in
  in_held (k_resize K (N.of_nat new_size)) ;;;
  ksetp (Z.of_nat off) new_size.

(** 111-115 the constructor, over a default constructed container [f] *)
Definition kconstruct (reserve : N) (f : F) : res mb unit :=
  (ksetp 0 0 ;;; kcap_resize_by reserve) (mkMb f KNull KNull).

(** *( pptr() + i) = c *)
Definition kpoke (i : nat) (c : C) : M mb unit := fun s =>
  match kpptr s, k_base K (held s) with
  | KAt b n, Some b' => if place_eqb b b' then in_held (k_put K (n + i) c) s else UB
  | _, _ => UB
  end.
(** pbump(n) *)
Definition kpbump (n : Z) : M mb unit :=
  let* size := in_held (k_size K) in
  fun s =>
    match kpptr s with
    | KAt b k =>
        let r := (Z.of_nat k + n)%Z in
        if ((0 <=? r) && (r <=? Z.of_nat size))%Z
        then Ok tt (mkMb (held s) (KAt b (Z.to_nat r)) (kepptr s)) else UB
    | KNull => if (n =? 0)%Z then Ok tt s else UB
    end.

(** 146-154 overflow *)
Definition koverflow (c : C) : M mb unit :=
  kcap_resize_by 1 ;;; kpoke 0 c ;;; kpbump 1.

(** 156-159 remaining_buf_size: epptr() - pptr() *)
Definition kremaining (s : mb) : option Z :=
  match kpptr s, kepptr s with
  | KNull, KNull => Some 0%Z
  | KAt b n, KAt b' n' => if place_eqb b b' then Some (Z.of_nat n' - Z.of_nat n)%Z else None
  | _, _ => None
  end.

(** std::basic_streambuf::sputc: if (pptr() < epptr()) *)
Definition ksputc (c : C) : M mb unit :=
  let* s := get in
  match kremaining s with
  | None => ub
  | Some rem => if (0 <? rem)%Z then kpoke 0 c ;;; kpbump 1 else koverflow c
  end.

(** 169 memcpy(pptr(), s, num) *)
Fixpoint kcopy (i : nat) (str : list C) : M mb unit :=
  match str with
  | [] => ret tt
  | c :: str' => kpoke i c ;;; kcopy (S i) str'
  end.
Definition kmemcpy (str : list C) : M mb unit :=
  let* s := get in
  match kpptr s with
  | KNull => ub
  | KAt _ _ => kcopy 0 str
  end.

(** 161-173 xsputn *)
Definition kxsputn (str : list C) : M mb unit :=
  let* s := get in
  match kremaining s with
  | None => ub
  | Some rem =>
      let num := Z.of_nat (length str) in
      (if (rem <? num)%Z then kcap_resize_by (Z.to_N (num - rem)) else ret tt) ;;;
      kmemcpy str ;;;
      kpbump (to_int num)
  end.

(** 175-179 seekpos *)
Definition kseekpos (sp : Z) : M mb Z :=
  let* size := in_held (k_size K) in
  ksetp (to_int sp) size ;;; ret sp.
(** 181-187 seekoff *)
Definition kseekoff (off : Z) (w : way) : M mb Z :=
  match w with
  | Cur => let* p := kpoff in kseekpos (Z.of_nat p + off)
  | Beg => kseekpos off
  | End => let* size := in_held (k_size K) in kseekpos (Z.of_nat size + off)
  end.

(** 128-136 get_container, and what is in it *)
Definition kget_container (take : N -> M F (list C)) : M mb (list C) :=
  let* size := kpoff in
  let* l := in_held (take (N.of_nat size)) in
  (fun s => Ok tt (mkMb (held s) KNull KNull)) ;;;
  ret l.

(** 138-142 clear *)
Definition kclear : M mb unit := in_held (k_clear K) ;;; ksetp 0 0.

(** The elements from [i] on, as peek_container() (123-126) shows them *)
Fixpoint kread (i n : nat) : M mb (list C) :=
  match n with
  | 0 => ret []
  | S n' =>
      let* c := in_held (k_get K i) in
      let* l := kread (S i) n' in
      ret (c :: l)
  end.

(** Calls. A call of get_container() which does not compile is not made. *)
Definition kcall (o : oop C) : M mb (oans C) :=
  match o with
  | OPut c => ksputc c ;;; ret OaNone
  | OWrite str => kxsputn str ;;; ret OaNone
  | OSeekBeg off => let* p := kseekoff off Beg in ret (OaPos p)
  | OSeekCur off => let* p := kseekoff off Cur in ret (OaPos p)
  | OTell => let* p := kpoff in ret (OaPos (Z.of_nat p))
  | OPeek => let* p := kpoff in let* l := kread 0 p in ret (OaData l)
  | OClear => kclear ;;; ret OaNone
  | OGet =>
      match k_take K with
      | None => ub
      | Some take => let* l := kget_container take in ret (OaData l)
      end
  end.
Fixpoint krun (s : mb) (os : list (oop C)) : option (mb * list (oans C)) :=
  match os with
  | [] => Some (s, [])
  | o :: os' =>
      let continue s' a :=
        match krun s' os' with Some (s'', rs) => Some (s'', a :: rs) | None => None end in
      match kcall o s with
      | Ok a s' => continue s' a
      | Throw e s' => continue s' (OaThrow e)
      | _ => None
      end
  end.
End Over.
Arguments mb : clear implicits.
Arguments mkMb {F}.

(** * itlib::static_vector *)

Section Static.
Context {C : Type}.
Variable zero : C.
Variable Capacity : nat.
Import StaticVectorModel.
Notation keep := (fun c : C => c).

(** The elements of a vector, read one after the other *)
Fixpoint sv_read (i n : nat) : M (@sv C) (list C) :=
  match n with
  | 0 => ret []
  | S n' => let* c := at_ i in let* l := sv_read (S i) n' in ret (c :: l)
  end.

(** static_vector.hpp 331-340 data, 408-421 size and capacity, 530-543 resize, 560-598 swap *)
Definition sv_take (n : N) : M (@sv C) (list C) := fun v =>
  match swap keep Capacity (init_sv Capacity, v) with
  | Ok _ (r, v') =>
      match (resize keep zero Capacity (N.to_nat n) ;;;
             let* s := get in
             let* l := sv_read 0 (size s) in
             clear Capacity ;;; ret l) r with
      | Ok l _ => Ok l v'
      | Throw e _ => Throw e v'
      | UB => UB
      | Diverge => Diverge
      end
  | Throw e (_, v') => Throw e v'
  | UB => UB
  | Diverge => Diverge
  end.
Definition sv_store : store C (@sv C) := {|
  k_size := fun s => Ok (size s) s;
  k_cap := fun s => Ok Capacity s;
  k_base _ := Some (0, 0);
  k_get i := at_ i;
  k_put i c := sv_put i c;
  k_resize n := resize keep zero Capacity (N.to_nat n);
  k_clear := clear Capacity;
  k_take := Some sv_take;
  k_destroy := clear Capacity
|}.
End Static.

(** * itlib::small_vector *)

Section Small.
Context {C : Type}.
Variable zero : C.
Variable SC RB : nat.
Variable maxn : N.
Import SmallVectorModel.
Notation keep := (fun c : C => c).

(** small_vector.hpp 385-394 data, 462-465 size, 506-511 capacity, 692-709 resize; there is no
    member swap. *)
Definition small_store : store C (@vec C) := {|
  k_size := msize;
  k_cap := fun s => Ok (capacity s) s;
  k_base s := Some (vb s, 0);
  k_get i := at_ i;
  k_put i c := small_put C i c;
  k_resize n := resize keep zero SC RB maxn n;
  k_clear := clear SC RB;
  k_take := None;
  k_destroy := destructor
|}.
End Small.

(** * itlib::pod_vector *)

Section Pod.
Variable A : PodVectorModel.alc.
Variable T : PodVectorModel.ety.
Import PodVectorModel.

(** pod_vector.hpp 349-357 data, 426-429 size, 489-492 capacity, 615-624 resize, 626-634 swap *)
Definition pod_take (n : N) : M pst (list (list N)) := fun s =>
  match (pswap A T ;;;
         on_a (presize A T n) ;;;
         let* l := on_a (pread_all T) in
         on_a (pdestructor A T) ;;; ret l) (fst s, (init_pv, snd s)) with
  | Ok l (m, (_, v)) => Ok l (m, v)
  | Throw e (m, (_, v)) => Throw e (m, v)
  | UB => UB
  | Diverge => Diverge
  end.
Definition pod_store : store (list N) pst := {|
  k_size := psize T;
  k_cap := mcap;
  k_base s := pb (snd s);
  k_get i := pat T i;
  k_put i x := pod_put T i x;
  k_resize n := presize A T n ;;; ret tt;
  k_clear := pclear;
  k_take := Some pod_take;
  k_destroy := pdestructor A T
|}.
End Pod.
