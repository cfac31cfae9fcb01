(** Model of itlib/mem_streambuf.hpp (mem_ostreambuf, mem_istreambuf) and of
    itlib/rstream.hpp (basic_rstream, basic_redirect_rstream).

    The base class std::basic_streambuf is modelled by its pointers: setp, pbump, setg,
    sputc, sbumpc, sgetc, sungetc, sputn and sgetn as the standard describes them; every
    access outside of the memory which belongs to the buffer is undefined behaviour.

    Simplified: characters are values of an arbitrary type; the source of a block write
    does not overlap the buffer; memory exhaustion happens only where the container
    refuses a size. *)
From Coq Require Import List Arith NArith ZArith Bool.
From Verif Require Import Base VecCommon.
Import ListNotations.

(** int(x), int_type(x): the low 32 bits as a signed number. *)
Definition to_int (x : Z) : Z :=
  let r := (x mod 4294967296)%Z in if (r <? 2147483648)%Z then r else (r - 4294967296)%Z.

(** What mem_ostreambuf needs to know about its container. *)
Record policy : Type := mkPolicy {
  cap0 : nat;                  (* capacity() of a default constructed container *)
  null_data : bool;            (* data() is null when capacity() is 0 *)
  new_cap : nat -> nat -> nat; (* capacity() after resize(n), given the old capacity *)
  max_sz : nat                 (* resize(n) throws beyond this size *)
}.

Inductive ptr : Type :=
| PNull
| POff (n : nat).              (* data() + n *)

Section OStream.
Context {C : Type}.
Variable zero : C.
Variable P : policy.

(** The data members: m_data (mem_streambuf.hpp 100), and the put area of the base. *)
Record ob : Type := mkOb { odata : list C; ocap : nat; pptr : ptr; epptr : ptr }.

Definition base_null (s : ob) : bool := null_data P && (ocap s =? 0).

(** pptr() - data() *)
Definition ptr_off (s : ob) (p : ptr) : option nat :=
  match p with
  | PNull => if base_null s then Some 0 else None
  | POff n => if base_null s then None else Some n
  end.
(** data() + off, which has to stay within the elements. *)
Definition ptr_at (s : ob) (off : Z) : option ptr :=
  if base_null s then (if (off =? 0)%Z then Some PNull else None)
  else if ((0 <=? off) && (off <=? Z.of_nat (length (odata s))))%Z
  then Some (POff (Z.to_nat off)) else None.

Definition setp (off : Z) : M ob unit := fun s =>
  match ptr_at s off, ptr_at s (Z.of_nat (length (odata s))) with
  | Some p, Some e => Ok tt (mkOb (odata s) (ocap s) p e)
  | _, _ => UB
  end.

(** 117-121 poff *)
Definition poff : M ob nat := fun s =>
  match ptr_off s (pptr s) with Some n => Ok n s | None => UB end.

(** m_data.resize(n) *)
Definition cont_resize (n : nat) : M ob unit := fun s =>
  if max_sz P <? n then Throw LengthError s
  else Ok tt (mkOb (firstn n (odata s) ++ repeat zero (n - length (odata s)))
                   (new_cap P (ocap s) n) (pptr s) (epptr s)).

(** 191-201 cap_resize_by *)
Definition cap_resize_by (by_ : nat) : M ob unit :=
  let* off := poff in
  let* s := get in
  cont_resize (length (odata s) + by_) ;;;
  let* s' := get in
  let new_size := ocap s' in
  cont_resize new_size ;;;
  setp (Z.of_nat off).

(** 111-115 constructor *)
Definition fresh : ob :=
  let s := mkOb [] (cap0 P) PNull PNull in
  if base_null s then s else mkOb [] (cap0 P) (POff 0) (POff 0).
Definition oconstruct (reserve : nat) : res ob unit := cap_resize_by reserve fresh.

(** *pptr() = c *)
Definition poke (c : C) : M ob unit := fun s =>
  match pptr s with
  | POff n =>
      if n <? length (odata s)
      then Ok tt (mkOb (upd (odata s) n c) (ocap s) (pptr s) (epptr s)) else UB
  | PNull => UB
  end.
(** pbump(n); the argument is an int. *)
Definition pbump (n : Z) : M ob unit := fun s =>
  match pptr s with
  | POff k =>
      let r := (Z.of_nat k + n)%Z in
      if ((0 <=? r) && (r <=? Z.of_nat (length (odata s))))%Z
      then Ok tt (mkOb (odata s) (ocap s) (POff (Z.to_nat r)) (epptr s)) else UB
  | PNull => if (n =? 0)%Z then Ok tt s else UB
  end.

(** 146-154 overflow *)
Definition overflow (c : C) : M ob unit :=
  cap_resize_by 1 ;;; poke c ;;; pbump 1.

(** epptr() - pptr() *)
Definition remaining (s : ob) : option nat :=
  match pptr s, epptr s with
  | PNull, PNull => Some 0
  | POff a, POff b => Some (b - a)
  | _, _ => None
  end.

(** std::basic_streambuf::sputc, the way characters get to the buffer. *)
Definition sputc (c : C) : M ob unit :=
  let* s := get in
  match remaining s with
  | None => ub
  | Some 0 => overflow c
  | Some _ => poke c ;;; pbump 1
  end.

(** memcpy(pptr(), str, num) *)
Definition put_block (str : list C) : M ob unit := fun s =>
  match pptr s with
  | POff n =>
      if n + length str <=? length (odata s)
      then Ok tt (mkOb (firstn n (odata s) ++ str ++ skipn (n + length str) (odata s))
                       (ocap s) (pptr s) (epptr s))
      else UB
  | PNull => match str with [] => Ok tt s | _ => UB end
  end.

(** 156-173 remaining_buf_size, xsputn *)
Definition xsputn (str : list C) : M ob unit :=
  let* s := get in
  match remaining s with
  | None => ub
  | Some rem =>
      (if rem <? length str then cap_resize_by (length str - rem) else ret tt) ;;;
      put_block str ;;;
      pbump (to_int (Z.of_nat (length str)))
  end.

(** 175-187 seekpos, seekoff *)
Definition oseekpos (sp : Z) : M ob Z :=
  setp (to_int sp) ;;; ret sp.
Inductive way : Type := Beg | Cur | End.
Definition oseekoff (off : Z) (w : way) : M ob Z :=
  match w with
  | Cur => let* p := poff in oseekpos (Z.of_nat p + off)
  | Beg => oseekpos off
  | End => let* s := get in oseekpos (Z.of_nat (length (odata s)) + off)
  end.

(** 128-136 get_container: the elements it returns *)
Definition get_container : M ob (list C) :=
  let* size := poff in
  let* s := get in
  let ret_ := odata s in
  put (mkOb [] (cap0 P) PNull PNull) ;;;
  if max_sz P <? size then throw LengthError
  else ret (firstn size ret_ ++ repeat zero (size - length ret_)).

(** 138-142 clear *)
Definition oclear : M ob unit := fun s =>
  setp 0 (mkOb [] (ocap s) (pptr s) (epptr s)).

(** * Calls *)
Inductive oop : Type :=
| OPut (c : C)
| OWrite (str : list C)
| OSeekBeg (off : Z)
| OSeekCur (off : Z)
| OTell
| OPeek                      (* the first poff() characters of peek_container() *)
| OClear
| OGet.
Inductive oans : Type :=
| OaNone
| OaPos (p : Z)
| OaData (l : list C)
| OaThrow (e : exn).

Definition ocall (o : oop) : M ob oans :=
  match o with
  | OPut c => sputc c ;;; ret OaNone
  | OWrite str => xsputn str ;;; ret OaNone
  | OSeekBeg off => let* p := oseekoff off Beg in ret (OaPos p)
  | OSeekCur off => let* p := oseekoff off Cur in ret (OaPos p)
  | OTell => let* p := poff in ret (OaPos (Z.of_nat p))
  | OPeek => let* p := poff in let* s := get in ret (OaData (firstn p (odata s)))
  | OClear => oclear ;;; ret OaNone
  | OGet => let* l := get_container in ret (OaData l)
  end.
Fixpoint orun (s : ob) (os : list oop) : option (ob * list oans) :=
  match os with
  | [] => Some (s, [])
  | o :: os' =>
      let continue s' a :=
        match orun s' os' with Some (s'', rs) => Some (s'', a :: rs) | None => None end in
      match ocall o s with
      | Ok a s' => continue s' a
      | Throw e s' => continue s' (OaThrow e)
      | _ => None
      end
  end.
End OStream.
Arguments ob : clear implicits.
Arguments oop : clear implicits.
Arguments oans : clear implicits.

Section IStream.
Context {C : Type}.

(** The get area, 223-227: the memory from eback() to egptr(), and gptr() - eback(), which
    a seek may set to anything. *)
Record ib : Type := mkIb { imem : list C; gpos : Z }.

Definition isize (s : ib) : Z := Z.of_nat (length (imem s)).

(** 217-227 *)
Definition ireset (mem : list C) : ib := mkIb mem 0.

(** *gptr() *)
Definition peek_at (p : Z) : M ib C := fun s =>
  if (p <? 0)%Z then UB else
  match nth_error (imem s) (Z.to_nat p) with Some c => Ok c s | None => UB end.

(** sgetc, sbumpc, sungetc of the base class; underflow and pbackfail are not overridden
    and fail. [None] is eof. *)
Definition sgetc : M ib (option C) :=
  let* s := get in
  if (gpos s <? isize s)%Z then let* c := peek_at (gpos s) in ret (Some c) else ret None.
Definition sbumpc : M ib (option C) :=
  let* s := get in
  if (gpos s <? isize s)%Z then
    let* c := peek_at (gpos s) in
    put (mkIb (imem s) (gpos s + 1)) ;;; ret (Some c)
  else ret None.
Definition sungetc : M ib (option C) :=
  let* s := get in
  if (0 <? gpos s)%Z then
    put (mkIb (imem s) (gpos s - 1)) ;;;
    let* c := peek_at (gpos s - 1) in ret (Some c)
  else ret None.

(** 230-238 goff, size: size_t *)
Definition goff : M ib Z := fun s => Ok ((gpos s mod Z.of_N two64))%Z s.

(** 241-253 seekpos, seekoff. pos_type is signed: the sum with a size_t wraps around. *)
Definition to_pos (x : Z) : Z :=
  let r := (x mod Z.of_N two64)%Z in if (r <? Z.of_N two63)%Z then r else (r - Z.of_N two64)%Z.
Definition iseekpos (sp : Z) : M ib Z := fun s => Ok sp (mkIb (imem s) sp).
Definition iseekoff (off : Z) (w : way) : M ib Z :=
  match w with
  | Cur => let* p := goff in iseekpos (to_pos (p + off))
  | Beg => iseekpos off
  | End => let* s := get in iseekpos (to_pos (isize s + off))
  end.

(** 255-266 xsgetn: memcpy of [count] characters from gptr(). A pointer beyond the end
    may be computed and compared; what is wrong is to read there. *)
Definition xsgetn (count : nat) : M ib (list C) :=
  let* s := get in
  let count' := if (isize s <? gpos s + Z.of_nat count)%Z then (isize s - gpos s)%Z
                else Z.of_nat count in
  if (count' <? 0)%Z then ub        (* a huge unsigned number of bytes *)
  else if (count' =? 0)%Z then
    put (mkIb (imem s) (gpos s + count')) ;;; ret []
  else if (gpos s <? 0)%Z then ub   (* before the buffer *)
  else
    put (mkIb (imem s) (gpos s + count')) ;;;
    ret (firstn (Z.to_nat count') (skipn (Z.to_nat (gpos s)) (imem s))).

Inductive iop : Type :=
| IPeek
| IGet
| IUnget
| IRead (n : nat)
| ISeek (off : Z) (w : way)
| ITell
| ISize.
Inductive ians : Type :=
| IaChar (c : option C)
| IaData (l : list C)
| IaPos (p : Z).
Definition icall (o : iop) : M ib ians :=
  match o with
  | IPeek => let* c := sgetc in ret (IaChar c)
  | IGet => let* c := sbumpc in ret (IaChar c)
  | IUnget => let* c := sungetc in ret (IaChar c)
  | IRead n => let* l := xsgetn n in ret (IaData l)
  | ISeek off w => let* p := iseekoff off w in ret (IaPos p)
  | ITell => let* p := goff in ret (IaPos p)
  | ISize => let* s := get in ret (IaPos (isize s))
  end.
Fixpoint irun (s : ib) (os : list iop) : option (ib * list ians) :=
  match os with
  | [] => Some (s, [])
  | o :: os' =>
      match icall o s with
      | Ok a s' =>
          match irun s' os' with Some (s'', rs) => Some (s'', a :: rs) | None => None end
      | _ => None
      end
  end.
End IStream.
Arguments ib : clear implicits.
Arguments ians : clear implicits.

(** * redirect_rstream *)

Section RStream.
Context {C : Type}.

(** A std::istream: its state bits, and a stream buffer with a position, which can be
    moved to any place of the contents and no further. *)
Record istream : Type := mkIs { content : list C; ipos : nat; eofbit : bool; failbit : bool }.

Definition good (s : istream) : bool := negb (eofbit s) && negb (failbit s).

(** The sentry of the unformatted input functions: a stream which is not good fails. *)
Definition sentry (s : istream) : istream :=
  if good s then s else mkIs (content s) (ipos s) (eofbit s) true.

(** istream::read: what is there, and eofbit | failbit if that is not enough. *)
Definition read (n : nat) (s0 : istream) : list C * istream :=
  let s := sentry s0 in
  if failbit s then ([], s) else
  let l := firstn n (skipn (ipos s) (content s)) in
  (l, mkIs (content s) (ipos s + length l)
        (eofbit s || (length l <? n)) (failbit s || (length l <? n))).

(** istream::tellg: -1 when the stream fails. *)
Definition tellg (s0 : istream) : Z * istream :=
  let s := sentry s0 in
  if failbit s then ((-1)%Z, s) else (Z.of_nat (ipos s), s).

(** istream::seekg(pos): clears eofbit; does nothing when the stream has failed. *)
Definition seekg (p : Z) (s0 : istream) : istream :=
  let s := sentry (mkIs (content s0) (ipos s0) false (failbit s0)) in
  if failbit s then s else
  if ((0 <=? p) && (p <=? Z.of_nat (length (content s))))%Z
  then mkIs (content s) (Z.to_nat p) (eofbit s) (failbit s)
  else mkIs (content s) (ipos s) (eofbit s) true.

(** What is done with a stream: reads, and redirects with what is done through them
    (rstream.hpp 80-84 read; 113-131 constructor and destructor of the redirect). *)
Inductive cmd : Type :=
| Read (n : nat)
| Redirect (pos : Z) (inner : list cmd).

Fixpoint exec (c : cmd) (s : istream) : list (list C) * istream :=
  match c with
  | Read n => let '(l, s') := read n s in ([l], s')
  | Redirect pos inner =>
      let '(restore, s1) := tellg s in
      let s2 := seekg pos s1 in
      let '(ls, s3) :=
        (fix go (cs : list cmd) (s : istream) : list (list C) * istream :=
           match cs with
           | [] => ([], s)
           | c :: cs' =>
               let '(a, s') := exec c s in
               let '(b, s'') := go cs' s' in (a ++ b, s'')
           end) inner s2 in
      (ls, seekg restore s3)
  end.
Fixpoint exec_all (cs : list cmd) (s : istream) : list (list C) * istream :=
  match cs with
  | [] => ([], s)
  | c :: cs' =>
      let '(a, s') := exec c s in
      let '(b, s'') := exec_all cs' s' in (a ++ b, s'')
  end.
End RStream.
Arguments istream : clear implicits.
