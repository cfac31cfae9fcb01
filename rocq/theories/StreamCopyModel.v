(** Copies and moves of mem_ostreambuf (itlib/mem_streambuf.hpp 97-202). The class declares no
    copy or move of its own, so it gets the implicit ones, member by member: m_data is copied or
    moved as the container does it, and the base class std::basic_streambuf has only copies,
    which copy the pointers of the put area ([streambuf.cons], [streambuf.assign]).

    There is one memory for all the buffers, made of blocks, and a pointer of a put area is a
    block and an offset in it; so it may point into memory of another buffer, or into memory
    which is there no more, and a write through it goes where it points.

    The container is a std::vector or a std::string, described by a policy (StreamModel.v) and
    by [keeps]: whether a container of the given capacity hands its memory over when it is
    moved, as every std::vector does and a std::string only when it is long. Memory inside of a
    short string is a block, too, which comes and goes with the string.

    Simplified as in StreamModel.v: characters are values of an arbitrary type; the source of a
    block write does not overlap the buffer; memory exhaustion happens only where the container
    refuses a size. A container which is moved from is empty afterwards. *)
From Coq Require Import List Arith NArith ZArith Bool.
From Verif Require Import Base VecCommon StreamModel.
Import ListNotations.
Open Scope nat_scope.

Inductive cptr : Type :=
| CNull
| CAt (a n : nat).             (* n characters into block a *)

Section Copies.
Context {C : Type}.
Variable zero : C.
Variable P : policy.
Variable keeps : nat -> bool.

Definition memory : Type := nat -> option (list C).
Definition set_block (m : memory) (a : nat) (x : option (list C)) : memory :=
  fun b => if b =? a then x else m b.

(** m_data (102): where data() points to, and capacity(); the pointers of the base class *)
Record obuf : Type := mkBuf { bbase : option nat; bcap : nat; bp : cptr; be : cptr }.

(** One of the buffers, and the memory, whose blocks from [lnxt] on were never used. *)
Record loc : Type := mkLoc { lmem : memory; lnxt : nat; lbuf : obuf }.

(** ** The container *)

(** What is in it *)
Definition c_data : M loc (list C) := fun s =>
  match bbase (lbuf s) with
  | None => Ok [] s
  | Some a => match lmem s a with Some l => Ok l s | None => UB end
  end.
(** A default constructed one, in the place of the present one *)
Definition c_default : M loc unit := fun s =>
  let b := lbuf s in
  if null_data P && (cap0 P =? 0)
  then Ok tt (mkLoc (lmem s) (lnxt s) (mkBuf None (cap0 P) (bp b) (be b)))
  else Ok tt (mkLoc (set_block (lmem s) (lnxt s) (Some [])) (S (lnxt s))
                    (mkBuf (Some (lnxt s)) (cap0 P) (bp b) (be b))).
(** Its memory is given back, and it has none. *)
Definition c_free : M loc unit := fun s =>
  match bbase (lbuf s) with
  | None => Ok tt s
  | Some a =>
      match lmem s a with
      | Some _ =>
          Ok tt (mkLoc (set_block (lmem s) a None) (lnxt s)
                       (mkBuf None (bcap (lbuf s)) (bp (lbuf s)) (be (lbuf s))))
      | None => UB
      end
  end.
(** Its elements become [l], in the same memory if the capacity allows that. *)
Definition c_become (l : list C) : M loc unit :=
  let* s := get in
  let b := lbuf s in
  let cap := new_cap P (bcap b) (length l) in
  if cap =? bcap b then
    match bbase b with
    | None => match l with [] => ret tt | _ => ub end
    | Some a => put (mkLoc (set_block (lmem s) a (Some l)) (lnxt s) b)
    end
  else
    c_free ;;;
    fun s => Ok tt (mkLoc (set_block (lmem s) (lnxt s) (Some l)) (S (lnxt s))
                          (mkBuf (Some (lnxt s)) cap (bp b) (be b))).
Definition c_resize (n : nat) : M loc unit :=
  let* l := c_data in
  if max_sz P <? n then throw LengthError
  else c_become (firstn n l ++ repeat zero (n - length l)).

(** ** The functions of mem_ostreambuf *)

(** 117-121 poff: pptr() - data() *)
Definition c_poff : M loc nat := fun s =>
  match bp (lbuf s), bbase (lbuf s) with
  | CNull, None => Ok 0 s
  | CAt a n, Some a' => if a =? a' then Ok n s else UB
  | _, _ => UB
  end.
(** data() + off *)
Definition c_addr (s : loc) (size : nat) (off : Z) : option cptr :=
  match bbase (lbuf s) with
  | None => if (off =? 0)%Z then Some CNull else None
  | Some a =>
      if ((0 <=? off) && (off <=? Z.of_nat size))%Z then Some (CAt a (Z.to_nat off)) else None
  end.
(** setp(data() + off, data() + size()) *)
Definition c_setp (off : Z) : M loc unit :=
  let* l := c_data in
  fun s =>
    match c_addr s (length l) off, c_addr s (length l) (Z.of_nat (length l)) with
    | Some p, Some e => Ok tt (mkLoc (lmem s) (lnxt s) (mkBuf (bbase (lbuf s)) (bcap (lbuf s)) p e))
    | _, _ => UB
    end.
(** 191-201 cap_resize_by *)
Definition c_cap_resize_by (by_ : nat) : M loc unit :=
  let* off := c_poff in
  let* l := c_data in
  c_resize (length l + by_) ;;;
  let* s := get in
  c_resize (bcap (lbuf s)) ;;;
  c_setp (Z.of_nat off).
(** Characters are written to pptr(), wherever that is: 150 one, 169 memcpy *)
Definition c_put (str : list C) : M loc unit := fun s =>
  match bp (lbuf s) with
  | CAt a n =>
      match lmem s a with
      | Some l =>
          if n + length str <=? length l
          then Ok tt (mkLoc (set_block (lmem s) a
                              (Some (firstn n l ++ str ++ skipn (n + length str) l)))
                            (lnxt s) (lbuf s))
          else UB
      | None => UB
      end
  | CNull => match str with [] => Ok tt s | _ => UB end
  end.
(** pbump(n) *)
Definition c_pbump (n : Z) : M loc unit := fun s =>
  let b := lbuf s in
  match bp b with
  | CAt a k =>
      match lmem s a with
      | Some l =>
          let r := (Z.of_nat k + n)%Z in
          if ((0 <=? r) && (r <=? Z.of_nat (length l)))%Z
          then Ok tt (mkLoc (lmem s) (lnxt s) (mkBuf (bbase b) (bcap b) (CAt a (Z.to_nat r)) (be b)))
          else UB
      | None => UB
      end
  | CNull => if (n =? 0)%Z then Ok tt s else UB
  end.
(** 146-154 overflow *)
Definition c_overflow (c : C) : M loc unit :=
  c_cap_resize_by 1 ;;; c_put [c] ;;; c_pbump 1.
(** 156-159 remaining_buf_size: epptr() - pptr(), of pointers into memory which is there *)
Definition c_remaining : M loc nat := fun s =>
  match bp (lbuf s), be (lbuf s) with
  | CNull, CNull => Ok 0 s
  | CAt a n, CAt a' n' =>
      if a =? a' then match lmem s a with Some _ => Ok (n' - n) s | None => UB end else UB
  | _, _ => UB
  end.
(** std::basic_streambuf::sputc *)
Definition c_sputc (c : C) : M loc unit :=
  let* rem := c_remaining in
  match rem with
  | 0 => c_overflow c
  | S _ => c_put [c] ;;; c_pbump 1
  end.
(** 161-173 xsputn *)
Definition c_xsputn (str : list C) : M loc unit :=
  let* rem := c_remaining in
  (if rem <? length str then c_cap_resize_by (length str - rem) else ret tt) ;;;
  c_put str ;;;
  c_pbump (to_int (Z.of_nat (length str))).
(** 175-187 seekpos, seekoff *)
Definition c_seekpos (sp : Z) : M loc Z := c_setp (to_int sp) ;;; ret sp.
(** 128-136 get_container: what is in the container returned, which is then destroyed *)
Definition c_get_container : M loc (list C) :=
  let* size := c_poff in
  let* l := c_data in
  c_free ;;;
  c_default ;;;
  (fun s => Ok tt (mkLoc (lmem s) (lnxt s) (mkBuf (bbase (lbuf s)) (bcap (lbuf s)) CNull CNull))) ;;;
  if max_sz P <? size then throw LengthError
  else ret (firstn size l ++ repeat zero (size - length l)).
(** 138-142 clear: the capacity stays *)
Definition c_clear : M loc unit :=
  let* s := get in
  match bbase (lbuf s) with
  | None => ret tt
  | Some a => put (mkLoc (set_block (lmem s) a (Some [])) (lnxt s) (lbuf s))
  end ;;;
  c_setp 0.

Definition c_call (o : oop C) : M loc (oans C) :=
  match o with
  | OPut c => c_sputc c ;;; ret OaNone
  | OWrite str => c_xsputn str ;;; ret OaNone
  | OSeekBeg off => let* p := c_seekpos off in ret (OaPos p)
  | OSeekCur off => let* q := c_poff in let* p := c_seekpos (Z.of_nat q + off) in ret (OaPos p)
  | OTell => let* p := c_poff in ret (OaPos (Z.of_nat p))
  | OPeek => let* p := c_poff in let* l := c_data in ret (OaData (firstn p l))
  | OClear => c_clear ;;; ret OaNone
  | OGet => let* l := c_get_container in ret (OaData l)
  end.

(** 111-115 the constructor; m_data is destroyed if it throws. *)
Definition c_construct (reserve : nat) : M loc unit :=
  c_default ;;; c_setp 0 ;;; c_cap_resize_by reserve.

(** ** All the buffers *)

Record world : Type := mkWorld { wmem : memory; wnxt : nat; wbuf : nat -> option obuf }.
Definition set_buf (f : nat -> option obuf) (i : nat) (x : option obuf) : nat -> option obuf :=
  fun j => if j =? i then x else f j.

(** A function of buffer [i] *)
Definition on (i : nat) {R} (m : M loc R) : M world R := fun w =>
  match wbuf w i with
  | None => UB
  | Some b =>
      let after s := mkWorld (lmem s) (lnxt s) (set_buf (wbuf w) i (Some (lbuf s))) in
      match m (mkLoc (wmem w) (wnxt w) b) with
      | Ok r s => Ok r (after s)
      | Throw e s => Throw e (after s)
      | UB => UB
      | Diverge => Diverge
      end
  end.
(** The name [i] gets an object, whose members are yet to be initialized. *)
Definition raw (i : nat) : M world unit := fun w =>
  match wbuf w i with
  | Some _ => UB
  | None => Ok tt (mkWorld (wmem w) (wnxt w) (set_buf (wbuf w) i (Some (mkBuf None 0 CNull CNull))))
  end.
Definition drop (i : nat) : M world unit := fun w =>
  Ok tt (mkWorld (wmem w) (wnxt w) (set_buf (wbuf w) i None)).
(** The pointers of the base class are copied: [j] from [i]. *)
Definition copy_base (j i : nat) : M world unit := fun w =>
  match wbuf w i, wbuf w j with
  | Some a, Some b =>
      Ok tt (mkWorld (wmem w) (wnxt w) (set_buf (wbuf w) j (Some (mkBuf (bbase b) (bcap b) (bp a) (be a)))))
  | _, _ => UB
  end.
(** The container of [j] takes the memory of that of [i], which is as a new one after that. *)
Definition take_over (j i : nat) : M world unit := fun w =>
  match wbuf w i, wbuf w j with
  | Some a, Some b =>
      on i c_default
        (mkWorld (wmem w) (wnxt w)
          (set_buf (set_buf (wbuf w) j (Some (mkBuf (bbase a) (bcap a) (bp b) (be b))))
                   i (Some (mkBuf None 0 (bp a) (be a)))))
  | _, _ => UB
  end.
(** What is in the container of [i] *)
Definition data_of (i : nat) : M world (list C) := fun w =>
  match wbuf w i with
  | None => UB
  | Some b => match c_data (mkLoc (wmem w) (wnxt w) b) with Ok l _ => Ok l w | _ => UB end
  end.
Definition cap_of (i : nat) : M world nat := fun w =>
  match wbuf w i with Some b => Ok (bcap b) w | None => UB end.
(** A container of the same capacity as that of [i] with the same elements, in memory of its own *)
Definition own_memory (cap : nat) (l : list C) : M loc unit := fun s =>
  if null_data P && (cap =? 0)
  then Ok tt (mkLoc (lmem s) (lnxt s) (mkBuf None cap (bp (lbuf s)) (be (lbuf s))))
  else Ok tt (mkLoc (set_block (lmem s) (lnxt s) (Some l)) (S (lnxt s))
               (mkBuf (Some (lnxt s)) cap (bp (lbuf s)) (be (lbuf s)))).
(** What a container which was moved from without handing its memory over is like *)
Definition emptied : M loc unit := fun s =>
  match bbase (lbuf s) with
  | None => Ok tt s
  | Some a => Ok tt (mkLoc (set_block (lmem s) a (Some [])) (lnxt s) (lbuf s))
  end.

Inductive wop : Type :=
| WNew (i reserve : nat)          (* mem_ostreambuf i(reserve) *)
| WCall (i : nat) (o : oop C)
| WCopy (j i : nat)               (* mem_ostreambuf j(i) *)
| WMove (j i : nat)               (* mem_ostreambuf j(std::move(i)) *)
| WCopyAssign (j i : nat)         (* j = i *)
| WMoveAssign (j i : nat)         (* j = std::move(i) *)
| WDestroy (i : nat).

Definition w_new (i reserve : nat) : M world unit :=
  raw i ;;;
  fun w =>
    match on i (c_construct reserve) w with
    | Throw e w' => (on i c_free ;;; drop i ;;; throw e) w'
    | r => r
    end.
(** The implicit copy constructor: base class, then m_data *)
Definition w_copy (j i : nat) : M world unit :=
  raw j ;;; copy_base j i ;;;
  let* l := data_of i in
  on j (c_default ;;; c_become l).
(** The implicit move constructor *)
Definition w_move (j i : nat) : M world unit :=
  raw j ;;; copy_base j i ;;;
  let* cap := cap_of i in
  if keeps cap then take_over j i
  else
    let* l := data_of i in
    on j (own_memory cap l) ;;; on i emptied.
(** The implicit copy assignment; assigning a container to itself does nothing *)
Definition w_copy_assign (j i : nat) : M world unit :=
  copy_base j i ;;;
  if j =? i then ret tt
  else
    let* l := data_of i in
    on j (c_become l).
(** The implicit move assignment *)
Definition w_move_assign (j i : nat) : M world unit :=
  copy_base j i ;;;
  let* cap := cap_of i in
  if keeps cap then on j c_free ;;; take_over j i
  else
    let* l := data_of i in
    on j (c_become l) ;;; on i emptied.
Definition w_destroy (i : nat) : M world unit := on i c_free ;;; drop i.

Definition w_call (o : wop) : M world (oans C) :=
  match o with
  | WNew i reserve => w_new i reserve ;;; ret OaNone
  | WCall i o => on i (c_call o)
  | WCopy j i => w_copy j i ;;; ret OaNone
  | WMove j i => w_move j i ;;; ret OaNone
  | WCopyAssign j i => w_copy_assign j i ;;; ret OaNone
  | WMoveAssign j i => w_move_assign j i ;;; ret OaNone
  | WDestroy i => w_destroy i ;;; ret OaNone
  end.
Fixpoint w_run (w : world) (os : list wop) : option (world * list (oans C)) :=
  match os with
  | [] => Some (w, [])
  | o :: os' =>
      let continue w' a :=
        match w_run w' os' with Some (w'', rs) => Some (w'', a :: rs) | None => None end in
      match w_call o w with
      | Ok a w' => continue w' a
      | Throw e w' => continue w' (OaThrow e)
      | _ => None
      end
  end.
Definition no_buffers : world := mkWorld (fun _ => None) 0 (fun _ => None).
End Copies.

Arguments memory : clear implicits.
Arguments loc : clear implicits.
Arguments world : clear implicits.
Arguments wop : clear implicits.
