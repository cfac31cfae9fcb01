(** Model of /repo/include/itlib/atomic_shared_ptr_storage.hpp as AspsModel.v, but with the
    flag of asps_spinlock as an atomic object of the C++ memory model (WmModel.v) and its
    operations with the memory orders which the code gives, and with m_ptr as plain memory:
    an access to it which is not ordered by happens-before with an earlier conflicting one is
    a data race (undefined behaviour), whoever has set the flag.

    As in AspsModel.v the use counts of std::shared_ptr change atomically, and a thread's own
    std::shared_ptrs are used by it alone (handing one over is up to the program, which has to
    synchronize for it). *)
From Coq Require Import List Arith Bool.
From Verif Require Import Base ConcModel WmModel AspsModel.
Import ListNotations.

Record wst := Wst {
  wflag : loc bool;               (* m_spinlock.flag *)
  wclk : nat -> clock;            (* what happens before *)
  wlog : list access;             (* the accesses to m_ptr *)
  wobjs : list (option sp);       (* the rest as in AspsModel.ast *)
  wown : nat -> nat;
  wcnt : nat -> nat;
  wncb : nat;
  wgone : list (nat * nat)        (* destroyed managed objects: which, by whom *)
}.
Definition with_lock (s : wst) (L : loc bool) (c : nat -> clock) : wst :=
  Wst L c (wlog s) (wobjs s) (wown s) (wcnt s) (wncb s) (wgone s).
Definition with_wobjs (s : wst) (o : list (option sp)) : wst :=
  Wst (wflag s) (wclk s) (wlog s) o (wown s) (wcnt s) (wncb s) (wgone s).
Definition with_wcnt (s : wst) (k : nat -> nat) : wst :=
  Wst (wflag s) (wclk s) (wlog s) (wobjs s) (wown s) k (wncb s) (wgone s).
Definition wpush (s : wst) (t : nat) (p : sp) : wst :=
  Wst (wflag s) (wclk s) (wlog s) (wobjs s ++ [Some p]) (setm (wown s) (length (wobjs s)) t)
      (wcnt s) (wncb s) (wgone s).

(** An access to the members of object [l]; none if that is a data race. *)
Definition touch (t l : nat) (w : bool) (s : wst) : option wst :=
  if l =? 0 then
    if forallb (ordered t w (wclk s t)) (wlog s) then
      let n := S (wclk s t t) in
      Some (Wst (wflag s) (setm (wclk s) t (setm (wclk s t) t n)) (wlog s ++ [Acc t n w])
                (wobjs s) (wown s) (wcnt s) (wncb s) (wgone s))
    else None
  else if wown s l =? t then Some s else None.
Definition wobj (s : wst) (l : nat) : option sp :=
  match nth_error (wobjs s) l with Some (Some p) => Some p | _ => None end.

(** * std::shared_ptr, as in AspsModel *)

Definition wsp_get (t l : nat) : wcode wst sp :=
  WAct (fun _ s => match touch t l false s with
                   | Some s' => match wobj s' l with Some p => WNext s' (WRet p) | None => WBad end
                   | None => WBad
                   end).
Definition wsp_add (t : nat) (p : sp) : wcode wst nat :=
  WAct (fun _ s => match cb p with
                   | None => WNext (wpush s t p) (WRet (length (wobjs s)))
                   | Some b => if wcnt s b =? 0 then WBad
                               else WNext (wpush (with_wcnt s (setm (wcnt s) b (S (wcnt s b)))) t p)
                                          (WRet (length (wobjs s)))
                   end).
Definition wsp_copy (t l : nat) : wcode wst nat :=
  (do* p := wsp_get t l in wsp_add t p)%w.
Definition wsp_move (t l : nat) : wcode wst nat :=
  WAct (fun _ s => match touch t l true s with
                   | Some s' =>
                       match wobj s' l with
                       | Some p => WNext (wpush (with_wobjs s' (upd (wobjs s') l (Some sp_empty))) t p)
                                         (WRet (length (wobjs s')))
                       | None => WBad
                       end
                   | None => WBad
                   end).
Definition wsp_swap (t k l : nat) : wcode wst unit :=
  WAct (fun _ s =>
    match touch t k true s with
    | Some s1 =>
        match touch t l true s1 with
        | Some s2 =>
            match wobj s2 k, wobj s2 l with
            | Some p, Some q =>
                WNext (with_wobjs s2 (upd (upd (wobjs s2) k (Some q)) l (Some p))) (WRet tt)
            | _, _ => WBad
            end
        | None => WBad
        end
    | None => WBad
    end).
Definition wsp_release (t l : nat) : wcode wst (option nat) :=
  WAct (fun _ s =>
    match touch t l true s with
    | Some s1 =>
        match wobj s1 l with
        | Some p =>
            let s' := with_wobjs s1 (upd (wobjs s1) l None) in
            match cb p with
            | None => WNext s' (WRet None)
            | Some b => if wcnt s1 b =? 0 then WBad
                        else WNext (with_wcnt s' (setm (wcnt s1) b (wcnt s1 b - 1)))
                                   (WRet (if wcnt s1 b =? 1 then Some b else None))
            end
        | None => WBad
        end
    | None => WBad
    end).
Definition wdispose (t b : nat) : wcode wst unit :=
  WAct (fun _ s => if existsb (fun e => fst e =? b) (wgone s) then WBad
                   else WNext (Wst (wflag s) (wclk s) (wlog s) (wobjs s) (wown s) (wcnt s) (wncb s)
                                   (wgone s ++ [(b, t)]))
                              (WRet tt)).

(** * The storage *)

(** atomic_shared_ptr_storage.hpp 70-72: asps_spinlock::lock.  The number chosen says which
    message the test_and_set reads; if it reads that the flag is set the loop goes on. *)
Definition wl_lock (t : nat) : wcode wst unit :=
  WAct (fun n s =>
    match rmw Acquire (fun _ => true) t n (wflag s) (wclk s) with
    | Some (v, L, c) => if (v : bool) then WStay (with_lock s L c) else WNext (with_lock s L c) (WRet tt)
    | None => WStay s
    end).
(** atomic_shared_ptr_storage.hpp 73-75: asps_spinlock::unlock.  The number chosen says which
    place in the modification order the store takes. *)
Definition wl_unlock (t : nat) : wcode wst unit :=
  WAct (fun n s =>
    match wstore Release false t n (wflag s) (wclk s) with
    | Some L => WNext (with_lock s L (wclk s)) (WRet tt)
    | None => WStay s
    end).

Open Scope w_scope.

(** atomic_shared_ptr_storage.hpp 99-102, 152: load *)
Definition wload (t : nat) : wcode wst nat :=
  wl_lock t ;;;
  do* r := wsp_copy t 0 in
  wl_unlock t ;;; WRet r.

Section Destroy.
Variable uses : nat -> bool.

Fixpoint wdestroy (n t l : nat) : wcode wst unit :=
  do* o := wsp_release t l in
  match o with
  | None => WRet tt
  | Some b =>
      wdispose t b ;;;
      if uses b then
        match n with
        | 0 => WRet tt
        | S n' => do* r := wload t in wdestroy n' t r
        end
      else WRet tt
  end.

Variable n : nat.

Definition wsp_assign (t d l : nat) : wcode wst unit :=
  do* x := wsp_copy t l in
  wsp_swap t x d ;;;
  wdestroy n t x.

(** 104-107: asps_holder::store *)
Definition wholder_store (t q : nat) : wcode wst unit :=
  wl_lock t ;;;
  wsp_swap t 0 q ;;;
  wl_unlock t ;;;
  wdestroy n t q.
(** 109-119: asps_holder::exchange *)
Definition wholder_exchange (t q : nat) : wcode wst nat :=
  wl_lock t ;;;
  wsp_swap t 0 q ;;;
  wl_unlock t ;;;
  do* r := wsp_move t q in
  wdestroy n t q ;;; WRet r.
(** 122-132: asps_holder::compare_exchange_strong *)
Definition wholder_cas (t e q : nat) : wcode wst bool :=
  wl_lock t ;;;
  do* a := wsp_get t 0 in
  do* b := wsp_get t e in
  if px a =? px b then
    wsp_swap t 0 q ;;;
    wl_unlock t ;;;
    wdestroy n t q ;;; WRet true
  else
    wsp_assign t e 0 ;;;
    wl_unlock t ;;;
    wdestroy n t q ;;; WRet false.

(** 153: store *)
Definition wsto (t p : nat) : wcode wst unit :=
  do* q := wsp_move t p in wholder_store t q ;;; wdestroy n t p.
(** 155: exchange *)
Definition wexchange (t p : nat) : wcode wst nat :=
  do* q := wsp_move t p in
  do* r := wholder_exchange t q in
  wdestroy n t p ;;; WRet r.
(** 157-159: compare_exchange *)
Definition wcompare_exchange (t e p : nat) : wcode wst bool :=
  do* q := wsp_move t p in
  do* b := wholder_cas t e q in
  wdestroy n t p ;;; WRet b.

(** * What the threads do: the calls of AspsModel *)

Definition wmake (t x : nat) : wcode wst rs :=
  WAct (fun _ s => WNext (wpush (Wst (wflag s) (wclk s) (wlog s) (wobjs s) (wown s)
                                     (setm (wcnt s) (wncb s) 1) (S (wncb s)) (wgone s))
                                t (Sp x (Some (wncb s))))
                         (WRet (RLoc (length (wobjs s))))).
Definition wbare (t x : nat) : wcode wst rs :=
  do* l := wsp_add t (Sp x None) in WRet (RLoc l).
Definition walias (t l x : nat) : wcode wst rs :=
  do* p := wsp_get t l in do* r := wsp_add t (Sp x (cb p)) in WRet (RLoc r).
Definition wgive (t l u : nat) : wcode wst rs :=
  WAct (fun _ s => match touch t l true s with
                   | Some s' =>
                       WNext (Wst (wflag s') (wclk s') (wlog s') (wobjs s') (setm (wown s') l u)
                                  (wcnt s') (wncb s') (wgone s')) (WRet RUnit)
                   | None => WBad
                   end).

Definition wimpl (t : nat) (c : call) : wcode wst rs :=
  match c with
  | CLoad => do* r := wload t in WRet (RLoc r)
  | CStore p => wsto t p ;;; WRet RUnit
  | CExchange p => do* r := wexchange t p in WRet (RLoc r)
  | CCas e p => do* b := wcompare_exchange t e p in WRet (RBool b e)
  | CMake x => wmake t x
  | CBare x => wbare t x
  | CAlias l x => walias t l x
  | CDrop l => wdestroy n t l ;;; WRet RUnit
  | CGive l u => wgive t l u
  end.
End Destroy.

Definition wcview (s : wst) (c : call) : vcall :=
  match c with
  | CLoad => VLoad
  | CStore p => VStore (wobj s p)
  | CExchange p => VExchange (wobj s p)
  | CCas e p => VCas (wobj s e) (wobj s p)
  | _ => VOther
  end.
Definition wrview (s : wst) (r : rs) : vres :=
  match r with
  | RLoc l => VVal (wobj s l)
  | RUnit => VUnit
  | RBool b e => VBool b (wobj s e)
  end.

(** 91-98, 146-147; its construction happens before all calls. *)
Definition wst0 : wst := Wst (loc0 false) (fun _ => czero) [] [Some sp_empty] (fun _ => 0) (fun _ => 0) 0 [].
