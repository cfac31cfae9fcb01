(** Atomic objects with acquire, release and relaxed operations, as the C++ memory model has
    them, and threads which use them.  Nothing in this file models code of /repo.

    The machine does one operation of one thread at a time, in an order in which everything
    comes after what it reads from and after what comes before it in its thread.  An atomic
    object is its modification order: a list of messages, earliest first.  What a thread reads
    is not bound to be the latest message, and what it writes is not bound to become the last:
    an operation may take any place which is not before a message the thread has read or
    written already.  A read-modify-write operation takes the place right behind the message
    it reads, and nothing may get between the two later.  (The standard forbids more; fewer
    restrictions mean more executions.)

    Happens-before is kept by clocks: [clk t u] is how many of the events of thread [u] are
    known to happen before what thread [t] does next.  A message carries the clock which a
    thread that acquires it gets: that of the release store that heads its release sequence
    (a release store and the read-modify-write operations that follow it). *)
From Coq Require Import List Arith Bool.
From Verif Require Import Base ConcModel.
Import ListNotations.

Definition clock : Type := nat -> nat.
Definition czero : clock := fun _ => 0.
Definition cjoin (a b : clock) : clock := fun u => Nat.max (a u) (b u).

Record msg (V : Type) := Msg {
  mid : nat;          (* which message this is *)
  mval : V;
  mrmw : bool;        (* written by a read-modify-write operation *)
  mclk : clock        (* what is acquired with it *)
}.
Arguments Msg {V} mid mval mrmw mclk.
Arguments mid {V} m.
Arguments mval {V} m.
Arguments mrmw {V} m.
Arguments mclk {V} m.

Record loc (V : Type) := Loc {
  mo : list (msg V);      (* the modification order *)
  fresh : nat;            (* the next message's [mid] *)
  seen : nat -> nat       (* per thread, the last message it has read or written *)
}.
Arguments Loc {V} mo fresh seen.
Arguments mo {V} l.
Arguments fresh {V} l.
Arguments seen {V} l.

(** An atomic object just initialized; its initialization happens before everything else. *)
Definition loc0 {V} (v : V) : loc V := Loc [Msg 0 v false czero] 1 (fun _ => 0).

Fixpoint index_of {V} (i : nat) (l : list (msg V)) : nat :=
  match l with
  | [] => 0
  | m :: l' => if mid m =? i then 0 else S (index_of i l')
  end.

(** May thread [t] put a message right behind the [n]th? *)
Definition place {V} (t n : nat) (L : loc V) : bool :=
  (index_of (seen L t) (mo L) <=? n) &&
  match nth_error (mo L) (S n) with
  | Some m => negb (mrmw m)
  | None => true
  end.
Definition ins {V} (n : nat) (m : msg V) (l : list (msg V)) : list (msg V) :=
  firstn (S n) l ++ m :: skipn (S n) l.

(** std::memory_order, as far as it is used. *)
Inductive order := Relaxed | Acquire | Release.
Definition acquires (o : order) : bool := match o with Acquire => true | _ => false end.
Definition releases (o : order) : bool := match o with Release => true | _ => false end.

(** A read-modify-write operation of thread [t] which reads the [n]th message; none if it
    cannot.  Answers the value read. *)
Definition rmw {V} (o : order) (f : V -> V) (t n : nat) (L : loc V) (clk : nat -> clock)
  : option (V * loc V * (nat -> clock)) :=
  match nth_error (mo L) n with
  | Some m =>
      if place t n L then
        let c := if acquires o then cjoin (clk t) (mclk m) else clk t in
        let m' := Msg (fresh L) (f (mval m)) true
                      (if releases o then cjoin (mclk m) c else mclk m) in
        Some (mval m, Loc (ins n m' (mo L)) (S (fresh L)) (setm (seen L) t (fresh L)),
              setm clk t c)
      else None
  | None => None
  end.

(** A load of thread [t] which reads the [n]th message; none if the thread has read or written a
    later one. *)
Definition wread {V} (o : order) (t n : nat) (L : loc V) (clk : nat -> clock)
  : option (V * loc V * (nat -> clock)) :=
  match nth_error (mo L) n with
  | Some m =>
      if index_of (seen L t) (mo L) <=? n then
        Some (mval m, Loc (mo L) (fresh L) (setm (seen L) t (mid m)),
              setm clk t (if acquires o then cjoin (clk t) (mclk m) else clk t))
      else None
  | None => None
  end.

(** Thread [t] synchronizes with thread [u] (by a mutex, by joining it, ...): what [u] has read
    or written happens before what [t] does next. *)
Definition learn {V} (t u : nat) (L : loc V) : loc V :=
  if index_of (seen L t) (mo L) <=? index_of (seen L u) (mo L)
  then Loc (mo L) (fresh L) (setm (seen L) t (seen L u)) else L.

(** A store behind the [n]th message. *)
Definition wstore {V} (o : order) (v : V) (t n : nat) (L : loc V) (clk : nat -> clock)
  : option (loc V) :=
  match nth_error (mo L) n with
  | Some _ =>
      if place t n L then
        let m' := Msg (fresh L) v false (if releases o then clk t else czero) in
        Some (Loc (ins n m' (mo L)) (S (fresh L)) (setm (seen L) t (fresh L)))
      else None
  | None => None
  end.

(** * Plain memory *)

(** An access to a plain object: by whom, when (by the thread's own count), and whether it
    writes. *)
Record access := Acc { athr : nat; atime : nat; awrite : bool }.

(** An access of thread [t] now does not race with [a]: both read, or [a] happens before. *)
Definition ordered (t : nat) (w : bool) (c : clock) (a : access) : bool :=
  (negb w && negb (awrite a)) || (atime a <=? c (athr a)).

(** * Threads *)

(** As ConcModel's code, but an attempt which fails may leave traces. *)
Inductive wout (S C : Type) : Type :=
| WNext (s : S) (c : C)
| WStay (s : S)     (* to be tried again *)
| WBad.
Arguments WNext {S C} s c.
Arguments WStay {S C} s.
Arguments WBad {S C}.

Inductive wcode (S R : Type) : Type :=
| WRet (r : R)
| WAct (a : nat -> S -> wout S (wcode S R)).
Arguments WRet {S R} r.
Arguments WAct {S R} a.

Fixpoint wbind {S A B} (c : wcode S A) (f : A -> wcode S B) : wcode S B :=
  match c with
  | WRet r => f r
  | WAct a => WAct (fun n s => match a n s with
                               | WNext s' c' => WNext s' (wbind c' f)
                               | WStay s' => WStay s'
                               | WBad => WBad
                               end)
  end.

Declare Scope w_scope.
Delimit Scope w_scope with w.
Notation "'do*' x := e 'in' f" := (wbind e (fun x => f))
  (at level 200, x binder, e at level 100, f at level 200) : w_scope.
Notation "e ;;; f" := (wbind e (fun _ => f))
  (at level 199, right associativity) : w_scope.

Section Machine.
Context {Sh Call Rs VC VR : Type}.
Variable impl : nat -> Call -> wcode Sh Rs.
Variable cview : Sh -> Call -> VC.
Variable rview : Sh -> Rs -> VR.
Variable allowed : list (event VC VR) -> Sh -> nat -> Call -> Prop.

Record wcfg := WCfg {
  wsh : Sh;
  wth : nat -> option (wcode Sh Rs);
  whist : list (event VC VR)
}.

Inductive wstep : wcfg -> wcfg -> Prop :=
| w_inv s T h t c :
    T t = None -> allowed h s t c ->
    wstep (WCfg s T h) (WCfg s (setm T t (Some (impl t c))) (h ++ [EInv t (cview s c)]))
| w_act s T h t a n s' k :
    T t = Some (WAct a) -> a n s = WNext s' k ->
    wstep (WCfg s T h) (WCfg s' (setm T t (Some k)) h)
| w_stay s T h t a n s' :
    T t = Some (WAct a) -> a n s = WStay s' ->
    wstep (WCfg s T h) (WCfg s' T h)
| w_ret s T h t r :
    T t = Some (WRet r) ->
    wstep (WCfg s T h) (WCfg s (setm T t None) (h ++ [ERes t (rview s r)])).

Inductive wreach (c0 : wcfg) : wcfg -> Prop :=
| wr_refl : wreach c0 c0
| wr_step c c' : wreach c0 c -> wstep c c' -> wreach c0 c'.

Definition wbad (c : wcfg) : Prop :=
  exists t a n, wth c t = Some (WAct a) /\ a n (wsh c) = WBad.

Definition wstart (s : Sh) : wcfg := WCfg s (fun _ => None) [].
Definition wquiet (c : wcfg) : Prop := forall t, wth c t = None.
End Machine.
Arguments wcfg : clear implicits.
