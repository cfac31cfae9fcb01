(** Model of include/itlib/shared_from.hpp and include/itlib/make_ptr.hpp, on top of
    std::shared_ptr, std::weak_ptr and std::enable_shared_from_this as libstdc++ implements
    them: a control block with a count of the owners and a count of the observers (plus one
    while there are owners), the object destroyed when the first one drops to zero, the block
    freed when the second one does.

    Objects, control blocks, shared, weak and unique pointers are numbered. Using one which does
    not exist is undefined behaviour, and so is destroying an object twice. An object in a
    unique pointer stands for any object which no shared pointer owns, one on the stack too.

    Simplified: constructors and allocations do not throw; objects hold no shared pointers of
    their own, besides the weak_this of enable_shared_from; one thread. *)
From Coq Require Import List Arith Bool.
From Verif Require Import Base.
Import ListNotations.

Section Shared.
Context {V : Type}.
Variable cxx17 : bool.                        (* __cplusplus >= 201700 *)

(** An address: an object and an offset in it. *)
Definition addr : Type := nat * nat.

(** [base]: where in the object the base class enable_shared_from is, if it has one;
    [weak_this] is a member of it. *)
Record obj : Type := mkObj { val : V; base : option nat; weak_this : option nat }.
Record cb : Type := mkCb { strong : nat; weak : nat; managed : nat }.
(** A shared or weak pointer: its control block and what it points to. *)
Record sp : Type := mkSp { block : option nat; ptr : option addr }.
Definition empty : sp := mkSp None None.

Record store : Type := mkStore {
  objs : nat -> option obj;
  fresh_o : nat;
  cbs : nat -> option cb;
  fresh_c : nat;
  shared : nat -> option sp;
  weaks : nat -> option sp;
  uniq : nat -> option (option nat);
  destroyed : list nat
}.
Definition set_objs (s : store) m := mkStore m (fresh_o s) (cbs s) (fresh_c s) (shared s) (weaks s) (uniq s) (destroyed s).
Definition set_cbs (s : store) m := mkStore (objs s) (fresh_o s) m (fresh_c s) (shared s) (weaks s) (uniq s) (destroyed s).
Definition set_shared (s : store) m := mkStore (objs s) (fresh_o s) (cbs s) (fresh_c s) m (weaks s) (uniq s) (destroyed s).
Definition set_weaks (s : store) m := mkStore (objs s) (fresh_o s) (cbs s) (fresh_c s) (shared s) m (uniq s) (destroyed s).
Definition set_uniq (s : store) m := mkStore (objs s) (fresh_o s) (cbs s) (fresh_c s) (shared s) (weaks s) m (destroyed s).

(** * The standard library *)
Definition get_cb (c : nat) : M store cb :=
  fun s => match cbs s c with Some b => Ok b s | None => UB end.
Definition put_cb (c : nat) (b : option cb) : M store unit :=
  fun s => Ok tt (set_cbs s (setm (cbs s) c b)).
Definition get_obj (o : nat) : M store obj :=
  fun s => match objs s o with Some x => Ok x s | None => UB end.
Definition get_sp (x : nat) : M store sp :=
  fun s => match shared s x with Some p => Ok p s | None => UB end.
Definition get_wp (w : nat) : M store sp :=
  fun s => match weaks s w with Some p => Ok p s | None => UB end.
(** A new pointer comes to life where there is none. *)
Definition new_sp (x : nat) (p : sp) : M store unit :=
  fun s => match shared s x with
           | Some _ => UB
           | None => Ok tt (set_shared s (setm (shared s) x (Some p)))
           end.
Definition new_wp (w : nat) (p : sp) : M store unit :=
  fun s => match weaks s w with
           | Some _ => UB
           | None => Ok tt (set_weaks s (setm (weaks s) w (Some p)))
           end.
Definition set_sp (x : nat) (p : option sp) : M store unit :=
  fun s => Ok tt (set_shared s (setm (shared s) x p)).
Definition set_wp (w : nat) (p : option sp) : M store unit :=
  fun s => Ok tt (set_weaks s (setm (weaks s) w p)).

(** _M_add_ref_copy, _M_weak_add_ref, _M_weak_release *)
Definition add_ref (c : option nat) : M store unit :=
  match c with
  | None => ret tt
  | Some c => let* b := get_cb c in put_cb c (Some (mkCb (S (strong b)) (weak b) (managed b)))
  end.
Definition weak_add_ref (c : option nat) : M store unit :=
  match c with
  | None => ret tt
  | Some c => let* b := get_cb c in put_cb c (Some (mkCb (strong b) (S (weak b)) (managed b)))
  end.
Definition weak_release (c : option nat) : M store unit :=
  match c with
  | None => ret tt
  | Some c =>
      let* b := get_cb c in
      match weak b with
      | 0 => ub
      | 1 => put_cb c None
      | S n => put_cb c (Some (mkCb (strong b) n (managed b)))
      end
  end.
(** The destructor of an object, with that of its weak_this. *)
Definition destroy_obj (o : nat) : M store unit :=
  let* x := get_obj o in
  weak_release (weak_this x) ;;;
  fun s => Ok tt (mkStore (setm (objs s) o None) (fresh_o s) (cbs s) (fresh_c s)
                          (shared s) (weaks s) (uniq s) (o :: destroyed s)).
(** _M_release *)
Definition release (c : option nat) : M store unit :=
  match c with
  | None => ret tt
  | Some c =>
      let* b := get_cb c in
      match strong b with
      | 0 => ub
      | 1 => put_cb c (Some (mkCb 0 (weak b) (managed b))) ;;;
             destroy_obj (managed b) ;;;
             weak_release (Some c)
      | S n => put_cb c (Some (mkCb n (weak b) (managed b)))
      end
  end.
Definition use_count (p : sp) : M store nat :=
  match block p with
  | None => ret 0
  | Some c => let* b := get_cb c in ret (strong b)
  end.

Definition new_obj (v : V) (e : option nat) : M store nat :=
  fun s => Ok (fresh_o s)
    (mkStore (setm (objs s) (fresh_o s) (Some (mkObj v e None))) (S (fresh_o s)) (cbs s) (fresh_c s)
             (shared s) (weaks s) (uniq s) (destroyed s)).
(** A control block for the object [o], with the one owner being constructed; then
    _M_enable_shared_from_this_with, which sets a weak_this which is empty or expired. *)
Definition new_cb (o : nat) : M store nat :=
  let* c := (fun s => Ok (fresh_c s)
    (mkStore (objs s) (fresh_o s) (setm (cbs s) (fresh_c s) (Some (mkCb 1 1 o))) (S (fresh_c s))
             (shared s) (weaks s) (uniq s) (destroyed s))) in
  let* x := get_obj o in
  match base x with
  | None => ret c
  | Some _ =>
      let* n := use_count (mkSp (weak_this x) None) in
      if n =? 0
      then weak_add_ref (Some c) ;;;
           weak_release (weak_this x) ;;;
           let* x := get_obj o in
           (fun s => Ok tt (set_objs s (setm (objs s) o (Some (mkObj (val x) (base x) (Some c)))))) ;;;
           ret c
      else ret c
  end.

(** shared_ptr(weak_ptr): throws if there is no owner. *)
Definition from_weak (p : sp) : M store sp :=
  let* n := use_count p in
  if n =? 0 then throw BadWeakPtr
  else add_ref (block p) ;;; ret p.

(** * shared_from.hpp; [o] is the object whose member function is called *)
(** 78-79: the pointer kept in weak_this points to the base class *)
Definition shared_from_this (o : nat) : M store sp :=
  let* x := get_obj o in
  match base x with
  | None => ub
  | Some d => from_weak (mkSp (weak_this x) (Some (o, d)))
  end.
(** 81-97 *)
Definition weak_from_this (o : nat) : M store sp :=
  if cxx17
  then let* x := get_obj o in
       match base x with
       | None => ub
       | Some d => weak_add_ref (weak_this x) ;;;
                   ret (match weak_this x with
                        | None => empty
                        | Some c => mkSp (Some c) (Some (o, d))
                        end)
       end
  else let* t := shared_from_this o in
       weak_add_ref (block t) ;;;
       release (block t) ;;;
       ret t.
(** 99-102 *)
Definition shared_from (o : nat) (p : option addr) : M store sp :=
  let* t := shared_from_this o in
  add_ref (block t) ;;;
  release (block t) ;;;
  ret (mkSp (block t) p).
(** 104-108 *)
Definition weak_from (o : nat) (p : option addr) : M store sp :=
  let* t := shared_from o p in
  weak_add_ref (block t) ;;;
  release (block t) ;;;
  ret (mkSp (block t) p).

(** * make_ptr.hpp *)
(** 81-85; the new object is a copy of the argument, or takes its value *)
Definition make_shared (v : V) (e : option nat) : M store sp :=
  let* o := new_obj v e in
  let* c := new_cb o in
  ret (mkSp (Some c) (Some (o, 0))).
(** 87-92 *)
Definition make_unique (v : V) (e : option nat) : M store nat := new_obj v e.
(** 94-98 *)
Definition make_aliased (owner : sp) (p : option addr) : M store sp :=
  let* n := use_count owner in
  if n =? 0 then ret empty
  else add_ref (block owner) ;;; ret (mkSp (block owner) p).

(** * Histories *)
Inductive op : Type :=
| Default (x : nat)                               (* shared_ptr x; *)
| MakeShared (x : nat) (v : V) (e : option nat)   (* auto x = itlib::make_shared(v); *)
| MakeUnique (u : nat) (v : V) (e : option nat)   (* auto u = itlib::make_unique(v); *)
| DropUnique (u : nat)
| Adopt (x u : nat)                               (* shared_ptr x(std::move(u)); *)
| Copy (x y : nat)                                (* shared_ptr x(y); *)
| Steal (x y : nat)                               (* shared_ptr x(std::move(y)); *)
| Assign (x y : nat)                              (* x = y; *)
| Reset (x : nat)
| Drop (x : nat)                                  (* x.~shared_ptr(); *)
| StdAlias (x y : nat) (p : option addr)          (* shared_ptr x(y, p); *)
| MakeAliased (x y : nat) (p : option addr)       (* auto x = itlib::make_aliased(y, p); *)
| WeakOf (w x : nat)                              (* weak_ptr w(x); *)
| WeakDrop (w : nat)
| Lock (x w : nat)                                (* auto x = w.lock(); *)
| SharedFromThis (x o : nat)                      (* auto x = o.shared_from_this(); ... *)
| SharedFrom (x o : nat) (p : option addr)
| WeakFromThis (w o : nat)
| WeakFrom (w o : nat) (p : option addr)
| Get (x : nat)
| WeakGet (w : nat)                               (* what w points to, were it locked *)
| UseCount (x : nat)
| Expired (w : nat)
| Value (o : nat).                                (* reads the object *)

Inductive out : Type :=
| Nothing
| Object (o : nat)
| Address (p : option addr)
| Number (n : nat)
| Bool (b : bool)
| Val (v : V)
| Thrown.                                         (* bad_weak_ptr *)

Definition caught (m : M store unit) : M store out :=
  fun s => match m s with
           | Ok _ s' => Ok Nothing s'
           | Throw BadWeakPtr s' => Ok Thrown s'
           | Throw e s' => Throw e s'
           | UB => UB
           | Diverge => Diverge
           end.

Definition call (o : op) : M store out :=
  match o with
  | Default x => new_sp x empty ;;; ret Nothing
  | MakeShared x v e =>
      let* p := make_shared v e in
      new_sp x p ;;;
      ret (match ptr p with Some (o, _) => Object o | None => Nothing end)
  | MakeUnique u v e =>
      fun s => match uniq s u with
               | Some _ => UB
               | None => (let* o := make_unique v e in
                          (fun s => Ok tt (set_uniq s (setm (uniq s) u (Some (Some o))))) ;;;
                          ret (Object o)) s
               end
  | DropUnique u =>
      fun s => match uniq s u with
               | None => UB
               | Some h => ((fun s => Ok tt (set_uniq s (setm (uniq s) u None))) ;;;
                            (match h with None => ret tt | Some o => destroy_obj o end) ;;;
                            ret Nothing) s
               end
  | Adopt x u =>
      fun s => match uniq s u with
               | None => UB
               | Some None => (new_sp x empty ;;; ret Nothing) s
               | Some (Some o) =>
                   ((fun s => Ok tt (set_uniq s (setm (uniq s) u (Some None)))) ;;;
                    let* c := new_cb o in
                    new_sp x (mkSp (Some c) (Some (o, 0))) ;;;
                    ret Nothing) s
               end
  | Copy x y => let* p := get_sp y in add_ref (block p) ;;; new_sp x p ;;; ret Nothing
  | Steal x y =>
      let* p := get_sp y in
      set_sp y (Some empty) ;;;
      new_sp x p ;;; ret Nothing
  | Assign x y =>
      let* p := get_sp y in
      add_ref (block p) ;;;
      let* old := get_sp x in
      set_sp x (Some p) ;;;
      release (block old) ;;; ret Nothing
  | Reset x =>
      let* old := get_sp x in
      set_sp x (Some empty) ;;;
      release (block old) ;;; ret Nothing
  | Drop x =>
      let* old := get_sp x in
      set_sp x None ;;;
      release (block old) ;;; ret Nothing
  | StdAlias x y p =>
      let* q := get_sp y in
      add_ref (block q) ;;;
      new_sp x (mkSp (block q) p) ;;; ret Nothing
  | MakeAliased x y p =>
      let* q := get_sp y in
      let* r := make_aliased q p in
      new_sp x r ;;; ret Nothing
  | WeakOf w x => let* p := get_sp x in weak_add_ref (block p) ;;; new_wp w p ;;; ret Nothing
  | WeakDrop w =>
      let* old := get_wp w in
      set_wp w None ;;;
      weak_release (block old) ;;; ret Nothing
  | Lock x w =>
      let* p := get_wp w in
      let* n := use_count p in
      (if n =? 0 then new_sp x empty else add_ref (block p) ;;; new_sp x p) ;;;
      ret Nothing
  | SharedFromThis x o => caught (let* p := shared_from_this o in new_sp x p)
  | SharedFrom x o p => caught (let* r := shared_from o p in new_sp x r)
  | WeakFromThis w o => caught (let* p := weak_from_this o in new_wp w p)
  | WeakFrom w o p => caught (let* r := weak_from o p in new_wp w r)
  | Get x => let* p := get_sp x in ret (Address (ptr p))
  | WeakGet w => let* p := get_wp w in ret (Address (ptr p))
  | UseCount x => let* p := get_sp x in let* n := use_count p in ret (Number n)
  | Expired w => let* p := get_wp w in let* n := use_count p in ret (Bool (n =? 0))
  | Value o => let* x := get_obj o in ret (Val (val x))
  end.
Fixpoint calls (os : list op) : M store (list out) :=
  match os with
  | [] => ret []
  | o :: os' => let* x := call o in let* xs := calls os' in ret (x :: xs)
  end.
Definition init : store :=
  mkStore (fun _ => None) 0 (fun _ => None) 0 (fun _ => None) (fun _ => None) (fun _ => None) [].
End Shared.
Arguments obj : clear implicits.
Arguments store : clear implicits.
Arguments op : clear implicits.
Arguments out : clear implicits.
