(** Model of itlib/any.hpp when the objects in anys use anys: what constructors and destructors
    of held objects do, while they run, to the any they are in and to others.

    A block (anyimpl::obj_block_for, any.hpp 86-128) is memory in which an object may be under
    construction, alive, or under destruction; its size member is written after the construction
    only (any.hpp 233-234).  Anys are numbered.

    Simplified: constructors do not throw (C38 has exceptions); the alignment is left out (it is
    written and used beside the size); copies are emplaces of the copied object. *)
From Coq Require Import List Arith Bool.
From Verif Require Import Base VecCommon.
Import ListNotations.

(** Calls, and objects with what their constructor and destructor do. *)
Inductive act : Type :=
| Has (i : nat)                  (* anys[i].has_value() *)
| TypeOf (i : nat)               (* anys[i].type() *)
| Reset (i : nat)                (* anys[i].reset() *)
| Emplace (i : nat) (o : obj)    (* anys[i].emplace<T>(..), anys[i] = T(..) *)
| Move (i j : nat)               (* anys[i] = std::move(anys[j]) *)
with obj : Type :=
| Obj (ty size : nat) (ctor dtor : list act).

Definition oty (o : obj) : nat := match o with Obj ty _ _ _ => ty end.
Definition osize (o : obj) : nat := match o with Obj _ n _ _ => n end.
Definition octor (o : obj) : list act := match o with Obj _ _ c _ => c end.
Definition odtor (o : obj) : list act := match o with Obj _ _ _ d => d end.

Inductive phase : Type := Building | Alive | Ending.
Inductive blk : Type :=
| Bare (n : nat)                                     (* allocated, no object in it *)
| Block (n : nat) (size : option nat) (p : phase) (o : obj)   (* size: None if not yet written *)
| Gone.                                              (* given back to the allocator *)

Inductive ans : Type := AHas (b : bool) | AType (t : option nat).   (* None: typeid(void) *)

(** m_block of every any, and the memory. *)
Record st : Type := mkSt { ptrs : list (option nat); mem : list blk }.
Definition init (k : nat) : st := mkSt (repeat None k) [].

Definition m_block (i : nat) : M st (option nat) := fun s =>
  match nth_error (ptrs s) i with Some p => Ok p s | None => UB end.
Definition set_ptr (i : nat) (p : option nat) : M st unit := fun s =>
  match nth_error (ptrs s) i with Some _ => Ok tt (mkSt (upd (ptrs s) i p) (mem s)) | None => UB end.
Definition read_blk (b : nat) : M st blk := fun s =>
  match nth_error (mem s) b with Some x => Ok x s | None => UB end.
Definition write_blk (b : nat) (x : blk) : M st unit := fun s =>
  match nth_error (mem s) b with Some _ => Ok tt (mkSt (ptrs s) (upd (mem s) b x)) | None => UB end.
(** Alloc::allocate_bytes *)
Definition allocate (n : nat) : M st nat := fun s =>
  Ok (length (mem s)) (mkSt (ptrs s) (mem s ++ [Bare n])).
(** Alloc::deallocate_bytes, default_allocator's: free(nullptr) does nothing; anything else must
    be memory of that size in which no object is left. *)
Definition deallocate (p : option nat) (n : nat) : M st unit :=
  match p with
  | None => ret tt
  | Some b =>
      let* x := read_blk b in
      match x with
      | Bare n' => if n =? n' then write_blk b Gone else ub
      | _ => ub
      end
  end.

(** free_block: any.hpp 271-274. *)
Definition free_block (i : nat) (size : nat) : M st unit :=
  let* p := m_block i in
  deallocate p size ;;;
  set_ptr i None.

(** has_value: any.hpp 191. *)
Definition has_value (i : nat) : M st bool := let* p := m_block i in ret (match p with Some _ => true | None => false end).
(** type: any.hpp 265-268; a virtual call, which is good while the members of the most derived
    object are constructed or destroyed. *)
Definition type_of (i : nat) : M st (option nat) :=
  let* p := m_block i in
  match p with
  | None => ret None
  | Some b =>
      let* x := read_blk b in
      match x with Block _ _ _ o => ret (Some (oty o)) | _ => ub end
  end.

Section Calls.
(** What runs the calls of a constructor or destructor. *)
Variable body : list act -> M st (list ans).

(** reset: any.hpp 212-218.  The destructor of an object which is not alive is undefined, and
    so is reading a size which was not written. *)
Definition reset (i : nat) : M st (list ans) :=
  let* p := m_block i in
  match p with
  | None => ret []
  | Some b =>
      let* x := read_blk b in
      match x with
      | Block n (Some size) Alive o =>
          write_blk b (Block n (Some size) Ending o) ;;;
          let* r := body (odtor o) in
          let* y := read_blk b in
          match y with
          | Block _ _ Ending _ =>
              write_blk b (Bare n) ;;;
              free_block i size ;;;
              ret r
          | _ => ub
          end
      | _ => ub
      end
  end.

(** emplace: any.hpp 220-241. *)
Definition emplace (i : nat) (o : obj) : M st (list ans) :=
  let* r0 := reset i in
  let* b := allocate (osize o) in
  set_ptr i (Some b) ;;;
  write_blk b (Block (osize o) None Building o) ;;;
  let* r := body (octor o) in
  let* y := read_blk b in
  match y with
  | Block _ _ Building _ =>
      write_blk b (Block (osize o) (Some (osize o)) Alive o) ;;;
      ret (r0 ++ r)
  | _ => ub
  end.

(** operator=(any&&): any.hpp 155-161. *)
Definition move_assign (i j : nat) : M st (list ans) :=
  if i =? j then let* _ := m_block i in ret [] else
  let* r := reset i in
  let* p := m_block j in
  set_ptr i p ;;;
  set_ptr j None ;;;
  ret r.
End Calls.

Definition seq_body (f : act -> M st (list ans)) : list act -> M st (list ans) :=
  fix go l := match l with
    | [] => ret []
    | a :: l' => let* r := f a in let* r' := go l' in ret (r ++ r')
    end.

(** [n] bounds the depth of calls inside of constructors and destructors inside of calls. *)
Fixpoint exec (n : nat) (a : act) : M st (list ans) :=
  match n with
  | 0 => diverge
  | S n' =>
      let body := seq_body (exec n') in
      match a with
      | Has i => let* b := has_value i in ret [AHas b]
      | TypeOf i => let* t := type_of i in ret [AType t]
      | Reset i => reset body i
      | Emplace i o => emplace body i o
      | Move i j => move_assign body i j
      end
  end.
Definition exec_all (n : nat) : list act -> M st (list ans) := seq_body (exec n).
