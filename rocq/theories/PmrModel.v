(** Model of include/itlib/pmr_allocator.hpp before C++20 (lines 65-103), with the memory
    resources and the objects of the programs which use it.

    A pointer is a block and an offset into it: blocks are what memory resources give, all
    different and not adjacent, and numbered. Whether an allocation fails or a constructor
    throws is a parameter of each call. Undefined: giving back a block which is not held, or to
    another resource, or with another size or alignment; constructing an object where there is
    no room, or over another one, or not aligned; destroying an object which is not there.

    Simplified: resources are equal only if they are the same one. Constructors and destructors
    do not use the allocator (uses-allocator construction is what [V] stands for), destructors
    do not throw. Constructors and comparisons of the allocator are those of
    std::pmr::polymorphic_allocator (59): they copy and compare the resource. *)
From Coq Require Import List Arith NArith Bool.
From Verif Require Import Base VecCommon.
Import ListNotations.
Open Scope N_scope.

Definition addr : Type := nat * N.
(** Types, with sizeof and alignof. *)
Record ty : Type := mkTy { tname : nat; size_of : N; align_of : N }.
Definition same_ty (U W : ty) : bool :=
  (tname U =? tname W)%nat && (size_of U =? size_of W) && (align_of U =? align_of W).

(** What happens to memory and objects. *)
Inductive event : Type :=
| Allocated (b : nat) (n al : N)
| Constructed (p : addr) (U : ty)
| Destroyed (p : addr) (U : ty)
| Deallocated (b : nat) (n al : N).

Section Pmr.
Context {V : Type}.
Variable max_align : N.                       (* alignof(std::max_align_t) *)

Record block : Type := mkBlock {
  res_of : nat;                               (* the resource it belongs to *)
  bytes : N;
  aligned : N;
  objs : list (N * (ty * V))                  (* the objects in it, by offset *)
}.
Record store : Type := mkStore {
  heap : nat -> option block;
  next : nat;
  allocs : nat -> option nat;                 (* the allocators, with their resources *)
  log : list event                            (* last first *)
}.
Definition init : store := mkStore (fun _ => None) 0 (fun _ => None) [].

Inductive out : Type :=
| Nothing
| Ptr (p : addr)
| Num (n : nat)
| Val (v : V).

(** std::pmr::memory_resource: allocate, deallocate *)
Definition res_allocate (r : nat) (n al : N) (fails : bool) : M store addr := fun s =>
  if fails then Throw BadAlloc s
  else Ok (next s, 0) (mkStore (setm (heap s) (next s) (Some (mkBlock r n al []))) (S (next s))
                               (allocs s) (Allocated (next s) n al :: log s)).
Definition res_deallocate (r : nat) (p : addr) (n al : N) : M store unit := fun s =>
  match heap s (fst p) with
  | Some b =>
      if (snd p =? 0) && (res_of b =? r)%nat && (bytes b =? n) && (aligned b =? al)
      then Ok tt (mkStore (setm (heap s) (fst p) None) (next s) (allocs s)
                          (Deallocated (fst p) n al :: log s))
      else UB
  | None => UB
  end.

(** Construction and destruction of an object at an address, by placement new and ~U(). *)
Definition apart (o : N) (U : ty) (e : N * (ty * V)) : bool :=
  (o + size_of U <=? fst e) || (fst e + size_of (fst (snd e)) <=? o).
Definition construct_at (p : addr) (U : ty) (v : V) (throws : bool) : M store unit := fun s =>
  match heap s (fst p) with
  | Some b =>
      if (snd p + size_of U <=? bytes b) && (aligned b mod align_of U =? 0) &&
         (snd p mod align_of U =? 0) && forallb (apart (snd p) U) (objs b)
      then if throws then Throw ElemThrow s
           else Ok tt (mkStore (setm (heap s) (fst p) (Some (mkBlock (res_of b) (bytes b) (aligned b)
                                                             ((snd p, (U, v)) :: objs b))))
                               (next s) (allocs s) (Constructed p U :: log s))
      else UB
  | None => UB
  end.
Definition object_at (p : addr) (U : ty) (s : store) : option V :=
  match heap s (fst p) with
  | Some b =>
      match find (fun e => fst e =? snd p) (objs b) with
      | Some (_, (W, v)) => if same_ty U W then Some v else None
      | None => None
      end
  | None => None
  end.
Definition destroy_at (p : addr) (U : ty) : M store unit := fun s =>
  match object_at p U s, heap s (fst p) with
  | Some _, Some b =>
      Ok tt (mkStore (setm (heap s) (fst p)
                        (Some (mkBlock (res_of b) (bytes b) (aligned b)
                                       (filter (fun e => negb (fst e =? snd p)) (objs b)))))
                     (next s) (allocs s) (Destroyed p U :: log s))
  | _, _ => UB
  end.

(** super::resource (63); an allocator which does not exist is undefined *)
Definition resource (a : nat) : M store nat := fun s =>
  match allocs s a with Some r => Ok r s | None => UB end.

(** 65-67. The default alignment is a parameter of the callers here. *)
Definition allocate_bytes (a : nat) (n al : N) (fails : bool) : M store addr :=
  let* r := resource a in res_allocate r n al fails.
(** 69-71 *)
Definition deallocate_bytes (a : nat) (p : addr) (n al : N) : M store unit :=
  let* r := resource a in res_deallocate r p n al.
(** 73-76 *)
Definition allocate_object (a : nat) (U : ty) (n : N) (fails : bool) : M store addr :=
  allocate_bytes a ((n * size_of U) mod two64) (align_of U) fails.
(** 78-81 *)
Definition deallocate_object (a : nat) (U : ty) (p : addr) (n : N) : M store unit :=
  deallocate_bytes a p ((n * size_of U) mod two64) (align_of U).
(** 83-94 *)
Definition new_object (a : nat) (U : ty) (v : V) (fails throws : bool) : M store addr :=
  let* p := allocate_object a U 1 fails in
  fun s =>
    match construct_at p U v throws s with                  (* try { construct; return p; } *)
    | Ok _ s' => Ok p s'
    | Throw e s' => (deallocate_object a U p 1 ;;; throw e) s'   (* catch (...) *)
    | UB => UB
    | Diverge => Diverge
    end.
(** 96-100 *)
Definition delete_object (a : nat) (U : ty) (p : addr) : M store unit :=
  destroy_at p U ;;; deallocate_object a U p 1.

(** The calls of a program. *)
Inductive op : Type :=
| MakeAlloc (a r : nat)                       (* pmr_allocator(resource) *)
| CopyAlloc (a b : nat)                       (* copies, of the same or another T *)
| Resource (a : nat)
| AllocBytes (a : nat) (n : N) (al : option N) (fails : bool)
| DeallocBytes (a : nat) (p : addr) (n : N) (al : option N)
| AllocObject (a : nat) (U : ty) (n : N) (fails : bool)
| DeallocObject (a : nat) (U : ty) (p : addr) (n : N)
| NewObject (a : nat) (U : ty) (v : V) (fails throws : bool)
| DeleteObject (a : nat) (U : ty) (p : addr)
| Construct (p : addr) (U : ty) (v : V) (throws : bool)
| Destroy (p : addr) (U : ty)
| Read (p : addr) (U : ty).

Definition alignment (al : option N) : N := match al with Some n => n | None => max_align end.
Definition set_alloc (a r : nat) : M store unit := fun s =>
  match allocs s a with
  | Some _ => UB
  | None => Ok tt (mkStore (heap s) (next s) (setm (allocs s) a (Some r)) (log s))
  end.
Definition call (o : op) : M store out :=
  match o with
  | MakeAlloc a r => set_alloc a r ;;; ret Nothing
  | CopyAlloc a b => let* r := resource b in set_alloc a r ;;; ret Nothing
  | Resource a => let* r := resource a in ret (Num r)
  | AllocBytes a n al f => let* p := allocate_bytes a n (alignment al) f in ret (Ptr p)
  | DeallocBytes a p n al => deallocate_bytes a p n (alignment al) ;;; ret Nothing
  | AllocObject a U n f => let* p := allocate_object a U n f in ret (Ptr p)
  | DeallocObject a U p n => deallocate_object a U p n ;;; ret Nothing
  | NewObject a U v f t => let* p := new_object a U v f t in ret (Ptr p)
  | DeleteObject a U p => delete_object a U p ;;; ret Nothing
  | Construct p U v t => construct_at p U v t ;;; ret Nothing
  | Destroy p U => destroy_at p U ;;; ret Nothing
  | Read p U => fun s => match object_at p U s with Some v => Ok (Val v) s | None => UB end
  end.

(** A program which handles every exception. *)
Fixpoint calls (os : list op) (s : store) : res store (list (out + exn)) :=
  match os with
  | [] => Ok [] s
  | o :: os =>
      match call o s with
      | Ok x s => match calls os s with Ok xs s => Ok (inl x :: xs) s | r => r end
      | Throw e s => match calls os s with Ok xs s => Ok (inr e :: xs) s | r => r end
      | UB => UB
      | Diverge => Diverge
      end
  end.
End Pmr.
Arguments store : clear implicits.
Arguments block : clear implicits.
Arguments op : clear implicits.
Arguments out : clear implicits.
