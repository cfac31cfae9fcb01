(** Specification of the allocation functions, without the model: the blocks a program holds,
    with exact sizes, and the objects in them; and what a tidy history of memory is. *)
From Coq Require Import List Arith NArith Bool.
From Verif Require Import Base VecCommon PmrModel.
Import ListNotations.
Open Scope N_scope.

Section Spec.
Context {V : Type}.
Variable max_align : N.

Record ast : Type := mkA {
  ablocks : nat -> option (nat * (N * N));    (* resource, size, alignment *)
  aobjs : addr -> option (ty * V);
  aalloc : nat -> option nat;
  anext : nat
}.
Definition ainit : ast := mkA (fun _ => None) (fun _ => None) (fun _ => None) 0.
Definition addr_eqb (p q : addr) : bool := (fst p =? fst q)%nat && (snd p =? snd q).
Definition with_block (a : ast) b v : ast := mkA (setm (ablocks a) b v) (aobjs a) (aalloc a) (anext a).
Definition with_obj (a : ast) (p : addr) v : ast :=
  mkA (ablocks a) (fun q => if addr_eqb q p then v else aobjs a q) (aalloc a) (anext a).
Definition with_alloc (a : ast) x v : ast := mkA (ablocks a) (aobjs a) (setm (aalloc a) x v) (anext a).
Definition skip_block (a : ast) : ast := mkA (ablocks a) (aobjs a) (aalloc a) (S (anext a)).
Definition new_block (a : ast) r n al : ast :=
  skip_block (with_block a (anext a) (Some (r, (n, al)))).

Definition disjoint (o : N) (U : ty) (o' : N) (U' : ty) : Prop :=
  o + size_of U <= o' \/ o' + size_of U' <= o.
(** An object of type U can be constructed at p. *)
Definition room (a : ast) (p : addr) (U : ty) : Prop :=
  exists r n al, ablocks a (fst p) = Some (r, (n, al)) /\ snd p + size_of U <= n /\
    al mod align_of U = 0 /\ snd p mod align_of U = 0 /\
    forall o U' v, aobjs a (fst p, o) = Some (U', v) -> disjoint (snd p) U o U'.
(** The block has no objects. *)
Definition vacant (a : ast) (b : nat) : Prop := forall o, aobjs a (b, o) = None.

Inductive sstep : ast -> op V -> out V + exn -> ast -> Prop :=
| s_make a x r : aalloc a x = None -> sstep a (MakeAlloc x r) (inl Nothing) (with_alloc a x (Some r))
| s_copy a x y r : aalloc a x = None -> aalloc a y = Some r ->
    sstep a (CopyAlloc x y) (inl Nothing) (with_alloc a x (Some r))
| s_resource a x r : aalloc a x = Some r -> sstep a (Resource x) (inl (Num r)) a
(* allocation: the room asked for, or an exception and nothing *)
| s_bytes a x r n al : aalloc a x = Some r ->
    sstep a (AllocBytes x n (Some al) false) (inl (Ptr (anext a, 0))) (new_block a r n al)
| s_bytes_default a x r n : aalloc a x = Some r ->
    sstep a (AllocBytes x n None false) (inl (Ptr (anext a, 0))) (new_block a r n max_align)
| s_bytes_fail a x r n al : aalloc a x = Some r ->
    sstep a (AllocBytes x n al true) (inr BadAlloc) a
| s_object a x r U n : aalloc a x = Some r ->
    sstep a (AllocObject x U n false) (inl (Ptr (anext a, 0)))
          (new_block a r (n * size_of U) (align_of U))
| s_object_fail a x r U n : aalloc a x = Some r ->
    sstep a (AllocObject x U n true) (inr BadAlloc) a
(* deallocation of what was allocated, with no objects left in it *)
| s_free a x r b n al : aalloc a x = Some r -> ablocks a b = Some (r, (n, al)) -> vacant a b ->
    sstep a (DeallocBytes x (b, 0) n (Some al)) (inl Nothing) (with_block a b None)
| s_free_default a x r b n : aalloc a x = Some r -> ablocks a b = Some (r, (n, max_align)) ->
    vacant a b ->
    sstep a (DeallocBytes x (b, 0) n None) (inl Nothing) (with_block a b None)
| s_free_object a x r b U n : aalloc a x = Some r ->
    ablocks a b = Some (r, (n * size_of U, align_of U)) -> vacant a b ->
    sstep a (DeallocObject x U (b, 0) n) (inl Nothing) (with_block a b None)
(* objects *)
| s_construct a p U v : room a p U ->
    sstep a (Construct p U v false) (inl Nothing) (with_obj a p (Some (U, v)))
| s_construct_throws a p U v : room a p U -> sstep a (Construct p U v true) (inr ElemThrow) a
| s_destroy a p U v : aobjs a p = Some (U, v) ->
    sstep a (Destroy p U) (inl Nothing) (with_obj a p None)
| s_read a p U v : aobjs a p = Some (U, v) -> sstep a (Read p U) (inl (Val v)) a
(* new: a block with the object in it, or nothing but an exception *)
| s_new a x r U v : aalloc a x = Some r ->
    sstep a (NewObject x U v false false) (inl (Ptr (anext a, 0)))
          (with_obj (new_block a r (size_of U) (align_of U)) (anext a, 0) (Some (U, v)))
| s_new_fail a x r U v t : aalloc a x = Some r -> sstep a (NewObject x U v true t) (inr BadAlloc) a
| s_new_throws a x r U v : aalloc a x = Some r ->
    sstep a (NewObject x U v false true) (inr ElemThrow) (skip_block a)
(* delete: neither the object nor its block is left *)
| s_delete a x r U b v : aalloc a x = Some r -> aobjs a (b, 0) = Some (U, v) ->
    ablocks a b = Some (r, (size_of U, align_of U)) ->
    (forall o, o <> 0 -> aobjs a (b, o) = None) ->
    sstep a (DeleteObject x U (b, 0)) (inl Nothing) (with_block (with_obj a (b, 0) None) b None).

Inductive ssteps : ast -> list (op V) -> list (out V + exn) -> ast -> Prop :=
| ss_nil a : ssteps a [] [] a
| ss_cons a o x a' os xs a'' : sstep a o x a' -> ssteps a' os xs a'' ->
    ssteps a (o :: os) (x :: xs) a''.

(** The sizes which can be written in 64 bits, of types as the language has them. *)
Definition proper (U : ty) : Prop := 0 < size_of U < two64 /\ align_of U <> 0.
Definition fits (o : op V) : Prop :=
  match o with
  | AllocBytes _ n _ _ | DeallocBytes _ _ n _ => n < two64
  | AllocObject _ U n _ => proper U /\ n * size_of U < two64
  | DeallocObject _ U _ _ | DeleteObject _ U _ | NewObject _ U _ _ _
  | Construct _ U _ _ | Destroy _ U | Read _ U => proper U
  | _ => True
  end.
End Spec.
Arguments ast : clear implicits.

(** A tidy history of memory (last event first): every block is new when it is allocated and
    released at most once, with its size and alignment, when no object is in it; objects are
    constructed in blocks which are held, aligned and not over each other, and destroyed at
    most once. *)
Definition ev_dec (e f : event) : {e = f} + {e <> f}.
Proof. repeat decide equality. Defined.
Definition held (l : list event) (b : nat) (n al : N) : Prop :=
  In (Allocated b n al) l /\ forall n' al', ~ In (Deallocated b n' al') l.
Definition here (l : list event) (p : addr) (U : ty) : Prop :=
  (count_occ ev_dec l (Constructed p U) = S (count_occ ev_dec l (Destroyed p U)))%nat.
Definition gone (l : list event) (p : addr) (U : ty) : Prop :=
  count_occ ev_dec l (Constructed p U) = count_occ ev_dec l (Destroyed p U).
Fixpoint tidy (l : list event) : Prop :=
  match l with
  | [] => True
  | e :: l =>
      tidy l /\
      match e with
      | Allocated b _ _ => forall n al, ~ In (Allocated b n al) l
      | Constructed p U =>
          (exists n al, held l (fst p) n al /\ snd p + size_of U <= n /\
             al mod align_of U = 0 /\ snd p mod align_of U = 0) /\
          (forall o U', here l (fst p, o) U' -> disjoint (snd p) U o U') /\
          gone l p U
      | Destroyed p U => here l p U
      | Deallocated b n al => held l b n al /\ forall o U, gone l (b, o) U
      end
  end.
