(** Model of /repo/include/itlib/small_vector.hpp with allocators which have state: the members of
    SmallVectorModel, with the allocator each vector inherits (198, 1000-1001) and, for every
    block of memory, the allocator which gave it.

    An allocator is a value of type [A]; [same] is its operator==, and memory from one allocator may
    be given back only through an equal one.  Copies and moves of an allocator are equal to it and
    leave it as it is (the requirements on allocators); all refuse the same sizes. *)
From Coq Require Import List Arith NArith ZArith Bool.
From Verif Require Import Base SeqSpec VecCommon SmallVectorModel.
Import ListNotations.

Section SmallAlloc.
Context {V A : Type}.
Variable moved : V -> V.
Variable dflt : V.
Variable SC RB : nat.
Variable maxn : N.
Variable same : A -> A -> bool.
(** atraits::select_on_container_copy_construction *)
Variable select : A -> A.

(** [owners]: for each entry of [blocks], the allocator the memory came from (that of block 0, the
    static buffer, means nothing). *)
Record avec : Type := mkA { av : @vec V; al : A; owners : list A }.

Definition is_freed (b : option (block V)) : bool := match b with Some Freed => true | _ => false end.
(** Every block given back meanwhile came from an allocator equal to [x]. *)
Definition well_freed (x : A) (own : list A) (before after : @vec V) : bool :=
  forallb (fun k =>
    (k =? 0) || negb (is_freed (nth_error (blocks after) k)) || is_freed (nth_error (blocks before) k) ||
    match nth_error own k with Some o => same o x | None => false end) (seq 0 (length (blocks after))).

(** A member function which allocates and deallocates through get_alloc() (1000). *)
Definition settle (s : avec) (v' : @vec V) : option avec :=
  let own := owners s ++ repeat (al s) (length (blocks v') - length (blocks (av s))) in
  if well_freed (al s) own (av s) v' then Some (mkA v' (al s) own) else None.
Definition lift {R} (m : M (@vec V) R) : M avec R := fun s =>
  match m (av s) with
  | Ok r v' => match settle s v' with Some s' => Ok r s' | None => UB end
  | Throw e v' => match settle s v' with Some s' => Throw e s' | None => UB end
  | UB => UB
  | Diverge => Diverge
  end.
Definition set_alloc (x : A) : M avec unit := fun s => Ok tt (mkA (av s) x (owners s)).

(** 224-229 small_vector(alloc) *)
Definition a_init (x : A) : avec := mkA (init_vec SC) x [x].

(** 283-295 copy assignment (not from itself): the allocator stays. *)
Definition a_copy_assign : M (avec * avec) unit :=
  onL (lift destroy_all) ;;;
  let* l := onR (lift read_all) in
  onL (lift (assign_copy SC RB maxn l)).

(** 260-264 small_vector(v, alloc); 256-258 the copy constructor with the selected one. *)
Definition a_copy_construct (x : A) (b : avec) : res (avec * avec) unit :=
  (let* l := onR (lift read_all) in onL (lift (assign_copy SC RB maxn l))) (a_init x, b).

(** 733-754 take_impl: a dynamic block keeps the allocator it came from. *)
Definition a_take : M (avec * avec) unit := fun st =>
  let '(a, b) := st in
  match take_impl moved SC (av a, av b), nth_error (owners b) (vb (av b)) with
  | Ok _ (x, y), Some o =>
      Ok tt (mkA x (al a) (owners a ++ repeat o (length (blocks x) - length (blocks (av a)))),
             mkA y (al b) (owners b))
  | Throw e (x, y), Some o =>
      Throw e (mkA x (al a) (owners a ++ repeat o (length (blocks x) - length (blocks (av a)))),
               mkA y (al b) (owners b))
  | Diverge, _ => Diverge
  | _, _ => UB
  end.

(** 297-317 move assignment (not from itself): deallocate (305-309), the allocator (311),
    m_capacity (312), take_impl (314). *)
Definition a_move_assign : M (avec * avec) unit :=
  onL (lift destroy_all) ;;;
  let* st := get in
  (if is_static (av (fst st)) then ret tt
   else onL (lift (deallocate (vb (av (fst st))) (vcap (av (fst st)))))) ;;;
  let* st := get in
  onL (set_alloc (al (snd st))) ;;;
  onL (lift (set_buf (vb (av (fst st))) (ve (av (fst st))) (vcap (av (snd st))))) ;;;
  a_take.

(** 266-271 move constructor *)
Definition a_move_construct (b : avec) : res (avec * avec) unit :=
  (onL (lift (set_buf 0 (0, 0) (vcap (av b)))) ;;; a_take) (a_init (al b), b).

(** * Programs *)
Inductive acell : Type :=
| Alive (s : avec)
| Gone (s : avec).   (* after the destructor *)
Inductive aop : Type :=
| ANew (x : A)
| ANewCopy (j : nat)
| ANewCopyWith (j : nat) (x : A)
| ANewMove (j : nat)
| ADestroy (i : nat)
| AOn (i : nat) (o : @smallop V)
| ACopyAssign (i j : nat)
| AMoveAssign (i j : nat).

Definition cell_at (st : list acell) (i : nat) : option avec :=
  match nth_error st i with Some (Alive s) => Some s | _ => None end.
Definition a_new (j : nat) (f : avec -> res (avec * avec) unit) : M (list acell) (option nat) := fun st =>
  match cell_at st j with
  | None => UB
  | Some b =>
      match f b with
      | Ok _ (a, b') => Ok None (upd st j (Alive b') ++ [Alive a])
      | Throw e (a, b') => Throw e (upd st j (Alive b'))
      | UB => UB
      | Diverge => Diverge
      end
  end.
Definition a_one {R} (m : M avec R) (c : avec -> acell) (i : nat) : M (list acell) R := fun st =>
  match cell_at st i with
  | None => UB
  | Some a =>
      match m a with
      | Ok r a' => Ok r (upd st i (c a'))
      | Throw e a' => Throw e (upd st i (Alive a'))
      | UB => UB
      | Diverge => Diverge
      end
  end.
Definition a_two (m : M (avec * avec) unit) (i j : nat) : M (list acell) (option nat) := fun st =>
  match cell_at st i, cell_at st j with
  | Some a, Some b =>
      match m (a, b) with
      | Ok _ (a', b') => Ok None (upd (upd st i (Alive a')) j (Alive b'))
      | Throw e (a', b') => Throw e (upd (upd st i (Alive a')) j (Alive b'))
      | UB => UB
      | Diverge => Diverge
      end
  | _, _ => UB
  end.
Definition a_call (o : aop) : M (list acell) (option nat) :=
  match o with
  | ANew x => fun st => Ok None (st ++ [Alive (a_init x)])
  | ANewCopy j => fun st =>
      match cell_at st j with
      | None => UB
      | Some b => a_new j (a_copy_construct (select (al b))) st
      end
  | ANewCopyWith j x => a_new j (a_copy_construct x)
  | ANewMove j => a_new j a_move_construct
  | ADestroy i => no_answer (a_one (lift destructor) Gone i)
  | AOn i op => a_one (lift (call moved dflt SC RB maxn op)) Alive i
  | ACopyAssign i j =>
      if i =? j then a_one (ret None) Alive i else a_two a_copy_assign i j
  | AMoveAssign i j =>
      if i =? j then a_one (ret None) Alive i else a_two a_move_assign i j
  end.
End SmallAlloc.
