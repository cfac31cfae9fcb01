(** Model of itlib/any.hpp.

    Any number of anys, addressed by numbers, over one heap of blocks. A block knows the
    allocator which provided it, its size and alignment, and what is constructed in it;
    giving a block back to another allocator, with another size or alignment, with an
    object still alive in it, or twice, is [UB], as is the use of a dead object.

    Simplified: types are numbers; an object is its type and a value; allocators are
    numbers, equal numbers meaning equal allocators; destructors do nothing else; where an
    allocation or a constructor throws is chosen by the caller. *)
From Coq Require Import List Arith Bool NArith.
From Verif Require Import Base.
Import ListNotations.

(** emplace's [constexpr uint32_t size = sizeof(obj_block_for_t)] and [alignment], any.hpp
    220-221: the conversion to uint32_t keeps the value modulo 2^32. The members of obj_block
    are uint32_t too, 87-89. *)
Definition narrow (size_of align_of : bool -> nat -> N) (is_ref : bool) (ty : nat) : nat * nat :=
  (N.to_nat (size_of is_ref ty mod 2 ^ 32), N.to_nat (align_of is_ref ty mod 2 ^ 32)).

Section Any.
Context {Val : Type}.
Variable copyable : nat -> bool.          (* std::is_copy_constructible *)
Variable layout : bool -> nat -> nat * nat. (* emplace's size and alignment for T / T&, see [narrow] *)
Variable mv : Val -> Val.                 (* what is left of a moved-from value *)

(** obj_block_for<T>::m_data: a T, or, for any(lvalue), a reference to a variable; the
    variable may be gone. *)
Inductive stored : Type :=
| Own (ty : nat) (v : Val)
| Link (ty : nat) (x : option nat).
Definition type_of (o : stored) : nat := match o with Own ty _ | Link ty _ => ty end.
Definition is_link (o : stored) : bool := match o with Own _ _ => false | Link _ _ => true end.

(** any.hpp 84-88: the header of the block, written after the construction *)
Record block : Type := mkBlock {
  provider : nat; bsize : nat; balign : nat;
  object : option stored;
  header : option (nat * nat)
}.
(** 141-143 *)
Record anyobj : Type := mkAny { allocator : nat; m_block : option nat }.
Record st : Type := mkSt {
  heap : nat -> option block;
  next : nat;
  anys : nat -> option anyobj;
  vars : nat -> option (nat * Val)
}.

Definition set_heap (h : nat -> option block) : M st unit := fun s =>
  Ok tt (mkSt h (next s) (anys s) (vars s)).
Definition set_anys (a : nat -> option anyobj) : M st unit := fun s =>
  Ok tt (mkSt (heap s) (next s) a (vars s)).
Definition set_vars (v : nat -> option (nat * Val)) : M st unit := fun s =>
  Ok tt (mkSt (heap s) (next s) (anys s) v).

Definition the (i : nat) : M st anyobj := fun s =>
  match anys s i with Some a => Ok a s | None => UB end.
Definition blk (b : nat) : M st block := fun s =>
  match heap s b with Some k => Ok k s | None => UB end.
Definition put_any (i : nat) (a : anyobj) : M st unit :=
  let* s := get in set_anys (setm (anys s) i (Some a)).
Definition put_blk (b : nat) (k : block) : M st unit :=
  let* s := get in set_heap (setm (heap s) b (Some k)).
Definition set_block (i : nat) (b : option nat) : M st unit :=
  let* a := the i in put_any i (mkAny (allocator a) b).

(** Alloc::allocate_bytes of any i *)
Definition allocate (i size alignment : nat) (fails : bool) : M st nat :=
  let* a := the i in
  if fails then throw BadAlloc else
  fun s =>
    match heap s (next s) with
    | Some _ => UB
    | None =>
        Ok (next s) (mkSt (setm (heap s) (next s)
                             (Some (mkBlock (allocator a) size alignment None None)))
                          (S (next s)) (anys s) (vars s))
    end.

(** 258-261 free_block *)
Definition free_block (i size alignment : nat) : M st unit :=
  let* a := the i in
  match m_block a with
  | None => ub
  | Some b =>
      let* k := blk b in
      (match object k with
       | Some _ => ub
       | None =>
           if (provider k =? allocator a) && (bsize k =? size) && (balign k =? alignment)
           then let* s := get in set_heap (setm (heap s) b None) else ub
       end) ;;;
      set_block i None
  end.

(** placement new of an obj_block_for: the base's members are not initialised *)
Definition construct (b : nat) (o : stored) (throws : bool) : M st unit :=
  let* k := blk b in
  match object k with
  | Some _ => ub
  | None =>
      if throws then throw ElemThrow
      else put_blk b (mkBlock (provider k) (bsize k) (balign k) (Some o) None)
  end.
Definition set_header (b size alignment : nat) : M st unit :=
  let* k := blk b in
  match object k with
  | None => ub
  | Some _ =>
      put_blk b (mkBlock (provider k) (bsize k) (balign k) (object k) (Some (size, alignment)))
  end.
(** 209-215 reset *)
Definition reset (i : nat) : M st unit :=
  let* a := the i in
  match m_block a with
  | None => ret tt
  | Some b =>
      let* k := blk b in
      match object k, header k with
      | Some _, Some (size, alignment) =>
          put_blk b (mkBlock (provider k) (bsize k) (balign k) None None) ;;;
          free_block i size alignment
      | _, _ => ub
      end
  end.
(** catch (...) { free_block; throw; } *)
Definition guarded {A} (m : M st A) (i size alignment : nat) : M st A := fun s =>
  match m s with
  | Throw e s' =>
      match free_block i size alignment s' with
      | Ok _ s'' => Throw e s''
      | _ => UB
      end
  | r => r
  end.

(** The object any i holds: what any_cast and clone_to look at *)
Definition held (i : nat) : M st (option stored) :=
  let* a := the i in
  match m_block a with
  | None => ret None
  | Some b =>
      let* k := blk b in
      match object k with Some o => ret (Some o) | None => ub end
  end.
(** *static_cast<T*>(data()) *)
Definition load (o : stored) : M st Val := fun s =>
  match o with
  | Own _ v => Ok v s
  | Link ty (Some x) =>
      match vars s x with
      | Some (ty', v) => if ty' =? ty then Ok v s else UB
      | None => UB
      end
  | Link _ None => UB
  end.
Definition store_at (i : nat) (o : stored) (v : Val) : M st unit :=
  match o with
  | Own ty _ =>
      let* a := the i in
      match m_block a with
      | None => ub
      | Some b =>
          let* k := blk b in
          put_blk b (mkBlock (provider k) (bsize k) (balign k) (Some (Own ty v)) (header k))
      end
  | Link ty (Some x) =>
      let* s := get in
      match vars s x with
      | Some (ty', _) => if ty' =? ty then set_vars (setm (vars s) x (Some (ty, v))) else ub
      | None => ub
      end
  | Link _ None => ub
  end.

(** What is put into an any: an rvalue, a variable, or the object the any holds itself. *)
Inductive source : Type :=
| RVal (ty : nat) (v : Val)
| LVar (x : nat)
| Itself.
Inductive fault : Type := NoFault | AllocFails | CtorThrows.
Definition alloc_fails (f : fault) : bool := match f with AllocFails => true | _ => false end.
Definition ctor_throws (f : fault) : bool := match f with CtorThrows => true | _ => false end.

(** 218-234 emplace, after reset: the object is [o] *)
Definition emplace_obj (i : nat) (o : M st stored) (is_ref : bool) (ty : nat) (f : fault) : M st unit :=
  reset i ;;;
  let '(size, alignment) := layout is_ref ty in
  let* b := allocate i size alignment (alloc_fails f) in
  set_block i (Some b) ;;;
  guarded (
    let* x := o in
    construct b x (ctor_throws f) ;;;
    set_header b size alignment) i size alignment.

(** any::emplace<T>(src), T given: the constructor reads src *)
Definition emplace (i : nat) (ty : nat) (src : source) (f : fault) : M st unit :=
  match src with
  | RVal _ v => emplace_obj i (ret (Own ty v)) false ty f
  | LVar x =>
      emplace_obj i (let* v := load (Link ty (Some x)) in ret (Own ty v)) false ty f
  | Itself =>
      let* o := held i in
      match o with
      | None => ub
      | Some (Own _ _) => emplace_obj i ub false ty f   (* by now reset has destroyed it *)
      | Some (Link _ x) =>
          emplace_obj i (let* v := load (Link ty x) in ret (Own ty v)) false ty f
      end
  end.
(** 175-186 any(T&&), operator=(T&&): emplace<T> with T deduced. An lvalue gives T = X&,
    and the block holds a reference, whose initialisation does not throw. *)
Definition emplace_fwd (i : nat) (src : source) (f : fault) : M st unit :=
  match src with
  | RVal ty v => emplace_obj i (ret (Own ty v)) false ty f
  | LVar x =>
      let* s := get in
      match vars s x with
      | Some (ty, _) =>
          emplace_obj i (ret (Link ty (Some x))) true ty
            (match f with CtorThrows => NoFault | _ => f end)
      | None => ub
      end
  | Itself =>
      let* o := held i in
      match o with
      | None => ub
      | Some (Own ty _) =>   (* the object will be gone *)
          emplace_obj i (ret (Link ty None)) true ty
            (match f with CtorThrows => NoFault | _ => f end)
      | Some (Link ty x) =>
          emplace_obj i (ret (Link ty x)) true ty
            (match f with CtorThrows => NoFault | _ => f end)
      end
  end.

(** 112-126 clone_to *)
Definition clone_to (o : stored) (b : nat) (f : fault) : M st unit :=
  match o with
  | Own ty v => if copyable ty then construct b o (ctor_throws f) else throw BadCast
  | Link _ _ => construct b o false
  end.
(** 236-250 copy_from *)
Definition copy_from (i j : nat) (f : fault) : M st unit :=
  reset i ;;;
  let* a := the j in
  match m_block a with
  | None => ret tt
  | Some jb =>
      let* k := blk jb in
      match header k with
      | None => ub
      | Some (size, alignment) =>
          let* b := allocate i size alignment (alloc_fails f) in
          set_block i (Some b) ;;;
          guarded (
            let* o := held j in
            match o with
            | None => ub
            | Some o =>
                clone_to o b f ;;;
                set_header b size alignment
            end) i size alignment
      end
  end.

(** Constructors: no any if they throw. *)
Definition constructing (i : nat) (alloc : nat) (body : M st unit) : M st unit := fun s =>
  match anys s i with
  | Some _ => UB
  | None =>
      match body (mkSt (heap s) (next s) (setm (anys s) i (Some (mkAny alloc None))) (vars s)) with
      | Throw e s' =>
          (* m_block is not released: there is no destructor call *)
          Throw e (mkSt (heap s') (next s') (setm (anys s') i None) (vars s'))
      | r => r
      end
  end.
(** 152-154 *)
Definition ctor_move (i j : nat) : M st unit :=
  let* o := the j in
  constructing i (allocator o) (
    set_block i (m_block o) ;;;
    set_block j None).
(** 155-161 *)
Definition assign_move (i j : nat) : M st unit :=
  if i =? j then ret tt else
  reset i ;;;
  let* o := the j in
  set_block i (m_block o) ;;;
  set_block j None.
(** 188 *)
Definition dtor (i : nat) : M st unit :=
  reset i ;;;
  let* s := get in set_anys (setm (anys s) i None).

(** 252-255 type; [None] is typeid(void) *)
Definition type (i : nat) : M st (option nat) :=
  let* o := held i in ret (match o with Some o => Some (type_of o) | None => None end).
(** 267-279 any_cast of a pointer: the object, if it is a T *)
Definition cast (i ty : nat) : M st (option stored) :=
  let* t := type i in
  match t with
  | Some ty' => if ty' =? ty then held i else ret None
  | None => ret None
  end.
(** 281-298 any_cast of a reference *)
Definition do_cast (i ty : nat) : M st Val :=
  let* r := cast i ty in
  match r with None => throw BadCast | Some o => load o end.

(** * Calls *)
Inductive op : Type :=
| New (i a : nat)
| NewVal (i a : nat) (src : source) (f : fault)
| NewMove (i j : nat)
| NewCopy (i j a : nat) (f : fault)
| Assign (i j : nat)
| CopyAssign (i j : nat) (f : fault)
| AssignVal (i : nat) (src : source) (f : fault)
| Emplace (i ty : nat) (src : source) (f : fault)
| Reset (i : nat)
| Drop (i : nat)
| Has (i : nat)
| TypeOf (i : nat)
| CastPtr (i ty : nat)
| CastVal (i ty : nat)
| CastMove (i ty : nat)
| Mutate (i ty : nat) (v : Val)   (* *any_cast<T>(&a) = v, if not null *)
| SetVar (x ty : nat) (v : Val)   (* the variable is declared or gets a new value *)
| EndVar (x : nat).
Inductive ans : Type :=
| ANone
| AThrew (e : exn)
| ABool (b : bool)
| AType (t : option nat)
| AVal (v : option Val).

Definition call (o : op) : M st ans :=
  match o with
  | New i a => constructing i a (ret tt) ;;; ret ANone
  | NewVal i a src f => constructing i a (emplace_fwd i src f) ;;; ret ANone
  | NewMove i j => ctor_move i j ;;; ret ANone
  | NewCopy i j a f => constructing i a (copy_from i j f) ;;; ret ANone
  | Assign i j => assign_move i j ;;; ret ANone
  | CopyAssign i j f => copy_from i j f ;;; ret ANone
  | AssignVal i src f => emplace_fwd i src f ;;; ret ANone
  | Emplace i ty src f => emplace i ty src f ;;; ret ANone
  | Reset i => reset i ;;; ret ANone
  | Drop i => dtor i ;;; ret ANone
  | Has i => let* a := the i in ret (ABool (match m_block a with Some _ => true | None => false end))
  | TypeOf i => let* t := type i in ret (AType t)
  | CastPtr i ty =>
      let* r := cast i ty in
      match r with
      | None => ret (AVal None)
      | Some o => let* v := load o in ret (AVal (Some v))
      end
  | CastVal i ty => let* v := do_cast i ty in ret (AVal (Some v))
  | CastMove i ty =>
      let* v := do_cast i ty in
      let* o := held i in
      match o with
      | Some o => store_at i o (mv v) ;;; ret (AVal (Some v))
      | None => ub
      end
  | Mutate i ty v =>
      let* r := cast i ty in
      match r with
      | None => ret ANone
      | Some o => store_at i o v ;;; ret ANone
      end
  | SetVar x ty v =>
      let* s := get in set_vars (setm (vars s) x (Some (ty, v))) ;;; ret ANone
  | EndVar x => let* s := get in set_vars (setm (vars s) x None) ;;; ret ANone
  end.
Fixpoint run (s : st) (os : list op) : option (st * list ans) :=
  match os with
  | [] => Some (s, [])
  | o :: os' =>
      let continue s' a :=
        match run s' os' with Some (s'', rs) => Some (s'', a :: rs) | None => None end in
      match call o s with
      | Ok a s' => continue s' a
      | Throw e s' => continue s' (AThrew e)
      | _ => None
      end
  end.
Definition start : st := mkSt (fun _ => None) 0 (fun _ => None) (fun _ => None).
End Any.
Arguments stored : clear implicits.
Arguments block : clear implicits.
Arguments st : clear implicits.
Arguments source : clear implicits.
Arguments op : clear implicits.
Arguments ans : clear implicits.
