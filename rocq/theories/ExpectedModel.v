(** Model of itlib/expected.hpp: the primary template and its five specialisations.

    Any number of objects, addressed by numbers, so that an object can be assigned to
    itself. Which member of the union is alive is explicit: use of a member which is not
    alive, construction over one which is, and the end of an object with a member still
    alive are [UB].

    Simplified: values and errors are abstract; what is left in a moved-from object is
    given by functions; moves do not throw (they are declared noexcept: a throwing one
    ends the program); copies and emplace may throw at will. *)
From Coq Require Import List Arith Bool.
From Verif Require Import Base.
Import ListNotations.

(** The union: which member is alive. *)
Inductive cell (V E : Type) : Type :=
| Dead
| LiveV (v : V)
| LiveE (e : E).
Arguments Dead {V E}.
Arguments LiveV {V E} v.
Arguments LiveE {V E} e.

(** The data members, expected.hpp 302-307, 404-407, 493-496, 627-631, 670, 701. The
    reference specialisations have a pointer and no flag, the others a flag and no pointer;
    [V] is then the type of the addresses of the referenced objects. *)
Record ex (V E : Type) : Type := mkEx { mem : cell V E; flag : bool; ref : option V }.
Arguments mkEx {V E}.
Arguments mem {V E}.
Arguments flag {V E}.
Arguments ref {V E}.

(** How the user's types behave. *)
Record moves (V E : Type) : Type := mkMoves {
  mvV : V -> V;          (* what is left of a value that was moved from *)
  mvE : E -> E;
  selfV : V -> V;        (* and of one that was move-assigned to itself *)
  selfE : E -> E;
  part : V -> V -> V     (* and of the target of a copy assignment which throws *)
}.
Arguments mvV {V E}.
Arguments mvE {V E}.
Arguments selfV {V E}.
Arguments selfE {V E}.
Arguments part {V E}.

Section Prim.
Context {V E : Type}.
Variable U : moves V E.

Definition store : Type := nat -> option (ex V E).

Definition obj (i : nat) : M store (ex V E) := fun s =>
  match s i with Some x => Ok x s | None => UB end.
Definition set_obj (i : nat) (x : ex V E) : M store unit := fun s => Ok tt (setm s i (Some x)).
Definition set_mem (i : nat) (m : cell V E) : M store unit :=
  let* x := obj i in set_obj i (mkEx m (flag x) (ref x)).
Definition set_flag (i : nat) (b : bool) : M store unit :=
  let* x := obj i in set_obj i (mkEx (mem x) b (ref x)).
Definition set_ref (i : nat) (r : option V) : M store unit :=
  let* x := obj i in set_obj i (mkEx (mem x) (flag x) r).

(** m_value *)
Definition read_v (i : nat) : M store V :=
  let* x := obj i in match mem x with LiveV v => ret v | _ => ub end.
Definition new_v (i : nat) (v : V) (throws : bool) : M store unit :=
  let* x := obj i in
  match mem x with
  | Dead => if throws then throw ElemThrow else set_mem i (LiveV v)
  | _ => ub
  end.
Definition del_v (i : nat) : M store unit := read_v i ;;; set_mem i Dead.
(** construction from std::move of object j's value *)
Definition new_v_from (i j : nat) : M store unit :=
  let* v := read_v j in
  set_mem j (LiveV (mvV U v)) ;;;
  new_v i v false.
(** m_value = std::move(other.m_value) *)
Definition assign_v (i j : nat) : M store unit :=
  read_v i ;;;
  let* v := read_v j in
  if i =? j then set_mem i (LiveV (selfV U v))
  else set_mem j (LiveV (mvV U v)) ;;; set_mem i (LiveV v).
(** m_value = other.m_value *)
Definition copy_assign_v (i j : nat) (throws : bool) : M store unit :=
  let* u := read_v i in
  let* v := read_v j in
  if throws then set_mem i (LiveV (part U u v)) ;;; throw ElemThrow
  else set_mem i (LiveV v).

(** m_error *)
Definition read_e (i : nat) : M store E :=
  let* x := obj i in match mem x with LiveE e => ret e | _ => ub end.
Definition new_e (i : nat) (e : E) : M store unit :=
  let* x := obj i in
  match mem x with
  | Dead => set_mem i (LiveE e)
  | _ => ub
  end.
Definition del_e (i : nat) : M store unit := read_e i ;;; set_mem i Dead.
Definition new_e_from (i j : nat) : M store unit :=
  let* e := read_e j in
  set_mem j (LiveE (mvE U e)) ;;;
  new_e i e.
Definition assign_e (i j : nat) : M store unit :=
  read_e i ;;;
  let* e := read_e j in
  if i =? j then set_mem i (LiveE (selfE U e))
  else set_mem j (LiveE (mvE U e)) ;;; set_mem i (LiveE e).

(** Storage for an object, and its end: nothing may be alive in it any more. *)
Definition alloc (i : nat) : M store unit := fun s =>
  match s i with None => Ok tt (setm s i (Some (mkEx Dead false None))) | Some _ => UB end.
Definition release (i : nat) : M store unit := fun s =>
  match s i with
  | Some x => match mem x with Dead => Ok tt (setm s i None) | _ => UB end
  | None => UB
  end.
(** A constructor: if it throws there is no object. *)
Definition constructing (i : nat) (body : M store unit) : M store unit :=
  alloc i ;;;
  fun s => match body s with
           | Throw e s' => match release i s' with Ok _ s'' => Throw e s'' | _ => UB end
           | r => r
           end.

(** What the argument of emplace refers to. *)
Inductive arg : Type :=
| Fresh (v : V)
| OwnValue.

(** The member functions of one specialisation. *)
Record impl : Type := mkImpl {
  ctor_val : nat -> V -> M store unit;
  ctor_err : nat -> E -> M store unit;
  ctor_move : nat -> nat -> M store unit;
  ctor_copy : nat -> nat -> bool -> M store unit;
  assign_move : nat -> nat -> M store unit;
  assign_copy : nat -> nat -> bool -> M store unit;
  dtor : nat -> M store unit;
  has : nat -> M store bool;
  value : nat -> M store V;
  value_rv : nat -> M store V;       (* T x = std::move(e).value() *)
  value_or : nat -> V -> M store V;
  value_or_rv : nat -> V -> M store V;
  error : nat -> M store E;
  error_rv : nat -> M store E;
  clear : nat -> M store unit;
  emplace : nat -> arg -> bool -> M store unit
}.

Definition has_flag (i : nat) : M store bool := let* x := obj i in ret (flag x).
Definition has_ref (i : nat) : M store bool :=
  let* x := obj i in ret (match ref x with Some _ => true | None => false end).
Definition nothing {A} : M store A := ub.   (* no such member *)

(** unexpected_t, 151-162: for an rvalue an object, for an lvalue a reference to it. *)
Inductive unexp : Type :=
| UOwn (e : E)
| URef.
(** unexpected(x), 164-168, and what is left in x *)
Definition make_unexpected (lvalue : bool) (x : E) : unexp * E :=
  if lvalue then (URef, x) else (UOwn x, mvE U x).
(** m_error(std::move(u.m_error)), 186: the error, and what is left in x *)
Definition error_from (u : unexp) (x : E) : E * E :=
  match u with
  | UOwn e => (e, x)
  | URef => (x, mvE U x)
  end.
(** expected(unexpected(x)) *)
Definition ctor_unexpected (i : nat) (make : nat -> E -> M store unit) (lvalue : bool) (x : E)
  : M store E :=
  let '(u, x1) := make_unexpected lvalue x in
  let '(e, x2) := error_from u x1 in
  make i e ;;; ret x2.

(** ** expected<T, E>, 175-308 *)

(** 233-243 *)
Definition te_destroy (i : nat) : M store unit :=
  let* h := has_flag i in if h then del_v i else del_e i.
(** 195-206 *)
Definition te_ctor_move (i j : nat) : M store unit :=
  constructing i (
    let* h := has_flag j in
    set_flag i h ;;;
    if h then new_v_from i j else new_e_from i j).
(** 208-231 *)
Definition te_assign_move (i j : nat) : M store unit :=
  let* a := has_flag i in
  let* b := has_flag j in
  if a && b then assign_v i j
  else if a && negb b then
    set_flag i false ;;; del_v i ;;; new_e_from i j
  else if negb a && b then
    set_flag i true ;;; del_e i ;;; new_v_from i j
  else assign_e i j.
(** 251-300 the accessors; the assertions are part of the precondition *)
Definition mem_value (i : nat) : M store V := read_v i.
Definition mem_value_rv (i : nat) : M store V :=
  let* v := read_v i in set_mem i (LiveV (mvV U v)) ;;; ret v.
Definition mem_value_or (i : nat) (d : V) : M store V :=
  let* h := has_flag i in if h then mem_value i else ret d.
Definition mem_value_or_rv (i : nat) (d : V) : M store V :=
  let* h := has_flag i in if h then mem_value_rv i else ret d.
Definition mem_error (i : nat) : M store E := read_e i.
Definition mem_error_rv (i : nat) : M store E :=
  let* e := read_e i in set_mem i (LiveE (mvE U e)) ;;; ret e.

Definition impl_te : impl := {|
  ctor_val i v := constructing i (set_flag i true ;;; new_v i v false);   (* 181-182 *)
  ctor_err i e := constructing i (set_flag i false ;;; new_e i e);        (* 184-187 *)
  ctor_move := te_ctor_move;
  ctor_copy i j t := nothing;                                            (* 191 deleted *)
  assign_move := te_assign_move;
  assign_copy i j t := nothing;
  dtor i := te_destroy i ;;; release i;
  has := has_flag;                                                       (* 246-248 *)
  value := mem_value;
  value_rv := mem_value_rv;
  value_or := mem_value_or;
  value_or_rv := mem_value_or_rv;
  error := mem_error;
  error_rv := mem_error_rv;
  clear i := nothing;
  emplace i a t := nothing
|}.

(** ** expected<T&, E>, 310-408 *)

(** 328-335 *)
Definition re_ctor_move (i j : nat) : M store unit :=
  constructing i (
    let* x := obj j in
    set_ref i (ref x) ;;;
    let* h := has_ref i in
    if h then ret tt else new_e_from i j).
(** 337-358 *)
Definition re_assign_move (i j : nat) : M store unit :=
  let* a := has_ref i in
  let* b := has_ref j in
  let* y := obj j in
  if a && b then set_ref i (ref y)
  else if a && negb b then set_ref i None ;;; new_e_from i j
  else if negb a && b then set_ref i (ref y) ;;; del_e i
  else assign_e i j.
(** 360-366 *)
Definition re_destroy (i : nat) : M store unit :=
  let* h := has_ref i in if h then ret tt else del_e i.
(** 374-381 *)
Definition ref_value (i : nat) : M store V :=
  let* x := obj i in match ref x with Some a => ret a | None => ub end.
Definition ref_value_or (i : nat) (d : V) : M store V :=
  let* h := has_ref i in if h then ref_value i else ret d.

Definition impl_re : impl := {|
  ctor_val i v := constructing i (set_ref i (Some v));                    (* 316 *)
  ctor_err i e := constructing i (set_ref i None ;;; new_e i e);          (* 318-321 *)
  ctor_move := re_ctor_move;
  ctor_copy i j t := nothing;
  assign_move := re_assign_move;
  assign_copy i j t := nothing;
  dtor i := re_destroy i ;;; release i;
  has := has_ref;
  value := ref_value;
  value_rv := ref_value;
  value_or := ref_value_or;
  value_or_rv := ref_value_or;
  error := mem_error;
  error_rv := mem_error_rv;
  clear i := nothing;
  emplace i a t := nothing
|}.

(** ** expected<void, E>, 410-497 *)

(** 428-435 *)
Definition ve_ctor_move (i j : nat) : M store unit :=
  constructing i (
    let* h := has_flag j in
    set_flag i h ;;;
    if h then ret tt else new_e_from i j).
(** 437-454 *)
Definition ve_assign_move (i j : nat) : M store unit :=
  let* a := has_flag i in
  let* b := has_flag j in
  if a && negb b then set_flag i false ;;; new_e_from i j
  else if negb a && b then set_flag i true ;;; del_e i
  else assign_e i j.
(** 456-462 *)
Definition ve_destroy (i : nat) : M store unit :=
  let* h := has_flag i in if h then ret tt else del_e i.

Definition impl_ve : impl := {|
  ctor_val i v := constructing i (set_flag i true);                       (* 416 *)
  ctor_err i e := constructing i (set_flag i false ;;; new_e i e);        (* 418-421 *)
  ctor_move := ve_ctor_move;
  ctor_copy i j t := nothing;
  assign_move := ve_assign_move;
  assign_copy i j t := nothing;
  dtor i := ve_destroy i ;;; release i;
  has := has_flag;
  value i := nothing;
  value_rv i := nothing;
  value_or i d := nothing;
  value_or_rv i d := nothing;
  error := mem_error;
  error_rv := mem_error_rv;
  clear i := nothing;
  emplace i a t := nothing
|}.

(** ** expected<T, void>, 499-632 *)

(** 510-517 *)
Definition tv_ctor_copy (i j : nat) (throws : bool) : M store unit :=
  constructing i (
    let* h := has_flag j in
    set_flag i h ;;;
    if h then let* v := read_v j in new_v i v throws else ret tt).
(** 518-535 *)
Definition tv_assign_copy (i j : nat) (throws : bool) : M store unit :=
  let* a := has_flag i in
  let* b := has_flag j in
  if a && b then copy_assign_v i j throws
  else if a && negb b then set_flag i false ;;; del_v i
  else if negb a && b then
    set_flag i true ;;;
    let* v := read_v j in new_v i v throws
  else ret tt.
(** 537-544 *)
Definition tv_ctor_move (i j : nat) : M store unit :=
  constructing i (
    let* h := has_flag j in
    set_flag i h ;;;
    if h then new_v_from i j else ret tt).
(** 546-563 *)
Definition tv_assign_move (i j : nat) : M store unit :=
  let* a := has_flag i in
  let* b := has_flag j in
  if a && b then assign_v i j
  else if a && negb b then set_flag i false ;;; del_v i
  else if negb a && b then set_flag i true ;;; new_v_from i j
  else ret tt.
(** 565-571 *)
Definition tv_destroy (i : nat) : M store unit :=
  let* h := has_flag i in if h then del_v i else ret tt.
(** 579-584 *)
Definition tv_clear (i : nat) : M store unit :=
  let* h := has_flag i in
  if h then del_v i ;;; set_flag i false else ret tt.
(** 585-591: the arguments are references, evaluated by the constructor *)
Definition tv_emplace (i : nat) (a : arg) (throws : bool) : M store unit :=
  tv_clear i ;;;
  let* v := (match a with Fresh v => ret v | OwnValue => read_v i end) in
  new_v i v throws ;;;
  set_flag i true.

Definition impl_tv : impl := {|
  ctor_val i v := constructing i (set_flag i true ;;; new_v i v false);   (* 506-507 *)
  ctor_err i e := constructing i (set_flag i false);                      (* 508 *)
  ctor_move := tv_ctor_move;
  ctor_copy := tv_ctor_copy;
  assign_move := tv_assign_move;
  assign_copy := tv_assign_copy;
  dtor i := tv_destroy i ;;; release i;
  has := has_flag;
  value := mem_value;
  value_rv := mem_value_rv;
  value_or := mem_value_or;
  value_or_rv := mem_value_or_rv;
  error i := nothing;
  error_rv i := nothing;
  clear := tv_clear;
  emplace := tv_emplace
|}.

(** ** expected<T&, void>, 634-671: the defaulted members copy the pointer *)
Definition rv_copy (i j : nat) : M store unit :=
  let* y := obj j in set_ref i (ref y).

Definition impl_rv : impl := {|
  ctor_val i v := constructing i (set_ref i (Some v));                    (* 640 *)
  ctor_err i e := constructing i (set_ref i None);                        (* 641 *)
  ctor_move i j := constructing i (rv_copy i j);                          (* 643-646 *)
  ctor_copy i j t := constructing i (rv_copy i j);
  assign_move := rv_copy;
  assign_copy i j t := rv_copy i j;
  dtor := release;
  has := has_ref;
  value := ref_value;
  value_rv := ref_value;
  value_or := ref_value_or;
  value_or_rv := ref_value_or;
  error i := nothing;
  error_rv i := nothing;
  clear i := set_ref i None;                                              (* 654 *)
  emplace i a t :=                                                        (* 655 *)
    let* v := (match a with Fresh v => ret v | OwnValue => ref_value i end) in
    set_ref i (Some v)
|}.

(** ** expected<void, void>, 673-702 *)
Definition vv_copy (i j : nat) : M store unit :=
  let* b := has_flag j in set_flag i b.

Definition impl_vv : impl := {|
  ctor_val i v := constructing i (set_flag i true);                       (* 679 *)
  ctor_err i e := constructing i (set_flag i false);                      (* 680 *)
  ctor_move i j := constructing i (vv_copy i j);                          (* 682-685 *)
  ctor_copy i j t := constructing i (vv_copy i j);
  assign_move := vv_copy;
  assign_copy i j t := vv_copy i j;
  dtor := release;
  has := has_flag;
  value i := nothing;
  value_rv i := nothing;
  value_or i d := nothing;
  value_or_rv i d := nothing;
  error i := nothing;
  error_rv i := nothing;
  clear i := set_flag i false;                                            (* 693 *)
  emplace i a t := set_flag i true                                        (* 694 *)
|}.

(** The specialisations. *)
Inductive kind : Type :=
| TE | RE | VE | TV | RV | VV.    (* <T, E>, <T&, E>, <void, E>, <T, void>, <T&, void>, <void, void> *)
Definition impl_of (k : kind) : impl :=
  match k with
  | TE => impl_te | RE => impl_re | VE => impl_ve
  | TV => impl_tv | RV => impl_rv | VV => impl_vv
  end.

(** * Histories *)
Inductive op : Type :=
| New (i : nat) (v : V)
| NewErr (i : nat) (e : E)
| NewMove (i j : nat)
| NewCopy (i j : nat) (throws : bool)
| Assign (i j : nat)
| CopyAssign (i j : nat) (throws : bool)
| Destroy (i : nat)
| Has (i : nat)
| Value (i : nat)
| ValueRv (i : nat)
| ValueOr (i : nat) (d : V)
| ValueOrRv (i : nat) (d : V)
| Error (i : nat)
| ErrorRv (i : nat)
| Clear (i : nat)
| Emplace (i : nat) (a : arg) (throws : bool).
Inductive ans : Type :=
| ANone
| AThrew
| ABool (b : bool)
| AVal (v : V)
| AErr (e : E).

Definition call (I : impl) (o : op) : M store ans :=
  match o with
  | New i v => ctor_val I i v ;;; ret ANone
  | NewErr i e => ctor_err I i e ;;; ret ANone
  | NewMove i j => ctor_move I i j ;;; ret ANone
  | NewCopy i j t => ctor_copy I i j t ;;; ret ANone
  | Assign i j => assign_move I i j ;;; ret ANone
  | CopyAssign i j t => assign_copy I i j t ;;; ret ANone
  | Destroy i => dtor I i ;;; ret ANone
  | Has i => let* b := has I i in ret (ABool b)
  | Value i => let* v := value I i in ret (AVal v)
  | ValueRv i => let* v := value_rv I i in ret (AVal v)
  | ValueOr i d => let* v := value_or I i d in ret (AVal v)
  | ValueOrRv i d => let* v := value_or_rv I i d in ret (AVal v)
  | Error i => let* e := error I i in ret (AErr e)
  | ErrorRv i => let* e := error_rv I i in ret (AErr e)
  | Clear i => clear I i ;;; ret ANone
  | Emplace i a t => emplace I i a t ;;; ret ANone
  end.
Fixpoint run (I : impl) (s : store) (os : list op) : option (store * list ans) :=
  match os with
  | [] => Some (s, [])
  | o :: os' =>
      let continue s' a :=
        match run I s' os' with Some (s'', rs) => Some (s'', a :: rs) | None => None end in
      match call I o s with
      | Ok a s' => continue s' a
      | Throw _ s' => continue s' AThrew
      | _ => None
      end
  end.
Definition no_objects : store := fun _ => None.
End Prim.
Arguments store : clear implicits.
Arguments impl : clear implicits.
Arguments op : clear implicits.
Arguments ans : clear implicits.
Arguments arg : clear implicits.
