(** Model of /repo/include/itlib/qalgorithm.hpp on the library's own vectors.

    AlgoModel runs the algorithms on a plain sequence.  Here they run on the storage of a
    static_vector, a small_vector and a pod_vector, as these are modelled: slots which hold an
    object or do not, blocks, bytes.  The algorithms are those of AlgoModel, line by line; what
    is new is that elements are read, moved and erased by the container's own members. Moving
    and comparing elements is assumed not to throw; predicates may throw. *)
From Coq Require Import List Arith NArith ZArith Bool.
From Verif Require Import Base SeqSpec VecCommon AlgoModel.
From Verif Require StaticVectorModel StaticMoveModel SmallVectorModel PodVectorModel.
Import ListNotations.

(** What the algorithms use of a container; iterators are positions behind begin(). *)
Record vops (S X : Type) : Type := VOps {
  v_size : M S nat;                         (* end() - begin() *)
  v_read : nat -> M S X;                    (* *it *)
  v_move : nat -> nat -> M S unit;          (* *to = std::move( *from) *)
  v_erase : nat -> M S unit;                (* erase(it) *)
  v_erase_range : nat -> nat -> M S unit    (* erase(first, last) *)
}.
Arguments VOps {S X}.
Arguments v_size {S X}.
Arguments v_read {S X}.
Arguments v_move {S X}.
Arguments v_erase {S X}.
Arguments v_erase_range {S X}.

Section VecAlgo.
Context {S X V : Type}.
Variable A : vops S X.
Variable eqb : X -> V -> bool.
Variable part : X -> V.

Definition vderef (v : value V) : M S V :=
  match v with
  | Outside v => ret v
  | PartOf i => let* x := v_read A i in ret (part x)
  end.
Definition vequals (v : value V) (x : X) : M S bool := let* w := vderef v in ret (eqb x w).
Definition vcall (p : X -> option bool) (x : X) : M S bool :=
  match p x with Some b => ret b | None => throw ElemThrow end.

(** std::find, std::find_if *)
Fixpoint vfind_loop (test : X -> M S bool) (n i : nat) : M S nat :=
  match n with
  | O => ret i
  | Datatypes.S n' =>
      let* x := v_read A i in
      let* b := test x in
      if (b : bool) then ret i else vfind_loop test n' (Datatypes.S i)
  end.
Definition vfind (test : X -> M S bool) : M S nat :=
  let* n := v_size A in vfind_loop test n 0.

(** std::remove, std::remove_if *)
Fixpoint vremove_loop (test : X -> M S bool) (n i result : nat) : M S nat :=
  match n with
  | O => ret result
  | Datatypes.S n' =>
      let* x := v_read A i in
      let* b := test x in
      if (b : bool) then vremove_loop test n' (Datatypes.S i) result
      else (v_move A result i ;;; vremove_loop test n' (Datatypes.S i) (Datatypes.S result))
  end.
Definition vremove (test : X -> M S bool) : M S nat :=
  let* n := v_size A in
  let* f := vfind_loop test n 0 in
  if f =? n then ret f else vremove_loop test (n - Datatypes.S f) (Datatypes.S f) f.

(** qalgorithm.hpp:86-90, 100-104 *)
Definition vqfind (v : value V) : M S nat := vfind (vequals v).
Definition vqfind_if (p : X -> option bool) : M S nat := vfind (vcall p).
(** 92-98, 106-112 *)
Definition vpointer (f : M S nat) : M S (option nat) :=
  let* i := f in let* n := v_size A in
  if i =? n then ret None else (let* x := v_read A i in ret (Some i)).
Definition vpfind (v : value V) : M S (option nat) := vpointer (vfind (vequals v)).
Definition vpfind_if (p : X -> option bool) : M S (option nat) := vpointer (vfind (vcall p)).
(** 114-130 *)
Definition verase_found (f : M S nat) : M S bool :=
  let* i := f in let* n := v_size A in
  if i =? n then ret false else (v_erase A i ;;; ret true).
Definition verase_first (v : value V) : M S bool := verase_found (vqfind v).
Definition verase_first_if (p : X -> option bool) : M S bool := verase_found (vqfind_if p).
(** 132-148 *)
Definition verase_removed (r : M S nat) : M S nat :=
  let* newend := r in let* n := v_size A in
  let result := n - newend in
  v_erase_range A newend n ;;; ret result.
Definition verase_all (v : value V) : M S nat := verase_removed (vremove (vequals v)).
Definition verase_all_if (p : X -> option bool) : M S nat := verase_removed (vremove (vcall p)).
(** 150-167 *)
Definition vqall_of (p : X -> option bool) : M S bool :=
  let* i := vfind (vcall (negated p)) in let* n := v_size A in ret (i =? n).
Definition vqany_of (p : X -> option bool) : M S bool :=
  let* i := vfind (vcall p) in let* n := v_size A in ret (negb (i =? n)).
Definition vqnone_of (p : X -> option bool) : M S bool :=
  let* i := vfind (vcall p) in let* n := v_size A in ret (i =? n).
End VecAlgo.

(** ** The three vectors *)
Section Vectors.
Context {V : Type}.
Variable moved : V -> V.

(** static_vector.hpp:342-370 (begin, end), 520-528 (erase). *)
Definition static_ops (Capacity : nat) : vops (@StaticVectorModel.sv V) V := VOps
  (fun s => Ok (StaticVectorModel.size s) s)
  StaticVectorModel.read
  (fun to from => let* v := StaticVectorModel.move_from moved from in StaticMoveModel.assign_elem to v)
  (fun i => StaticVectorModel.erase moved Capacity i ;;; ret tt)
  (fun i j => StaticVectorModel.erase_range moved Capacity i j ;;; ret tt).

(** [*p = v] for an element of a small_vector: the object assigned to must be alive. *)
Definition small_assign (p : SmallVectorModel.ptr) (v : V) : M (@SmallVectorModel.vec V) unit := fun s =>
  match SmallVectorModel.slot_at p (SmallVectorModel.blocks s) with
  | Some (Live _) => Ok tt (SmallVectorModel.with_blocks (SmallVectorModel.put_slot p (Live v) (SmallVectorModel.blocks s)) s)
  | _ => UB
  end.
(** small_vector.hpp:396-424 (begin, end), 639-648 (erase). *)
Definition small_ops (SC RB : nat) (maxn : N) : vops (@SmallVectorModel.vec V) V := VOps
  SmallVectorModel.msize
  (fun i => let* s := get in SmallVectorModel.read (SmallVectorModel.vb s, i))
  (fun to from =>
     let* s := get in
     let* v := SmallVectorModel.move_from moved (SmallVectorModel.vb s, from) in
     small_assign (SmallVectorModel.vb s, to) v)
  (fun i => SmallVectorModel.erase moved SC RB maxn (Z.of_nat i) ;;; ret tt)
  (fun i j => SmallVectorModel.erase_range moved SC RB maxn (Z.of_nat i) (Z.of_nat j) ;;; ret tt).
End Vectors.

(** pod_vector.hpp:308-326, 573-581: the elements are bytes, and moving one copies its
    bytes. *)
Definition pod_ops (T : PodVectorModel.ety) : vops PodVectorModel.pst (list N) := VOps
  (PodVectorModel.psize T)
  (PodVectorModel.pat T)
  (fun to from =>
     let* x := PodVectorModel.pat T from in
     let* b := PodVectorModel.mbegin in
     let* p := PodVectorModel.padd b (N.of_nat (to * PodVectorModel.esz T)) in
     PodVectorModel.write_bytes p x)
  (fun i => PodVectorModel.perase T i ;;; ret tt)
  (fun i j => PodVectorModel.perase_range T i j ;;; ret tt).
