(** Specification of the vector-like containers: what each call means for a plain list.
    This file knows nothing about storage, buffers or the models. *)
From Coq Require Import List Arith NArith.
From Verif Require Import Base.
Import ListNotations.

(** The calls of a vector.  Positions and ranges are given as offsets from begin(). *)
Inductive vop (V : Type) : Type :=
| PushBack (v : V)                      (* push_back(v), emplace_back(args making v) *)
| PopBack
| Insert (pos : nat) (v : V)            (* insert(pos, v), emplace(pos, args making v) *)
| InsertN (pos n : nat) (v : V)         (* insert(pos, n, v) *)
| InsertRange (pos : nat) (l : list V)  (* insert(pos, first, last), insert(pos, {..}) *)
| Erase (pos : nat)
| EraseRange (first last : nat)
| Resize (n : nat)
| ResizeVal (n : nat) (v : V)
| Clear
| AssignN (n : nat) (v : V)
| AssignRange (l : list V).
Arguments PushBack {V} v.
Arguments PopBack {V}.
Arguments Insert {V} pos v.
Arguments InsertN {V} pos n v.
Arguments InsertRange {V} pos l.
Arguments Erase {V} pos.
Arguments EraseRange {V} first last.
Arguments Resize {V} n.
Arguments ResizeVal {V} n v.
Arguments Clear {V}.
Arguments AssignN {V} n v.
Arguments AssignRange {V} l.

(** What the caller sees: nothing, an iterator (offset from begin()), or an exception. *)
Inductive vret : Type :=
| RNone
| RPos (p : nat)
| RThrow (e : exn).

Section Spec.
Context {V : Type}.
Variable dflt : V.

Definition insert_at (xs : list V) (pos : nat) (ys : list V) : list V :=
  firstn pos xs ++ ys ++ skipn pos xs.
Definition erase_at (xs : list V) (first last : nat) : list V :=
  firstn first xs ++ skipn last xs.
Definition resize_to (xs : list V) (n : nat) (v : V) : list V :=
  firstn n xs ++ repeat v (n - length xs).

(** Is a sequence of this length allowed?  [None] stands for an unbounded container. *)
Definition fits (cap : option nat) (n : nat) : bool :=
  match cap with None => true | Some c => n <=? c end.

(** Result of a call on the sequence [xs]. A bounded container throws out_of_range when
    the result would not fit and keeps its contents, except that assign has already
    emptied it by then. *)
Definition spec_step (cap : option nat) (xs : list V) (o : vop V) : list V * vret :=
  match o with
  | PushBack v =>
      if fits cap (length xs + 1) then (xs ++ [v], RNone) else (xs, RThrow OutOfRange)
  | PopBack =>
      match xs with
      | [] => (xs, RThrow OutOfRange)
      | _ => (removelast xs, RNone)
      end
  | Insert pos v =>
      if fits cap (length xs + 1) then (insert_at xs pos [v], RPos pos)
      else (xs, RThrow OutOfRange)
  | InsertN pos n v =>
      if fits cap (length xs + n) then (insert_at xs pos (repeat v n), RPos pos)
      else (xs, RThrow OutOfRange)
  | InsertRange pos l =>
      if fits cap (length xs + length l) then (insert_at xs pos l, RPos pos)
      else (xs, RThrow OutOfRange)
  | Erase pos => (erase_at xs pos (S pos), RPos pos)
  | EraseRange first last =>
      if last <? first then (xs, RThrow OutOfRange)
      else (erase_at xs first last, RPos first)
  | Resize n =>
      if fits cap n then (resize_to xs n dflt, RNone) else (xs, RThrow OutOfRange)
  | ResizeVal n v =>
      if fits cap n then (resize_to xs n v, RNone) else (xs, RThrow OutOfRange)
  | Clear => ([], RNone)
  | AssignN n v =>
      if fits cap n then (repeat v n, RNone) else ([], RThrow OutOfRange)
  | AssignRange l =>
      if fits cap (length l) then (l, RNone) else ([], RThrow OutOfRange)
  end.

(** The precondition std::vector puts on a call: iterators belong to the vector. *)
Definition in_range (xs : list V) (o : vop V) : Prop :=
  match o with
  | Insert pos _ | InsertN pos _ _ | InsertRange pos _ => pos <= length xs
  | Erase pos => pos < length xs
  | EraseRange first last => first <= length xs /\ last <= length xs
  | _ => True
  end.

(** A history of calls run against the specification, with all the answers. *)
Fixpoint spec_run (cap : option nat) (xs : list V) (os : list (vop V))
  : list V * list vret :=
  match os with
  | [] => (xs, [])
  | o :: os' =>
      let '(xs', r) := spec_step cap xs o in
      let '(xs'', rs) := spec_run cap xs' os' in
      (xs'', r :: rs)
  end.

(** A condition on calls holds all along a history. *)
Fixpoint along (ok : list V -> vop V -> Prop) (cap : option nat) (xs : list V)
  (os : list (vop V)) : Prop :=
  match os with
  | [] => True
  | o :: os' => ok xs o /\ along ok cap (fst (spec_step cap xs o)) os'
  end.

End Spec.

(** * Several containers at once *)

(** A call on the i-th container, or one which involves the i-th and the j-th. *)
Inductive sysop (V : Type) : Type :=
| On (i : nat) (o : vop V)
| CopyAssign (i j : nat)   (* c[i] = c[j] *)
| MoveAssign (i j : nat)   (* c[i] = std::move(c[j]) *)
| SwapOp (i j : nat).      (* c[i].swap(c[j]) *)
Arguments On {V} i o.
Arguments CopyAssign {V} i j.
Arguments MoveAssign {V} i j.
Arguments SwapOp {V} i j.

Section SysSpec.
Context {V : Type}.
Variable dflt : V.
Variable cap : option nat.
(** What a container contains after it was move-assigned from itself. *)
Variable self_move : list V -> list V.

Definition sys_spec_step (cs : list (list V)) (o : sysop V) : list (list V) * vret :=
  match o with
  | On i op =>
      match nth_error cs i with
      | None => (cs, RNone)
      | Some xs => let '(xs', r) := spec_step dflt cap xs op in (upd cs i xs', r)
      end
  | CopyAssign i j =>
      match nth_error cs j with None => (cs, RNone) | Some ys => (upd cs i ys, RNone) end
  | MoveAssign i j =>
      match nth_error cs j with
      | None => (cs, RNone)
      | Some ys => if i =? j then (upd cs i (self_move ys), RNone)
                   else (upd (upd cs i ys) j [], RNone)
      end
  | SwapOp i j =>
      match nth_error cs i, nth_error cs j with
      | Some xs, Some ys => (upd (upd cs i ys) j xs, RNone)
      | _, _ => (cs, RNone)
      end
  end.

(** The containers named exist and the call itself is allowed. *)
Definition sys_ok (ok : list V -> vop V -> Prop) (cs : list (list V)) (o : sysop V) : Prop :=
  match o with
  | On i op => exists xs, nth_error cs i = Some xs /\ ok xs op
  | CopyAssign i j | MoveAssign i j | SwapOp i j => i < length cs /\ j < length cs
  end.

Fixpoint sys_spec_run (cs : list (list V)) (os : list (sysop V))
  : list (list V) * list vret :=
  match os with
  | [] => (cs, [])
  | o :: os' =>
      let '(cs', r) := sys_spec_step cs o in
      let '(cs'', rs) := sys_spec_run cs' os' in
      (cs'', r :: rs)
  end.

Fixpoint sys_along (ok : list V -> vop V -> Prop) (cs : list (list V))
  (os : list (sysop V)) : Prop :=
  match os with
  | [] => True
  | o :: os' => sys_ok ok cs o /\ sys_along ok (fst (sys_spec_step cs o)) os'
  end.
End SysSpec.
