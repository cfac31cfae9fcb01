(** What shared ownership means, without counts: a shared pointer owns an object or nothing,
    and an object lives as long as something owns it. *)
From Coq Require Import List Arith Bool.
From Verif Require Import Base SharedModel.
Import ListNotations.

(** There are exactly [n] numbers of this kind. *)
Definition exactly (n : nat) (P : nat -> Prop) : Prop :=
  exists L, NoDup L /\ length L = n /\ forall x, In x L <-> P x.

Section Spec.
Context {V : Type}.
Variable cxx17 : bool.

(** Pointers: the object owned (observed, if weak) and the address pointed to. *)
Record ast : Type := mkA {
  ash : nat -> option (option nat * option addr);
  awk : nat -> option (option nat * option addr);
  aun : nat -> option (option nat);
  kind : nat -> option (V * option nat);     (* value, place of enable_shared_from *)
  anext : nat                                (* objects made so far *)
}.
Definition ainit : ast := mkA (fun _ => None) (fun _ => None) (fun _ => None) (fun _ => None) 0.

Definition owner (a : ast) (o x : nat) : Prop := exists p, ash a x = Some (Some o, p).
Definition owned (a : ast) (o : nat) : Prop := exists x, owner a o x.
Definition alive (a : ast) (o : nat) : Prop := owned a o \/ exists u, aun a u = Some (Some o).

Definition with_ash (a : ast) (x : nat) v : ast := mkA (setm (ash a) x v) (awk a) (aun a) (kind a) (anext a).
Definition with_awk (a : ast) (w : nat) v : ast := mkA (ash a) (setm (awk a) w v) (aun a) (kind a) (anext a).
Definition with_aun (a : ast) (u : nat) v : ast := mkA (ash a) (awk a) (setm (aun a) u v) (kind a) (anext a).
Definition with_obj (a : ast) (k : V * option nat) : ast :=
  mkA (ash a) (awk a) (aun a) (setm (kind a) (anext a) (Some k)) (S (anext a)).

Inductive sstep : ast -> op V -> out V -> ast -> Prop :=
| s_default a x : ash a x = None -> sstep a (Default x) Nothing (with_ash a x (Some (None, None)))
| s_make a x v e : ash a x = None ->
    sstep a (MakeShared x v e) (Object (anext a))
          (with_ash (with_obj a (v, e)) x (Some (Some (anext a), Some (anext a, 0))))
| s_make_unique a u v e : aun a u = None ->
    sstep a (MakeUnique u v e) (Object (anext a)) (with_aun (with_obj a (v, e)) u (Some (Some (anext a))))
| s_drop_unique a u h : aun a u = Some h -> sstep a (DropUnique u) Nothing (with_aun a u None)
| s_adopt a x u o : ash a x = None -> aun a u = Some (Some o) ->
    sstep a (Adopt x u) Nothing (with_ash (with_aun a u (Some None)) x (Some (Some o, Some (o, 0))))
| s_adopt_null a x u : ash a x = None -> aun a u = Some None ->
    sstep a (Adopt x u) Nothing (with_ash a x (Some (None, None)))
| s_copy a x y v : ash a x = None -> ash a y = Some v ->
    sstep a (Copy x y) Nothing (with_ash a x (Some v))
| s_steal a x y v : ash a x = None -> ash a y = Some v ->
    sstep a (Steal x y) Nothing (with_ash (with_ash a y (Some (None, None))) x (Some v))
| s_assign a x y v w : ash a x = Some w -> ash a y = Some v ->
    sstep a (Assign x y) Nothing (with_ash a x (Some v))
| s_reset a x v : ash a x = Some v -> sstep a (Reset x) Nothing (with_ash a x (Some (None, None)))
| s_drop a x v : ash a x = Some v -> sstep a (Drop x) Nothing (with_ash a x None)
| s_std_alias a x y g q p : ash a x = None -> ash a y = Some (g, q) ->
    sstep a (StdAlias x y p) Nothing (with_ash a x (Some (g, p)))
(* make_aliased: null when the owner is empty, otherwise it points to p and owns too *)
| s_aliased a x y o q p : ash a x = None -> ash a y = Some (Some o, q) ->
    sstep a (MakeAliased x y p) Nothing (with_ash a x (Some (Some o, p)))
| s_aliased_null a x y q p : ash a x = None -> ash a y = Some (None, q) ->
    sstep a (MakeAliased x y p) Nothing (with_ash a x (Some (None, None)))
| s_weak_of a w x v : awk a w = None -> ash a x = Some v ->
    sstep a (WeakOf w x) Nothing (with_awk a w (Some v))
| s_weak_drop a w v : awk a w = Some v -> sstep a (WeakDrop w) Nothing (with_awk a w None)
| s_lock a x w o p : ash a x = None -> awk a w = Some (Some o, p) -> owned a o ->
    sstep a (Lock x w) Nothing (with_ash a x (Some (Some o, p)))
| s_lock_dead a x w o p : ash a x = None -> awk a w = Some (Some o, p) -> ~ owned a o ->
    sstep a (Lock x w) Nothing (with_ash a x (Some (None, None)))
| s_lock_empty a x w p : ash a x = None -> awk a w = Some (None, p) ->
    sstep a (Lock x w) Nothing (with_ash a x (Some (None, None)))
(* the members of enable_shared_from, called on a living object *)
| s_this a x o v d : ash a x = None -> kind a o = Some (v, Some d) -> owned a o ->
    sstep a (SharedFromThis x o) Nothing (with_ash a x (Some (Some o, Some (o, d))))
| s_this_none a x o v d : kind a o = Some (v, Some d) -> alive a o -> ~ owned a o ->
    sstep a (SharedFromThis x o) Thrown a
| s_from a x o v d p : ash a x = None -> kind a o = Some (v, Some d) -> owned a o ->
    sstep a (SharedFrom x o p) Nothing (with_ash a x (Some (Some o, p)))
| s_from_none a x o v d p : kind a o = Some (v, Some d) -> alive a o -> ~ owned a o ->
    sstep a (SharedFrom x o p) Thrown a
| s_wthis a w o v d : awk a w = None -> kind a o = Some (v, Some d) -> owned a o ->
    sstep a (WeakFromThis w o) Nothing (with_awk a w (Some (Some o, Some (o, d))))
| s_wthis_none a w o v d : cxx17 = false -> kind a o = Some (v, Some d) -> alive a o -> ~ owned a o ->
    sstep a (WeakFromThis w o) Thrown a
| s_wthis_empty a w o v d : cxx17 = true -> awk a w = None ->
    kind a o = Some (v, Some d) -> alive a o -> ~ owned a o ->
    sstep a (WeakFromThis w o) Nothing (with_awk a w (Some (None, None)))
| s_wfrom a w o v d p : awk a w = None -> kind a o = Some (v, Some d) -> owned a o ->
    sstep a (WeakFrom w o p) Nothing (with_awk a w (Some (Some o, p)))
| s_wfrom_none a w o v d p : kind a o = Some (v, Some d) -> alive a o -> ~ owned a o ->
    sstep a (WeakFrom w o p) Thrown a
(* observers *)
| s_get a x g p : ash a x = Some (g, p) -> sstep a (Get x) (Address p) a
| s_weak_get a w g p : awk a w = Some (g, p) -> sstep a (WeakGet w) (Address p) a
| s_count a x o p n : ash a x = Some (Some o, p) -> exactly n (owner a o) ->
    sstep a (UseCount x) (Number n) a
| s_count_empty a x p : ash a x = Some (None, p) -> sstep a (UseCount x) (Number 0) a
| s_expired a w o p b : awk a w = Some (Some o, p) -> (b = false <-> owned a o) ->
    sstep a (Expired w) (Bool b) a
| s_expired_empty a w p : awk a w = Some (None, p) -> sstep a (Expired w) (Bool true) a
| s_value a o v e : kind a o = Some (v, e) -> alive a o -> sstep a (Value o) (Val v) a.

Inductive ssteps : ast -> list (op V) -> list (out V) -> ast -> Prop :=
| ss_nil a : ssteps a [] [] a
| ss_cons a o x a' os xs a'' : sstep a o x a' -> ssteps a' os xs a'' ->
    ssteps a (o :: os) (x :: xs) a''.

(** The calls a program may make: new names for new pointers, existing ones for the others,
    members of living objects only. *)
Definition made (a : ast) (x : nat) : Prop := ash a x <> None.
Definition member (a : ast) (o : nat) : Prop := alive a o /\ exists v d, kind a o = Some (v, Some d).
Definition legal (a : ast) (c : op V) : Prop :=
  match c with
  | Default x | MakeShared x _ _ => ~ made a x
  | MakeUnique u _ _ => aun a u = None
  | DropUnique u => aun a u <> None
  | Adopt x u => ~ made a x /\ aun a u <> None
  | Copy x y | Steal x y | StdAlias x y _ | MakeAliased x y _ => ~ made a x /\ made a y
  | Assign x y => made a x /\ made a y
  | Reset x | Drop x | Get x | UseCount x => made a x
  | WeakOf w x => awk a w = None /\ made a x
  | WeakDrop w | WeakGet w | Expired w => awk a w <> None
  | Lock x w => ~ made a x /\ awk a w <> None
  | SharedFromThis x o | SharedFrom x o _ => ~ made a x /\ member a o
  | WeakFromThis w o | WeakFrom w o _ => awk a w = None /\ member a o
  | Value o => alive a o
  end.
End Spec.
Arguments ast : clear implicits.
