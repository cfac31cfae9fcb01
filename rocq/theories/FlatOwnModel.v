(** flat_map and flat_set called with arguments which refer into the map or set itself:
    m[m.at(5)] where keys and mapped values are of the same type, and insert of something
    which refers to a part of an element of the same container (flat_map.hpp 285-306,
    338-350, flat_set.hpp 253-274).  The argument is a reference to element [j]; it is read
    where the code reads it: by the lookup, and once more by the constructor of the new
    element, which the container runs inside its emplace.

    Simplified: the argument is not moved from; one element is referred to. *)
From Coq Require Import List Arith NArith ZArith Bool.
From Verif Require Import Base SeqSpec VecCommon FlatModel StaticVectorModel SmallVectorModel.
Import ListNotations.

Section Own.
Context {E K Q C CT : Type}.
Variable key : E -> K.
Variable kq : C -> K -> Q -> bool.
Variable qk : C -> Q -> K -> bool.
Variable cont : container E CT.
(** emplace(begin() + i, args) of the container, [args] referring to element [j], from which
    the constructor makes the new one. *)
Variable emplace_own : nat -> nat -> (E -> E) -> M CT nat.

(** insert(val): flat_map.hpp 285-306, flat_set.hpp 253-274.  [q e]: the key part of an
    argument which refers to element [e]; [make e]: the element which is made from it. *)
Definition insert_own (q : E -> Q) (make : E -> E) (j : nat) : M (flat C CT) (nat * bool) :=
  let* r := elem cont j in
  let* i := lower_bound key kq cont (q r) in
  let* b := present_at key qk cont (q r) i in
  if b then ret (i, false)
  else
    let* p := onc (emplace_own i j make) in
    ret (p, true).
End Own.

Section OwnMap.
Context {K T Q C CT : Type}.
Variable kq : C -> K -> Q -> bool.
Variable qk : C -> Q -> K -> bool.
Variable cont : container (K * T) CT.
Variable emplace_own : nat -> nat -> (K * T -> K * T) -> M CT nat.
Variable conv : Q -> K.
Variable dflt : T.

(** operator[](k): flat_map.hpp 338-350, [k] referring to the part [sel e] of element [e];
    emplace(i, k, mapped_type()) makes Key(k) after the container has made room.  The answer
    is the offset of the element. *)
Definition index_own (sel : K * T -> Q) (j : nat) : M (flat C CT) nat :=
  let* r := elem cont j in
  let* i := lower_bound fst kq cont (sel r) in
  let* b := present_at fst qk cont (sel r) i in
  if b then ret i
  else onc (emplace_own i j (fun e => (conv (sel e), dflt))).
End OwnMap.

(** std::vector::emplace: the standard requires it to cope with arguments which refer to
    elements of the vector. *)
Definition vec_emplace_own {E} (i j : nat) (make : E -> E) : M (list E) nat := fun l =>
  match nth_error l j with
  | Some e => if i <=? length l then Ok i (insert_at l i [make e]) else UB
  | None => UB
  end.

(** static_vector.hpp:512-518 emplace: room is made first, then the constructor reads the
    place the argument refers to. *)
Definition sv_emplace_own {E} (moved : E -> E) (Capacity : nat) (i j : nat) (make : E -> E)
  : M (@sv E) nat :=
  let* pos := StaticVectorModel.grow_at moved Capacity i 1%N in
  let* e := StaticVectorModel.read j in
  StaticVectorModel.tick ;;;
  StaticVectorModel.begin_life pos (make e) ;;;
  ret pos.

(** small_vector.hpp:631-637 emplace: the same, and the place is in the buffer which was in
    use when the argument was made. *)
Definition small_emplace_own {E} (moved : E -> E) (SC RB : nat) (maxn : N) (i j : nat)
  (make : E -> E) : M (@vec E) nat :=
  let* s0 := get in
  let* pos := SmallVectorModel.grow_at moved SC RB maxn (Z.of_nat i) 1%N in
  let* e := SmallVectorModel.read (vb s0, j) in
  SmallVectorModel.tick ;;;
  let* s := get in
  SmallVectorModel.begin_life (vb s, pos) (make e) ;;;
  ret pos.
