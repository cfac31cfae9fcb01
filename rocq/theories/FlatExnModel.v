(** Model of /repo/include/itlib/flat_map.hpp and flat_set.hpp with comparators which may
    throw: the functions of FlatModel.v once more, with every comparison a call of its own,
    which may end in an exception.  Nothing else differs; [C81_no_throw_same] shows that the
    two models agree when no comparison throws.  The construction from a container is left
    out (an exception from it destroys the container with the object). *)
From Coq Require Import List Arith Bool NArith.
From Verif Require Import Base SeqSpec VecCommon FlatModel.
Import ListNotations.

Section Flat.
Context {E K Q C CT : Type}.
Variable key : E -> K.
(** The comparisons cmp()(element, k) and cmp()(k, element): flat_map.hpp 124-133,
    flat_set.hpp 93-101. *)
Variable kqm : K -> Q -> M (flat C CT) bool.
Variable qkm : Q -> K -> M (flat C CT) bool.
Variable cont : container E CT.
Notation flat := (flat C CT).

(** std::lower_bound, as FlatModel.lower_loop. *)
Fixpoint lower_loop_x (k : Q) (fuel first len : nat) : M flat nat :=
  if len =? 0 then ret first else
  match fuel with
  | 0 => diverge
  | S fuel' =>
      let half := len / 2 in
      let middle := first + half in
      let* e := elem cont middle in
      let* b := kqm (key e) k in
      if (b : bool) then lower_loop_x k fuel' (middle + 1) (len - half - 1)
      else lower_loop_x k fuel' first half
  end.

(** std::upper_bound *)
Fixpoint upper_loop_x (k : Q) (fuel first len : nat) : M flat nat :=
  if len =? 0 then ret first else
  match fuel with
  | 0 => diverge
  | S fuel' =>
      let half := len / 2 in
      let middle := first + half in
      let* e := elem cont middle in
      let* b := qkm k (key e) in
      if (b : bool) then upper_loop_x k fuel' first half
      else upper_loop_x k fuel' (middle + 1) (len - half - 1)
  end.

(** std::equal_range *)
Fixpoint equal_loop_x (k : Q) (fuel first len : nat) : M flat (nat * nat) :=
  if len =? 0 then ret (first, first) else
  match fuel with
  | 0 => diverge
  | S fuel' =>
      let half := len / 2 in
      let middle := first + half in
      let* e := elem cont middle in
      let* b := kqm (key e) k in
      if (b : bool) then equal_loop_x k fuel' (middle + 1) (len - half - 1)
      else
        let* b' := qkm k (key e) in
        if (b' : bool) then equal_loop_x k fuel' first half
        else
          let* lo := lower_loop_x k half first half in
          let* hi := upper_loop_x k (first + len - (middle + 1)) (middle + 1)
                          (first + len - (middle + 1)) in
          ret (lo, hi)
  end.

(** flat_map.hpp 223-257, flat_set.hpp 191-225. *)
Definition lower_bound_x (k : Q) : M flat nat :=
  let* n := size_ cont in lower_loop_x k n 0 n.
Definition upper_bound_x (k : Q) : M flat nat :=
  let* n := size_ cont in upper_loop_x k n 0 n.
Definition equal_range_x (k : Q) : M flat (nat * nat) :=
  let* n := size_ cont in equal_loop_x k n 0 n.

(** i != end() && !cmp()(k, *i) *)
Definition present_at_x (k : Q) (i : nat) : M flat bool :=
  let* n := size_ cont in
  if i =? n then ret false else
  let* e := elem cont i in
  let* b := qkm k (key e) in
  ret (negb b).

(** find: flat_map.hpp 259-277, flat_set.hpp 227-245. *)
Definition find_x (k : Q) : M flat nat :=
  let* i := lower_bound_x k in
  let* b := present_at_x k i in
  if (b : bool) then ret i else size_ cont.

(** count: flat_map.hpp 279-283, flat_set.hpp 247-251. *)
Definition count_x (k : Q) : M flat nat :=
  let* i := find_x k in
  let* n := size_ cont in
  ret (if i =? n then 0 else 1).

(** insert: flat_map.hpp 285-306, flat_set.hpp 253-274. *)
Definition insert_x (q : Q) (e : E) : M flat (nat * bool) :=
  let* i := lower_bound_x q in
  let* b := present_at_x q i in
  if (b : bool) then ret (i, false)
  else
    let* p := emplace_at cont i e in
    ret (p, true).

(** erase(key): flat_map.hpp 325-336, flat_set.hpp 293-304. *)
Definition erase_key_x (k : Q) : M flat nat :=
  let* i := find_x k in
  let* n := size_ cont in
  if i =? n then ret 0
  else erase cont i ;;; ret 1.

Variable asq : E -> Q.

Definition fcall_x {T} (o : fop E Q) : M flat (fret T) :=
  match o with
  | FInsert e => let* r := insert_x (asq e) e in ret (AIns (fst r) (snd r))
  | FInsertAs q e => let* r := insert_x q e in ret (AIns (fst r) (snd r))
  | FEmplace e => let* r := insert_x (asq e) e in ret (AIns (fst r) (snd r))
  | FErase pos => let* p := erase cont pos in ret (AIter p)
  | FEraseKey q => let* n := erase_key_x q in ret (ACount n)
  | FFind q => let* p := find_x q in ret (AIter p)
  | FCount q => let* n := count_x q in ret (ACount n)
  | FLower q => let* p := lower_bound_x q in ret (AIter p)
  | FUpper q => let* p := upper_bound_x q in ret (AIter p)
  | FEqual q => let* r := equal_range_x q in ret (ARange (fst r) (snd r))
  | FClear => clear cont ;;; ret ANone
  | FSize => let* n := size_ cont in ret (ACount n)
  end.
End Flat.

Section FlatMap.
Context {K T Q C CT : Type}.
Variable kqm : K -> Q -> M (flat C CT) bool.
Variable qkm : Q -> K -> M (flat C CT) bool.
Variable cont : container (K * T) CT.
Variable conv : Q -> K.
Variable dflt : T.
Variable asq : K -> Q.

(** operator[]: flat_map.hpp 338-350. *)
Definition index_x (k : Q) : M (flat C CT) nat :=
  let* i := lower_bound_x fst kqm cont k in
  let* b := present_at_x fst qkm cont k i in
  if (b : bool) then ret i
  else emplace_at cont i (conv k, dflt).

(** at: flat_map.hpp 352-372. *)
Definition at_x (k : Q) : M (flat C CT) nat :=
  let* i := lower_bound_x fst kqm cont k in
  let* b := present_at_x fst qkm cont k i in
  if (b : bool) then ret i else throw OutOfRange.

Definition mcall_x (o : mop K T Q) : M (flat C CT) (fret T) :=
  match o with
  | MCommon o' => fcall_x fst kqm qkm cont (fun e => asq (fst e)) o'
  | MIndex q => let* i := index_x q in let* v := second cont i in ret (AVal v)
  | MIndexSet q v => let* i := index_x q in set_second cont i v ;;; ret ANone
  | MAt q => let* i := at_x q in let* v := second cont i in ret (AVal v)
  | MAtSet q v => let* i := at_x q in set_second cont i v ;;; ret ANone
  | MIterSet pos v => set_second cont pos v ;;; ret ANone
  end.
End FlatMap.

(** A comparison which does not throw. *)
Definition calm {A B C CT} (f : C -> A -> B -> bool) (a : A) (b : B) : M (flat C CT) bool :=
  fun s => Ok (f (fcmp s) a b) s.

(** * std::vector when it throws *)

(** libstdc++'s std::vector<E>::emplace before the end with spare capacity
    (bits/vector.tcc, _M_insert_aux): the new element is made first, the last element is
    move constructed one further, [std::move_backward] moves the others up, and the new
    element is move assigned to its place.  [bad k]: the k-th move of them throws, before it
    has changed anything.  After an exception the elements are what the moves left. *)
Fixpoint move_up {E} (moved : E -> E) (pos k : nat) (steps : nat) (l : list E) : list E :=
  (* [k] moves of elements [pos+k-1 .. pos] one up, of which [steps] happen *)
  match k, steps with
  | S k', S n =>
      match nth_error l (pos + k') with
      | Some x => move_up moved pos k' n (upd (upd l (S (pos + k')) x) (pos + k') (moved x))
      | None => l
      end
  | _, _ => l
  end.

Definition vec_insert_x {E} (moved : E -> E) (bad : option nat) (p : nat) (e : E)
  : M (list E) (option nat) := fun l =>
  if length l <? p then UB else
  match bad with
  | None => Ok (Some p) (insert_at l p [e])
  | Some n =>
      if n <=? length l - p then
        (* move n throws: nothing happens at n = 0 (the first move makes the new last
           element), otherwise the last element has been duplicated and n-1 moved up *)
        match n, rev l with
        | 0, _ | _, [] => Throw ElemThrow l
        | S m, x :: _ =>
            Throw ElemThrow
              (move_up moved p (length l - p - 1) m (upd l (length l - 1) (moved x) ++ [x]))
        end
      else Ok (Some p) (insert_at l p [e])
  end.

(** std::vector<E> whose insertions fail as [bad] says, and whose copy assignments throw
    std::bad_alloc if [full] (the vector keeps its elements then). *)
Definition vec_cont_x (E : Type) (moved : E -> E) (bad : option nat) (full : bool)
  : container E (list E) := {|
  c_size := @length E;
  c_get := c_get (vec_cont E);
  c_put := c_put (vec_cont E);
  c_call o := match o with
              | Insert p e => vec_insert_x moved bad p e
              | _ => vec_call o
              end;
  c_copy_assign := fun st => if full then Throw BadAlloc st else Ok tt (snd st, snd st);
  c_move_assign := c_move_assign (vec_cont E);
  c_swap := c_swap (vec_cont E);
  c_equal := c_equal (vec_cont E)
|}.
