(** Model of itlib/flat_map.hpp and itlib/flat_set.hpp.

    The two headers have the same text apart from the element type, the comparator of
    flat_map looking at the first half of a pair (fmimpl::pair_compare, flat_map.hpp
    124-133), and at() and operator[], which only flat_map has.  The common part is
    modelled once, for elements of a type [E] with a projection [key] to the key: flat_map
    is [E = K * T], [key = fst]; flat_set is [E = K], [key] the identity.

    Iterators are offsets from begin().  The container is a parameter: a record of the
    operations which the two classes call on it.  The comparator is an object (a value of
    [C]) since swap and the assignments exchange or copy it.

    The standard algorithms are modelled as libstdc++ writes them, reading and writing
    the container step by step; only std::sort is a parameter, of which nothing but what
    the standard promises is assumed (FlatSpec.v).

    Simplified: exceptions come from the container only, a comparator or a constructor of
    the element does not throw; allocators are left out; iterators are not checked for
    invalidation (the results of calls are offsets into the new state). *)
From Coq Require Import List Arith Bool NArith.
From Verif Require Import Base SeqSpec VecCommon StaticVectorModel.
Import ListNotations.

(** What flat_map and flat_set use of their container_type (offsets stand for
    iterators). [c_call] takes the calls emplace/insert, erase and clear. *)
Record container (E CT : Type) : Type := mkContainer {
  c_size : CT -> nat;                      (* end() - begin(), size() *)
  c_get : nat -> M CT E;                   (* *it *)
  c_put : nat -> E -> M CT unit;           (* *it = e *)
  c_call : vop E -> M CT (option nat);
  c_copy_assign : M (CT * CT) unit;
  c_move_assign : M (CT * CT) unit;
  c_swap : M (CT * CT) unit;
  c_equal : (E -> E -> bool) -> M (CT * CT) bool
}.
Arguments c_size {E CT} c.
Arguments c_get {E CT} c.
Arguments c_put {E CT} c.
Arguments c_call {E CT} c.
Arguments c_copy_assign {E CT} c.
Arguments c_move_assign {E CT} c.
Arguments c_swap {E CT} c.
Arguments c_equal {E CT} c.

(** The calls, for histories. *)
Inductive fop (E Q : Type) : Type :=
| FInsert (e : E)             (* insert(e), insert(std::move(e)) *)
| FInsertAs (q : Q) (e : E)   (* insert(p) with p of another type, its key being q, from which e is made *)
| FEmplace (e : E)            (* emplace(args making e) *)
| FErase (pos : nat)          (* erase(begin() + pos) *)
| FEraseKey (q : Q)           (* erase(q) *)
| FFind (q : Q)
| FCount (q : Q)
| FLower (q : Q)
| FUpper (q : Q)
| FEqual (q : Q)              (* equal_range(q) *)
| FClear
| FSize.
Arguments FInsert {E Q} e.
Arguments FInsertAs {E Q} q e.
Arguments FEmplace {E Q} e.
Arguments FErase {E Q} pos.
Arguments FEraseKey {E Q} q.
Arguments FFind {E Q} q.
Arguments FCount {E Q} q.
Arguments FLower {E Q} q.
Arguments FUpper {E Q} q.
Arguments FEqual {E Q} q.
Arguments FClear {E Q}.
Arguments FSize {E Q}.

(** Answers of calls. *)
Inductive fret (T : Type) : Type :=
| ANone
| AIter (p : nat)                 (* an iterator *)
| AIns (p : nat) (b : bool)       (* what insert returns *)
| ARange (p q : nat)              (* two iterators *)
| ACount (n : nat)
| AVal (v : T)                    (* the value a reference refers to *)
| AThrow (e : exn).
Arguments ANone {T}.
Arguments AIter {T} p.
Arguments AIns {T} p b.
Arguments ARange {T} p q.
Arguments ACount {T} n.
Arguments AVal {T} v.
Arguments AThrow {T} e.

Section Flat.
Context {E K Q C CT : Type}.
Variable key : E -> K.
(** The comparator object: key < key, key < lookup key, lookup key < key
    (flat_map.hpp 115-133, flat_set.hpp 93-101). *)
Variable lt : C -> K -> K -> bool.
Variable kq : C -> K -> Q -> bool.
Variable qk : C -> Q -> K -> bool.
Variable cont : container E CT.
(** The value left in an element it was moved from. *)
Variable moved : E -> E.

(** The data members: the comparator (a base class) and m_container
    (flat_map.hpp 136-141, flat_set.hpp 104-108). *)
Record flat : Type := mkFlat { fcmp : C; fcont : CT }.

(** A call on m_container. *)
Definition onc {A} (m : M CT A) : M flat A := fun s =>
  match m (fcont s) with
  | Ok a t => Ok a (mkFlat (fcmp s) t)
  | Throw e t => Throw e (mkFlat (fcmp s) t)
  | UB => UB
  | Diverge => Diverge
  end.
Definition size_ : M flat nat := fun s => Ok (c_size cont (fcont s)) s.
Definition cmp_ : M flat C := fun s => Ok (fcmp s) s.
Definition elem (i : nat) : M flat E := onc (c_get cont i).

(** emplace of the container, whose answer is an iterator. *)
Definition emplace_at (i : nat) (e : E) : M flat nat :=
  let* r := onc (c_call cont (Insert i e)) in
  match r with Some p => ret p | None => ub end.
Definition erase_pos (i : nat) : M flat nat :=
  let* r := onc (c_call cont (Erase i)) in
  match r with Some p => ret p | None => ub end.

(** std::lower_bound(begin()+first, begin()+first+len, k, cmp()), libstdc++'s loop. *)
Fixpoint lower_loop (k : Q) (fuel first len : nat) : M flat nat :=
  if len =? 0 then ret first else
  match fuel with
  | 0 => diverge
  | S fuel' =>
      let half := len / 2 in
      let middle := first + half in
      let* e := elem middle in
      let* c := cmp_ in
      if kq c (key e) k then lower_loop k fuel' (middle + 1) (len - half - 1)
      else lower_loop k fuel' first half
  end.

(** std::upper_bound *)
Fixpoint upper_loop (k : Q) (fuel first len : nat) : M flat nat :=
  if len =? 0 then ret first else
  match fuel with
  | 0 => diverge
  | S fuel' =>
      let half := len / 2 in
      let middle := first + half in
      let* e := elem middle in
      let* c := cmp_ in
      if qk c k (key e) then upper_loop k fuel' first half
      else upper_loop k fuel' (middle + 1) (len - half - 1)
  end.

(** std::equal_range *)
Fixpoint equal_loop (k : Q) (fuel first len : nat) : M flat (nat * nat) :=
  if len =? 0 then ret (first, first) else
  match fuel with
  | 0 => diverge
  | S fuel' =>
      let half := len / 2 in
      let middle := first + half in
      let* e := elem middle in
      let* c := cmp_ in
      if kq c (key e) k then equal_loop k fuel' (middle + 1) (len - half - 1)
      else if qk c k (key e) then equal_loop k fuel' first half
      else
        let* lo := lower_loop k half first half in
        let* hi := upper_loop k (first + len - (middle + 1)) (middle + 1)
                        (first + len - (middle + 1)) in
        ret (lo, hi)
  end.

(** lower_bound: flat_map.hpp 223-233, flat_set.hpp 191-201. *)
Definition lower_bound (k : Q) : M flat nat :=
  let* n := size_ in lower_loop k n 0 n.
(** upper_bound: flat_map.hpp 235-245, flat_set.hpp 203-213. *)
Definition upper_bound (k : Q) : M flat nat :=
  let* n := size_ in upper_loop k n 0 n.
(** equal_range: flat_map.hpp 247-257, flat_set.hpp 215-225. *)
Definition equal_range (k : Q) : M flat (nat * nat) :=
  let* n := size_ in equal_loop k n 0 n.

(** The test which the lookups share: i != end() && !cmp()(k, *i). *)
Definition present_at (k : Q) (i : nat) : M flat bool :=
  let* n := size_ in
  if i =? n then ret false else
  let* e := elem i in
  let* c := cmp_ in
  ret (negb (qk c k (key e))).

(** find: flat_map.hpp 259-277, flat_set.hpp 227-245. *)
Definition find (k : Q) : M flat nat :=
  let* i := lower_bound k in
  let* b := present_at k i in
  if b then ret i else size_.

(** count: flat_map.hpp 279-283, flat_set.hpp 247-251. *)
Definition count (k : Q) : M flat nat :=
  let* i := find k in
  let* n := size_ in
  ret (if i =? n then 0 else 1).

(** insert, of an element [e] made from an argument whose key part is [q]:
    flat_map.hpp 285-306, flat_set.hpp 253-274. *)
Definition insert (q : Q) (e : E) : M flat (nat * bool) :=
  let* i := lower_bound q in
  let* b := present_at q i in
  if b then ret (i, false)
  else
    let* p := emplace_at i e in
    ret (p, true).

(** erase(iterator): flat_map.hpp 315-323, flat_set.hpp 283-291. *)
Definition erase (pos : nat) : M flat nat := erase_pos pos.

(** erase(key): flat_map.hpp 325-336, flat_set.hpp 293-304. *)
Definition erase_key (k : Q) : M flat nat :=
  let* i := find k in
  let* n := size_ in
  if i =? n then ret 0
  else erase i ;;; ret 1.

(** clear: flat_map.hpp 221, flat_set.hpp 189. *)
Definition clear : M flat unit := onc (c_call cont Clear) ;;; ret tt.

(** swap: flat_map.hpp 374-378, flat_set.hpp 306-310. *)
Definition swap : M (flat * flat) unit := fun st =>
  match c_swap cont (fcont (fst st), fcont (snd st)) with
  | Ok _ (a, b) => Ok tt (mkFlat (fcmp (snd st)) a, mkFlat (fcmp (fst st)) b)
  | Throw e (a, b) => Throw e (mkFlat (fcmp (snd st)) a, mkFlat (fcmp (fst st)) b)
  | UB => UB
  | Diverge => Diverge
  end.

(** The defaulted copy and move assignment: the base class, then the member
    (flat_map.hpp 197-201, flat_set.hpp 163-167).  A moved-from comparator keeps its
    value. *)
Definition copy_assign : M (flat * flat) unit := fun st =>
  match c_copy_assign cont (fcont (fst st), fcont (snd st)) with
  | Ok _ (a, b) => Ok tt (mkFlat (fcmp (snd st)) a, mkFlat (fcmp (snd st)) b)
  | Throw e (a, b) => Throw e (mkFlat (fcmp (snd st)) a, mkFlat (fcmp (snd st)) b)
  | UB => UB
  | Diverge => Diverge
  end.
Definition move_assign : M (flat * flat) unit := fun st =>
  match c_move_assign cont (fcont (fst st), fcont (snd st)) with
  | Ok _ (a, b) => Ok tt (mkFlat (fcmp (snd st)) a, mkFlat (fcmp (snd st)) b)
  | Throw e (a, b) => Throw e (mkFlat (fcmp (snd st)) a, mkFlat (fcmp (snd st)) b)
  | UB => UB
  | Diverge => Diverge
  end.

(** operator== and operator!=: flat_map.hpp 392-402, flat_set.hpp 324-334. *)
Definition equal (eqb : E -> E -> bool) (a b : flat) : res (CT * CT) bool :=
  c_equal cont eqb (fcont a, fcont b).
Definition not_equal (eqb : E -> E -> bool) (a b : flat) : res (CT * CT) bool :=
  match equal eqb a b with
  | Ok r s => Ok (negb r) s
  | x => x
  end.

(** * Construction from a container *)

Fixpoint read_all (i k : nat) : M flat (list E) :=
  match k with
  | 0 => ret []
  | S k' => let* e := elem i in let* l := read_all (S i) k' in ret (e :: l)
  end.
Fixpoint write_all (i : nat) (l : list E) : M flat unit :=
  match l with
  | [] => ret tt
  | e :: l' => onc (c_put cont i e) ;;; write_all (S i) l'
  end.

(** The lambda given to std::unique: flat_map.hpp 173-175, flat_set.hpp 139-141. *)
Definition same_class (c : C) (a b : E) : bool :=
  negb (lt c (key a) (key b)) && negb (lt c (key b) (key a)).

(** std::unique(begin(), end(), same_class): [dest] is the last element kept, [i] the
    element looked at; no element is assigned to itself. *)
Fixpoint unique_loop (dest i k : nat) : M flat nat :=
  match k with
  | 0 => ret (dest + 1)
  | S k' =>
      let* a := elem dest in
      let* b := elem i in
      let* c := cmp_ in
      if same_class c a b then unique_loop dest (i + 1) k'
      else
        (if dest + 1 =? i then ret tt
         else onc (c_put cont i (moved b)) ;;; onc (c_put cont (dest + 1) b)) ;;;
        unique_loop (dest + 1) (i + 1) k'
  end.
Definition unique : M flat nat :=
  let* n := size_ in
  if n =? 0 then ret 0 else unique_loop 0 1 (n - 1).

(** std::sort: given the comparator and the elements, the elements in the order in which
    it leaves them. *)
Variable sort : (E -> E -> bool) -> list E -> list E.

(** flat_map(container_type, comp), flat_set(container_type, comp); the constructors from
    a range and from an initializer list delegate to it (flat_map.hpp 168-195,
    flat_set.hpp 134-161). *)
Definition construct_body : M flat unit :=
  let* n := size_ in
  let* l := read_all 0 n in
  let* c := cmp_ in
  write_all 0 (sort (fun a b => lt c (key a) (key b)) l) ;;;
  let* new_end := unique in
  let* m := size_ in
  onc (c_call cont (EraseRange new_end m)) ;;;
  ret tt.
Definition construct (c : C) (t : CT) : res flat unit := construct_body (mkFlat c t).

(** * Histories *)

(** [asq e]: the key of the element, as a lookup key (insert looks for val.first). *)
Variable asq : E -> Q.

Definition fcall {T} (o : fop E Q) : M flat (fret T) :=
  match o with
  | FInsert e => let* r := insert (asq e) e in ret (AIns (fst r) (snd r))
  | FInsertAs q e => let* r := insert q e in ret (AIns (fst r) (snd r))
  (* emplace: flat_map.hpp 308-313, flat_set.hpp 276-281 *)
  | FEmplace e => let* r := insert (asq e) e in ret (AIns (fst r) (snd r))
  | FErase pos => let* p := erase pos in ret (AIter p)
  | FEraseKey q => let* n := erase_key q in ret (ACount n)
  | FFind q => let* p := find q in ret (AIter p)
  | FCount q => let* n := count q in ret (ACount n)
  | FLower q => let* p := lower_bound q in ret (AIter p)
  | FUpper q => let* p := upper_bound q in ret (AIter p)
  | FEqual q => let* r := equal_range q in ret (ARange (fst r) (snd r))
  | FClear => clear ;;; ret ANone
  | FSize => let* n := size_ in ret (ACount n)
  end.

End Flat.
Arguments mkFlat {C CT} fcmp fcont.
Arguments fcmp {C CT} f.
Arguments fcont {C CT} f.
Arguments flat : clear implicits.

(** * What only flat_map has *)

Inductive mop (K T Q : Type) : Type :=
| MCommon (o : fop (K * T) Q)
| MIndex (q : Q)               (* read of m[q] *)
| MIndexSet (q : Q) (v : T)    (* m[q] = v *)
| MAt (q : Q)                  (* read of m.at(q) *)
| MAtSet (q : Q) (v : T)       (* m.at(q) = v *)
| MIterSet (pos : nat) (v : T). (* (begin() + pos)->second = v *)
Arguments MCommon {K T Q} o.
Arguments MIndex {K T Q} q.
Arguments MIndexSet {K T Q} q v.
Arguments MAt {K T Q} q.
Arguments MAtSet {K T Q} q v.
Arguments MIterSet {K T Q} pos v.

Section FlatMap.
Context {K T Q C CT : Type}.
Variable kq : C -> K -> Q -> bool.
Variable qk : C -> Q -> K -> bool.
Variable cont : container (K * T) CT.
(** Key(std::forward<K>(k)) and mapped_type(). *)
Variable conv : Q -> K.
Variable dflt : T.
(** A key as a lookup key. *)
Variable asq : K -> Q.

(** operator[]: flat_map.hpp 338-350; the reference is given by the element's offset. *)
Definition index (k : Q) : M (flat C CT) nat :=
  let* i := lower_bound fst kq cont k in
  let* b := present_at fst qk cont k i in
  if b then ret i
  else emplace_at cont i (conv k, dflt).

(** at: flat_map.hpp 352-372 (with exceptions enabled). *)
Definition at_ (k : Q) : M (flat C CT) nat :=
  let* i := lower_bound fst kq cont k in
  let* b := present_at fst qk cont k i in
  if b then ret i else throw OutOfRange.

(** Reading and assigning the mapped value of an element. *)
Definition second (i : nat) : M (flat C CT) T :=
  let* e := elem cont i in ret (snd e).
Definition set_second (i : nat) (v : T) : M (flat C CT) unit :=
  let* e := elem cont i in onc (c_put cont i (fst e, v)).

Definition mcall (o : mop K T Q) : M (flat C CT) (fret T) :=
  match o with
  | MCommon o' => fcall fst kq qk cont (fun e => asq (fst e)) o'
  | MIndex q => let* i := index q in let* v := second i in ret (AVal v)
  | MIndexSet q v => let* i := index q in set_second i v ;;; ret ANone
  | MAt q => let* i := at_ q in let* v := second i in ret (AVal v)
  | MAtSet q v => let* i := at_ q in set_second i v ;;; ret ANone
  | MIterSet pos v => set_second pos v ;;; ret ANone
  end.
End FlatMap.

(** * Several maps or sets *)

Inductive fsysop (O : Type) : Type :=
| FOn (i : nat) (o : O)
| FCopyAssign (i j : nat)
| FMoveAssign (i j : nat)
| FSwap (i j : nat).
Arguments FOn {O} i o.
Arguments FCopyAssign {O} i j.
Arguments FMoveAssign {O} i j.
Arguments FSwap {O} i j.

Definition no_fret {S T} (m : M S (option nat)) : M S (fret T) := m ;;; ret ANone.

Definition fsys {E C CT O T} (cont : container E CT) (call : O -> M (flat C CT) (fret T))
  (o : fsysop O) : M (list (flat C CT)) (fret T) :=
  match o with
  | FOn i op => on_one (call op) i
  | FCopyAssign i j => no_fret (on_two (copy_assign cont) i j)
  | FMoveAssign i j => no_fret (on_two (move_assign cont) i j)
  | FSwap i j => no_fret (on_two (swap cont) i j)
  end.

(** What the caller sees of a call, and a history of calls. *)
Definition fobserve {S T} (r : res S (fret T)) : option (S * fret T) :=
  match r with
  | Ok a s => Some (s, a)
  | Throw e s => Some (s, AThrow e)
  | UB => None
  | Diverge => None
  end.
Fixpoint frun {S O T} (call : O -> M S (fret T)) (s : S) (os : list O)
  : option (S * list (fret T)) :=
  match os with
  | [] => Some (s, [])
  | o :: os' =>
      match fobserve (call o s) with
      | None => None
      | Some (s', r) =>
          match frun call s' os' with
          | None => None
          | Some (s'', rs) => Some (s'', r :: rs)
          end
      end
  end.

(** * Containers *)

(** std::vector: a list; memory exhaustion is not modelled. *)
Definition vec_call {E} (o : vop E) : M (list E) (option nat) := fun l =>
  match o with
  | Insert p e => if p <=? length l then Ok (Some p) (insert_at l p [e]) else UB
  | Erase p => if p <? length l then Ok (Some p) (erase_at l p (S p)) else UB
  | EraseRange a b =>
      if (a <=? b) && (b <=? length l) then Ok (Some a) (erase_at l a b) else UB
  | Clear => Ok None []
  | _ => UB   (* not called by flat_map and flat_set *)
  end.
Fixpoint list_eqb {E} (eqb : E -> E -> bool) (a b : list E) : bool :=
  match a, b with
  | [], [] => true
  | x :: a', y :: b' => eqb x y && list_eqb eqb a' b'
  | _, _ => false
  end.
Definition vec_cont (E : Type) : container E (list E) := {|
  c_size := @length E;
  c_get i := fun l => match nth_error l i with Some e => Ok e l | None => UB end;
  c_put i e := fun l => if i <? length l then Ok tt (upd l i e) else UB;
  c_call := vec_call;
  c_copy_assign := fun st => Ok tt (snd st, snd st);
  c_move_assign := fun st => Ok tt (snd st, []);
  c_swap := fun st => Ok tt (snd st, fst st);
  c_equal eqb := fun st => Ok (list_eqb eqb (fst st) (snd st)) st
|}.

(** itlib::static_vector, the model of StaticVectorModel.v. *)
Definition sv_put {E} (i : nat) (e : E) : M (@sv E) unit := fun s =>
  match nth_error (data s) i with
  | Some (Live _) => Ok tt (with_data (upd (data s) i (Live e)) s)
  | _ => UB
  end.
Definition sv_cont (E : Type) (moved : E -> E) (dflt : E) (Capacity : nat)
  : container E (@sv E) := {|
  c_size := @StaticVectorModel.size E;
  c_get i := StaticVectorModel.at_ i;
  c_put := sv_put;
  c_call := StaticVectorModel.call moved dflt Capacity;
  c_copy_assign := StaticVectorModel.copy_assign Capacity;
  c_move_assign := StaticVectorModel.move_assign moved Capacity;
  c_swap := StaticVectorModel.swap moved Capacity;
  c_equal := StaticVectorModel.equal
|}.
