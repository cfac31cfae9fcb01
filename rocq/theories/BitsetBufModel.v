(** dynamic_bitset.hpp over the vectors of this library: the buffer is a template argument
    (dynamic_bitset.hpp 147-155), and the functions of BitsetModel.v are written here once
    more, over any family of buffers; then the families of itlib::pod_vector
    (PodVectorModel.v) and of itlib::small_vector (SmallVectorModel.v).

    Simplified as in BitsetModel.v; besides, append of a bitset to itself at a word boundary,
    which inserts the elements of a vector into that vector, is taken to be undefined for
    every buffer. *)
From Coq Require Import List Arith NArith ZArith Bool.
From Verif Require Import Base SeqSpec VecCommon BitsetModel PodVectorModel SmallVectorModel SmallFlatModel.
Import ListNotations.
Open Scope nat_scope.

(** What dynamic_bitset uses of its buffers; the first argument tells which one. *)
Record buffers (F : Type) : Type := mkBuffers {
  f_size : nat -> M F nat;                (* size(), end() - begin(), empty() *)
  f_get : nat -> nat -> M F N;            (* m_buf[k], *(begin() + k), back() *)
  f_put : nat -> nat -> N -> M F unit;    (* m_buf[k] = w *)
  f_resize : nat -> nat -> M F unit;
  f_append : nat -> nat -> M F unit;      (* insert(end(), other.begin(), other.end()) *)
  f_make : nat -> nat -> N -> M F unit;   (* m_buf = Buffer(n, w) *)
  f_assign : nat -> list N -> M F unit;   (* m_buf = buf, for a given buffer *)
  f_copy : nat -> nat -> M F unit;
  f_move : nat -> nat -> M F unit
}.
Arguments f_size {F} b.
Arguments f_get {F} b.
Arguments f_put {F} b.
Arguments f_resize {F} b.
Arguments f_append {F} b.
Arguments f_make {F} b.
Arguments f_assign {F} b.
Arguments f_copy {F} b.
Arguments f_move {F} b.

Section Over.
(** dynamic_bitset.hpp 156: bits_per_word *)
Variable W : nat.
Context {F : Type}.
Variable B : buffers F.

(** The buffers and the m_size of each bitset, 430-432. *)
Definition gst : Type := (F * list nat)%type.
Definition buffer {A} (m : M F A) : M gst A := fun st =>
  match m (fst st) with
  | Ok a f => Ok a (f, snd st)
  | Throw e f => Throw e (f, snd st)
  | UB => UB
  | Diverge => Diverge
  end.
Definition bits (i : nat) : M gst nat := fun st =>
  match nth_error (snd st) i with Some n => Ok n st | None => UB end.
Definition set_bits (i n : nat) : M gst unit := fun st => Ok tt (fst st, upd (snd st) i n).

Definition gword (i k : nat) : M gst N := buffer (f_get B i k).
Definition gset_word (i k : nat) (w : N) : M gst unit := buffer (f_put B i k w).
Definition gsize (i : nat) : M gst nat := buffer (f_size B i).

(** dynamic_bitset.hpp 190-193 test *)
Definition gtest (i p : nat) : M gst bool :=
  let* w := gword i (word_index W p) in
  ret (negb (N.land w (word_mask W p) =? 0)%N).

(** 212-227 any, 229 none *)
Fixpoint gany_loop (i p k : nat) : M gst bool :=
  match k with
  | 0 => ret false
  | S k' =>
      let* w := gword i p in
      if (w =? 0)%N then gany_loop i (S p) k' else ret true
  end.
Definition gany (i : nat) : M gst bool :=
  let* len := gsize i in
  if len =? 0 then ret false else
  let* n := bits i in
  let* b := gany_loop i 0 (n / W) in
  if b then ret true else
  if n / W =? len then ret false else
  let mask := wtrunc W (word_mask W (n mod W) - 1) in
  let* back := gword i (len - 1) in
  ret (negb (N.land back mask =? 0)%N).
Definition gnone (i : nat) : M gst bool := let* b := gany i in ret (negb b).

(** 232-252: set, reset, set to a value, flip *)
Definition gset1 (i p : nat) : M gst unit :=
  let* w := gword i (word_index W p) in
  gset_word i (word_index W p) (N.lor w (word_mask W p)).
Definition greset1 (i p : nat) : M gst unit :=
  let* w := gword i (word_index W p) in
  gset_word i (word_index W p) (N.land w (wnot W (word_mask W p))).
Definition gset_to (i p : nat) (b : bool) : M gst unit := if b then gset1 i p else greset1 i p.
Definition gflip (i p : nat) : M gst unit :=
  let* w := gword i (word_index W p) in
  gset_word i (word_index W p) (N.lxor w (word_mask W p)).

(** 256-265 resize *)
Definition gresize (i size : nat) : M gst unit :=
  let* n := bits i in
  let pad := n mod W in
  (if pad =? 0 then ret tt
   else
     let* len := gsize i in
     let* back := gword i (len - 1) in
     gset_word i (len - 1) (N.land back (wtrunc W (word_mask W pad - 1)))) ;;;
  set_bits i size ;;;
  buffer (f_resize B i (word_size W size)).

(** 266-270 push_back *)
Definition gpush_back (i : nat) (b : bool) : M gst unit :=
  let* n := bits i in
  gresize i (n + 1) ;;;
  let* m := bits i in
  gset_to i (m - 1) b.

(** 272-276 assign(buffer) *)
Definition gassign (i : nat) (ws : list N) : M gst unit :=
  buffer (f_assign B i ws) ;;;
  let* len := gsize i in
  set_bits i (len * W).

(** 278-302 append; [j] may be [i]. *)
Fixpoint gappend_loop (fuel i j k pad myi : nat) : M gst unit :=
  let* len := gsize j in
  if len <=? k then ret tt else
  match fuel with
  | 0 => diverge
  | S fuel' =>
      let* cur := gword j k in
      let* w := gword i myi in
      gset_word i myi (N.lor w (wshl W cur pad)) ;;;
      let* own := gsize i in
      if S myi =? own then ret tt
      else
        gset_word i (S myi) (wshr cur (W - pad)) ;;;
        gappend_loop fuel' i j (S k) pad (S myi)
  end.
Definition gappend (i j : nat) : M gst unit :=
  let* len := gsize j in
  if len =? 0 then ret tt else
  let* n := bits i in
  let pad := n mod W in
  if pad =? 0 then
    buffer (f_append B i j) ;;;
    let* m := bits j in
    set_bits i (n + m)
  else
    let* own := gsize i in
    let* m := bits j in
    gresize i (n + m) ;;;
    let* len' := gsize j in
    gappend_loop len' i j 0 pad (own - 1).

(** Iteration, 327-370: [for (it = begin(); it != end(); ++it) use( *it)]. *)
Fixpoint giterate (fuel i index : nat) : M gst (list bool) :=
  let* n := bits i in
  if index =? n then ret [] else
  match fuel with
  | 0 => diverge
  | S fuel' =>
      let* b := gtest i index in
      let* l := giterate fuel' i (index + 1) in
      ret (b :: l)
  end.

Definition gcall (i : nat) (o : bop) : M gst bans :=
  match o with
  | BTest p => let* b := gtest i p in ret (BaBool b)
  | BSet p => gset1 i p ;;; ret BaNone
  | BReset p => greset1 i p ;;; ret BaNone
  | BSetTo p b => gset_to i p b ;;; ret BaNone
  | BFlip p => gflip i p ;;; ret BaNone
  | BPushBack b => gpush_back i b ;;; ret BaNone
  | BResize n => gresize i n ;;; ret BaNone
  | BAssign ws => gassign i ws ;;; ret BaNone
  | BSize => let* n := bits i in ret (BaNat n)
  | BIterate => let* n := bits i in let* l := giterate n i 0 in ret (BaBits l)
  | BAny => let* b := gany i in ret (BaBool b)
  | BNone => let* b := gnone i in ret (BaBool b)
  end.

(** 159-162 the constructor with a size, and assignment of what it made; 164-178 copying and
    moving (not from itself). *)
Definition gsys (o : bsysop) : M gst bans :=
  match o with
  | BOn i op => gcall i op
  | BNew i n v => buffer (f_make B i (word_size W n) v) ;;; set_bits i n ;;; ret BaNone
  | BAppend i j => gappend i j ;;; ret BaNone
  | BCopyAssign i j =>
      buffer (f_copy B i j) ;;; let* m := bits j in set_bits i m ;;; ret BaNone
  | BMoveAssign i j =>
      buffer (f_move B i j) ;;;
      let* m := bits j in set_bits i m ;;; set_bits j 0 ;;; ret BaNone
  end.

Fixpoint grun (st : gst) (os : list bsysop) : option (gst * list bans) :=
  match os with
  | [] => Some (st, [])
  | o :: os' =>
      match gsys o st with
      | Ok a st' =>
          match grun st' os' with
          | Some (st'', rs) => Some (st'', a :: rs)
          | None => None
          end
      | _ => None
      end
  end.
End Over.

(** * itlib::pod_vector as the buffer *)

(** Words in memory: bytes, the least significant first. *)
Fixpoint to_bytes (k : nat) (w : N) : list N :=
  match k with
  | 0 => []
  | S k' => (w mod 256)%N :: to_bytes k' (w / 256)%N
  end.
Fixpoint of_bytes (l : list N) : N :=
  match l with
  | [] => 0%N
  | b :: l' => (b + 256 * of_bytes l')%N
  end.

Section Pod.
Variable A : alc.
Variable T : ety.

Definition pod_one {R} (f : M pst R) (i : nat) : M pfam R := fun st =>
  match nth_error (snd st) i with
  | None => UB
  | Some v =>
      match f (fst st, v) with
      | Ok r (m, v') => Ok r (m, upd (snd st) i v')
      | Throw e (m, v') => Throw e (m, upd (snd st) i v')
      | UB => UB
      | Diverge => Diverge
      end
  end.

(** operator[], pod_vector.hpp 308-326, and an assignment to what it returns *)
Definition pod_put (k : nat) (x : list N) : M pst unit :=
  let* b := mbegin in
  let* p := padd b (N.of_nat k * N.of_nat (esz T))%N in
  write_bytes p x.

(** A temporary vector, made by [make], used by [use] (its number is the first argument) and
    destroyed (pod_vector.hpp 227-230). *)
Definition with_temporary (make : M pst unit) (use : nat -> M pfam (option nat)) : M pfam unit := fun st =>
  let t := length (snd st) in
  (pod_one make t ;;;
   use t ;;;
   pod_one (pdestructor A T) t ;;;
   (fun st' => Ok tt (fst st', firstn t (snd st')))) (fst st, snd st ++ [init_pv]).

(** pod_vector.hpp 188-192 (count, value), 201-205 (values), 232-255 assignments *)
Definition pod_buffers (early : bool) : buffers pfam := {|
  f_size i := pod_one (psize T) i;
  f_get i k := let* x := pod_one (pat T k) i in ret (of_bytes x);
  f_put i k w := pod_one (pod_put k (to_bytes (esz T) w)) i;
  f_resize i n := pod_one (presize A T (N.of_nat n)) i ;;; ret tt;
  f_append i j :=
    if i =? j then ub else
    let* l := pod_one (pread_all T) j in
    let* n := pod_one (psize T) i in
    pod_one (pinsert_range A T n l) i ;;; ret tt;
  f_make i n w :=
    with_temporary (passign_fill A T (N.of_nat n) (Val (to_bytes (esz T) w)))
      (fun t => psys_call A T early (PMoveAssign i t));
  f_assign i ws :=
    with_temporary (passign_copy A T (map (to_bytes (esz T)) ws))
      (fun t => psys_call A T early (PCopyAssign i t));
  f_copy i j := psys_call A T early (PCopyAssign i j) ;;; ret tt;
  f_move i j := psys_call A T early (PMoveAssign i j) ;;; ret tt
|}.
End Pod.

(** * itlib::small_vector as the buffer *)

Section Small.
(** The template arguments, and how many words the allocator can give. *)
Variable SC RB : nat.
Variable maxn : N.

Notation vec := (@SmallVectorModel.vec N).
Notation keep := (fun w : N => w).

(** *this and a temporary made by [make], assigned from it by [use]; the temporary is
    destroyed (small_vector.hpp 273-281). *)
Definition small_temporary (make : M vec unit) (use : M (vec * vec) unit) (i : nat) : M (list vec) unit :=
  fun st =>
    match nth_error st i with
    | None => UB
    | Some v =>
        match (onR make ;;; use ;;; onR SmallVectorModel.destructor) (v, init_vec SC) with
        | Ok _ (v', _) => Ok tt (upd st i v')
        | Throw e (v', _) => Throw e (upd st i v')
        | UB => UB
        | Diverge => Diverge
        end
    end.

(** small_vector.hpp 237-254 construction from a count and a value, or from values: as assign,
    which begins with destroying the elements, of which there are none; 283-317 assignments *)
Definition small_buffers : buffers (list vec) := {|
  f_size i := on_one msize i;
  f_get i k := on_one (SmallVectorModel.at_ k) i;
  f_put i k w := on_one (small_put N k w) i;
  f_resize i n := on_one (SmallVectorModel.resize keep 0%N SC RB maxn (N.of_nat n)) i;
  f_append i j :=
    if i =? j then ub else
    let* l := on_one read_all j in
    let* n := on_one msize i in
    on_one (SmallVectorModel.insert_range keep SC RB maxn (Z.of_nat n) l) i ;;; ret tt;
  f_make i n w :=
    small_temporary (SmallVectorModel.assign_n SC RB maxn n w) (SmallVectorModel.move_assign keep SC) i;
  f_assign i ws :=
    small_temporary (SmallVectorModel.assign_range SC RB maxn ws) (SmallVectorModel.copy_assign SC RB maxn) i;
  f_copy i j := on_two (SmallVectorModel.copy_assign SC RB maxn) i j ;;; ret tt;
  f_move i j := on_two (SmallVectorModel.move_assign keep SC) i j ;;; ret tt
|}.
End Small.
