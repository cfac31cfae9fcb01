(** static_vector, small_vector and flat_map::at under every error handling setting, with and
    without assertions (static_vector.hpp 117-154, small_vector.hpp 159-192, flat_map.hpp
    102-108).  StaticVectorModel, SmallVectorModel and FlatModel fix the default setting with
    assertions compiled out; here every member which has a check is written out again with it,
    and the others are taken from there. *)
From Coq Require Import List Arith NArith ZArith Bool.
From Verif Require Import Base SeqSpec VecCommon StaticVectorModel SmallVectorModel FlatModel.
Import ListNotations.

(** ITLIB_STATIC_VECTOR_ERROR_HANDLING_..., ITLIB_SMALL_VECTOR_ERROR_HANDLING_...:
    static_vector.hpp 120-123, small_vector.hpp 159-162. *)
Inductive handling : Type := HNone | HThrow | HAssert | HAssertAndThrow.

(** [asserts]: NDEBUG is not defined.  [bounds]: ITLIB_..._NO_DEBUG_BOUNDS_CHECK is not
    defined (static_vector.hpp 147-154, small_vector.hpp 187-192). *)
Record config : Type := mkConfig { on_error : handling; asserts : bool; bounds : bool }.

(** What happens to a call: it runs, or an assertion fails and the program is aborted. *)
Inductive ended (S A : Type) : Type :=
| Runs (r : res S A)
| Aborts.
Arguments Runs {S A} r.
Arguments Aborts {S A}.

Definition E (S A : Type) : Type := S -> ended S A.
Definition ebind {S A B} (m : E S A) (k : A -> E S B) : E S B := fun s =>
  match m s with
  | Runs (Ok a s') => k a s'
  | Runs (Throw e s') => Runs (Throw e s')
  | Runs UB => Runs UB
  | Runs Diverge => Runs Diverge
  | Aborts => Aborts
  end.
Definition lift {S A} (m : M S A) : E S A := fun s => Runs (m s).
Notation "'let!' x := e 'in' f" := (ebind e (fun x => f)) (at level 200, x name, e at level 100, f at level 200).
Notation "e ;! f" := (ebind e (fun _ => f)) (at level 61, right associativity).

Definition e_onL {S A} (m : E S A) : E (S * S) A := fun st =>
  match m (fst st) with
  | Runs (Ok a s') => Runs (Ok a (s', snd st))
  | Runs (Throw e s') => Runs (Throw e (s', snd st))
  | Runs UB => Runs UB
  | Runs Diverge => Runs Diverge
  | Aborts => Aborts
  end.
Definition e_flip {S A} (r : ended (S * S) A) : ended (S * S) A :=
  match r with Runs r => Runs (flip_res r) | Aborts => Aborts end.
Definition e_on_one {S A} (m : E S A) (i : nat) : E (list S) A := fun st =>
  match nth_error st i with
  | Some a =>
      match m a with
      | Runs (Ok r a') => Runs (Ok r (upd st i a'))
      | Runs (Throw e a') => Runs (Throw e (upd st i a'))
      | Runs UB => Runs UB
      | Runs Diverge => Runs Diverge
      | Aborts => Aborts
      end
  | None => Runs UB
  end.
Definition e_on_two {S} (m : E (S * S) unit) (i j : nat) : E (list S) (option nat) := fun st =>
  match nth_error st i, nth_error st j with
  | Some a, Some b =>
      match m (a, b) with
      | Runs (Ok _ (a', b')) => Runs (Ok None (upd (upd st i a') j b'))
      | Runs (Throw e (a', b')) => Runs (Throw e (upd (upd st i a') j b'))
      | Runs UB => Runs UB
      | Runs Diverge => Runs Diverge
      | Aborts => Aborts
      end
  | _, _ => Runs UB
  end.
Definition e_no_answer {S A} (m : E S A) : E S (option nat) := m ;! lift (ret None).
Definition e_position_answer {S} (m : E S nat) : E S (option nat) :=
  let! p := m in lift (ret (Some p)).

(** A history of calls, with all the answers. *)
Inductive told (S : Type) : Type :=
| Told (s : S) (rs : list vret)
| Broken                              (* undefined behaviour or an endless loop *)
| Aborted.
Arguments Told {S} s rs.
Arguments Broken {S}.
Arguments Aborted {S}.
Fixpoint e_run_calls {S O} (call : O -> E S (option nat)) (s : S) (os : list O) : told S :=
  match os with
  | [] => Told s []
  | o :: os' =>
      match call o s with
      | Aborts => Aborted
      | Runs r =>
          match observe r with
          | None => Broken
          | Some (s', a) =>
              match e_run_calls call s' os' with
              | Told s'' rs => Told s'' (a :: rs)
              | b => b
              end
          end
      end
  end.

Section Checks.
Variable cfg : config.

(** [assert(c)]. *)
Definition assert_ {S} (c : bool) : E S unit := fun s =>
  if c || negb (asserts cfg) then Runs (Ok tt s) else Aborts.

(** I_ITLIB_STATIC_VECTOR_OUT_OF_RANGE_IF: static_vector.hpp 129-141;
    I_ITLIB_SMALL_VECTOR_OUT_OF_RANGE_IF: small_vector.hpp 169-181. *)
Definition out_of_range_if {S} (c : bool) : E S unit :=
  match on_error cfg with
  | HNone => lift (ret tt)
  | HThrow => lift (throw_if c OutOfRange)
  | HAssert => assert_ (negb c)
  | HAssertAndThrow => if c then assert_ false ;! lift (throw OutOfRange) else lift (ret tt)
  end.

(** I_ITLIB_STATIC_VECTOR_BOUNDS_CHECK, .._ITER: static_vector.hpp 147-154;
    I_ITLIB_SMALL_VECTOR_BOUNDS_CHECK: small_vector.hpp 187-192. *)
Definition bounds_check {S} (c : bool) : E S unit :=
  if bounds cfg then assert_ c else lift (ret tt).
End Checks.

(** * static_vector *)
Module Static.
Import StaticVectorModel.
Section Static.
Context {V : Type}.
Variable moved : V -> V.
Variable dflt : V.
Variable Capacity : nat.
Variable cfg : config.
Notation check := (out_of_range_if cfg).
Notation bounds_check := (bounds_check cfg).

(** static_vector.hpp:289-327 at, operator[], front, back. *)
Definition at_ (i : N) : E (@sv V) V :=
  let! s := lift get in
  bounds_check (i <? N.of_nat (size s))%N ;!
  lift (read (N.to_nat i)).
Definition front : E (@sv V) V := at_ 0%N.
Definition back : E (@sv V) V :=
  let! s := lift get in at_ ((N.of_nat (size s) + (two64 - 1)) mod two64)%N.

(** 438-462 push_back, emplace_back. *)
Definition push_back (x : src V) : E sv unit :=
  let! s := lift get in
  check (Capacity <=? size s) ;!
  lift (construct (size s) x ;;;
        let* s' := get in
        set_size (S (size s'))).

(** 624-639 grow_at. *)
Definition grow_at (position : nat) (by_ : N) : E sv nat :=
  let! s := lift get in
  check (N.of_nat Capacity <? (N.of_nat (size s) + by_) mod two64)%N ;!
  bounds_check (position <=? size s) ;!
  lift (if (by_ =? 0)%N then ret position else
        grow_loop moved position (N.to_nat by_) (size s - position) ;;;
        set_size (N.to_nat ((N.of_nat (size s) + by_) mod two64)) ;;;
        ret position).

(** 641-670 shrink_at.  If [num > size()] goes unnoticed, [position + num] (658) is not
    within the array or one past its end: undefined. *)
Definition shrink_at (position : nat) (num : N) : E sv nat :=
  let! s := lift get in
  check (N.of_nat (size s) <? num)%N ;!
  bounds_check (position <=? size s) ;!
  lift (if (N.of_nat (size s) <? num)%N then ub else
        let n := N.to_nat num in
        if size s - n =? 0 then clear Capacity ;;; ret 0 else
        shrink_loop moved (S Capacity) position (position + n) (size s) ;;;
        destroy_range (S Capacity) (size s - n) (size s) ;;;
        set_size (size s - n) ;;;
        ret position).

(** 424-427 pop_back. *)
Definition pop_back : E sv unit :=
  let! s := lift get in
  shrink_at (size s - 1) 1%N ;!
  lift (ret tt).

(** 464-476 insert(position, val), 512-518 emplace. *)
Definition insert1 (position : nat) (x : src V) : E sv nat :=
  let! pos := grow_at position 1%N in
  lift (construct pos x ;;; ret pos).

(** 478-486 insert(position, count, val). *)
Definition insert_n (position : nat) (count : N) (x : src V) : E sv nat :=
  let! pos := grow_at position count in
  lift (fill_loop pos x (N.to_nat count) ;;; ret pos).

(** 488-510 insert(position, first, last), insert(position, ilist). *)
Definition insert_range (position : nat) (l : list V) : E sv nat :=
  let! pos := grow_at position (N.of_nat (length l)) in
  lift (copy_loop pos l ;;; ret pos).

(** 520-528 erase. *)
Definition erase (position : nat) : E sv nat := shrink_at position 1%N.
Definition erase_range (first last : nat) : E sv nat :=
  shrink_at first ((N.of_nat last + two64 - N.of_nat first) mod two64)%N.

(** 534-537 / 549-552. *)
Fixpoint pop_while (fuel n : nat) : E sv unit :=
  let! s := lift get in
  if n <? size s then
    match fuel with
    | 0 => lift diverge
    | S f => pop_back ;! pop_while f n
    end
  else lift (ret tt).

(** 539-542 / 554-557. *)
Fixpoint push_while (fuel n : nat) (x : src V) : E sv unit :=
  let! s := lift get in
  if size s <? n then
    match fuel with
    | 0 => lift diverge
    | S f => push_back x ;! push_while f n x
    end
  else lift (ret tt).

(** 530-558 resize. *)
Definition resize_val (n : nat) (x : src V) : E sv unit :=
  check (Capacity <? n) ;!
  pop_while (S Capacity) n ;!
  push_while (S Capacity) n x.
Definition resize (n : nat) : E sv unit := resize_val n (CopyOf dflt).

(** 597-600. *)
Fixpoint push_n (k : nat) (x : src V) : E sv unit :=
  match k with
  | 0 => lift (ret tt)
  | S k' => push_back x ;! push_n k' x
  end.

(** 608-611, 618-621. *)
Fixpoint push_list (l : list V) : E sv unit :=
  match l with
  | [] => lift (ret tt)
  | v :: l' => push_back (CopyOf v) ;! push_list l'
  end.

(** 270-287 assign with 593-622. *)
Definition assign_n (count : nat) (v : V) : E sv unit :=
  lift (clear Capacity) ;!
  check (Capacity <? count) ;!
  push_n count (CopyOf v).
Definition assign_range (l : list V) : E sv unit :=
  lift (clear Capacity) ;!
  check (Capacity <? length l) ;!
  push_list l.

(** 241-256 copy assignment. *)
Fixpoint copy_from_loop (i k : nat) : E (sv * sv) unit :=
  match k with
  | 0 => lift (ret tt)
  | S k' =>
      let! v := lift (onR (read i)) in
      e_onL (push_back (CopyOf v)) ;!
      copy_from_loop (S i) k'
  end.
Definition copy_assign : E (sv * sv) unit :=
  lift (onL (clear Capacity)) ;!
  let! st := lift get in
  copy_from_loop 0 (size (snd st)).

(** 258-268 move assignment. *)
Fixpoint move_from_loop (i k : nat) : E (sv * sv) unit :=
  match k with
  | 0 => lift (ret tt)
  | S k' =>
      let! v := lift (onR (move_from moved i)) in
      e_onL (push_back (MoveOf v)) ;!
      move_from_loop (S i) k'
  end.
Definition move_assign : E (sv * sv) unit :=
  lift (onL (clear Capacity)) ;!
  let! st := lift get in
  move_from_loop 0 (size (snd st)) ;!
  lift (onR (clear Capacity)).

(** 560-590 swap. *)
Fixpoint swap_tail (i k : nat) : E (sv * sv) unit :=
  match k with
  | 0 => lift (ret tt)
  | S k' =>
      let! v := lift (onR (move_from moved i)) in
      e_onL (push_back (MoveOf v)) ;!
      lift (onR (destroy i)) ;!
      swap_tail (S i) k'
  end.
Definition swap_short_long : E (sv * sv) unit :=
  let! st := lift get in
  let short_size := size (fst st) in
  lift (swap_loop 0 short_size) ;!
  swap_tail short_size (size (snd st) - short_size) ;!
  lift (onR (set_size short_size)).
Definition swap : E (sv * sv) unit := fun st =>
  if size (fst st) <? size (snd st)
  then swap_short_long st
  else e_flip (swap_short_long (flip_pair st)).

Definition call (o : vop V) : E sv (option nat) :=
  match o with
  | PushBack v => e_no_answer (push_back (CopyOf v))
  | PopBack => e_no_answer pop_back
  | Insert pos v => e_position_answer (insert1 pos (CopyOf v))
  | InsertN pos n v => e_position_answer (insert_n pos (N.of_nat n) (CopyOf v))
  | InsertRange pos l => e_position_answer (insert_range pos l)
  | Erase pos => e_position_answer (erase pos)
  | EraseRange first last => e_position_answer (erase_range first last)
  | Resize n => e_no_answer (resize n)
  | ResizeVal n v => e_no_answer (resize_val n (CopyOf v))
  | Clear => e_no_answer (lift (clear Capacity))
  | AssignN n v => e_no_answer (assign_n n v)
  | AssignRange l => e_no_answer (assign_range l)
  end.

Definition sys_call (o : sysop V) : E (list sv) (option nat) :=
  match o with
  | SeqSpec.On i op => e_on_one (call op) i
  | SeqSpec.CopyAssign i j => if i =? j then lift (on_one (ret None) i) else e_on_two copy_assign i j
  | SeqSpec.MoveAssign i j => if i =? j then lift (on_one (no_answer (self_move_assign Capacity)) i)
                      else e_on_two move_assign i j
  | SeqSpec.SwapOp i j => if i =? j then lift (on_one (ret None) i) else e_on_two swap i j
  end.
End Static.
End Static.

(** * small_vector *)
Module Small.
Import SmallVectorModel.
Section Small.
Context {V : Type}.
Variable moved : V -> V.
Variable dflt : V.
Variable SC RB : nat.
Variable maxn : N.
Variable cfg : config.
Notation check := (out_of_range_if cfg).
Notation assert_ := (assert_ cfg).

(** small_vector.hpp:343-363 at, operator[]. *)
Definition at_ (i : nat) : E (@vec V) V :=
  let! n := lift msize in
  bounds_check cfg (i <? n) ;!
  lift (at_ i).

(** 472-504 reserve, with the assertions of 478 and 479. *)
Definition reserve (new_cap : N) : E vec unit :=
  let! s := lift get in
  if (new_cap <=? N.of_nat (vcap s))%N then lift (ret tt) else
  let! cdr := lift (choose_data SC RB maxn new_cap) in
  assert_ (negb (fst cdr =? vb s)) ;!
  assert_ (negb (fst cdr =? 0)) ;!
  lift (let* n := msize in
        move_range moved (fst cdr) 0 (vb s) 0 n ;;;
        destroy_from (vb s) 0 n ;;;
        (if is_static s then ret tt else deallocate (vb s) (vcap s)) ;;;
        set_buf (fst cdr) (fst cdr, n) (snd cdr)).

(** 759-820 grow_at.  Without a check of the position the rest is only described for a
    position inside the vector. *)
Definition grow_at (position : Z) (num : N) : E vec nat :=
  let! n := lift msize in
  check ((position <? 0) || (Z.of_nat n <? position))%Z ;!
  lift (if ((position <? 0) || (Z.of_nat n <? position))%Z then ub else
        grow_at moved SC RB maxn position num).

(** 822-888 shrink_at, with the assertion of 858. *)
Definition shrink_at (position : Z) (num : N) : E vec nat :=
  let! n := lift msize in
  let bad := ((position <? 0) || (Z.of_nat n <? position)
              || (Z.of_nat n <? position + Z.of_N num))%Z in
  check bad ;!
  if bad then lift ub else
  let pos := Z.to_nat position in
  let! s := lift get in
  let num := N.to_nat num in
  if n - num =? 0 then lift (clear SC RB ;;; ret 0) else
  let! cdr := lift (choose_data SC RB maxn (N.of_nat (n - num))) in
  if fst cdr =? vb s then
    lift (shrink_loop moved (vb s) pos (pos + num) (n - (pos + num)) ;;;
          destroy_from (vb s) (n - num) num ;;;
          set_end (vb s, n - num) ;;;
          ret pos)
  else
    assert_ (fst cdr =? 0) ;!
    lift (relocate_range moved (fst cdr) 0 (vb s) 0 pos ;;;
          destroy_from (vb s) pos num ;;;
          relocate_range moved (fst cdr) pos (vb s) (pos + num) (n - num - pos) ;;;
          deallocate (vb s) (vcap s) ;;;
          set_buf (fst cdr) (fst cdr, n - num) SC ;;;
          ret pos).

(** 583-637 insert, emplace. *)
Definition insert1 (position : Z) (x : vsrc V) : E vec nat :=
  let! pos := grow_at position 1%N in
  lift (let* s := get in construct (vb s, pos) x ;;; ret pos).
Definition insert_n (position : Z) (count : N) (x : vsrc V) : E vec nat :=
  let! pos := grow_at position count in
  lift (let* s := get in fill_loop (vb s) pos x (N.to_nat count) ;;; ret pos).
Definition insert_range (position : Z) (l : list V) : E vec nat :=
  let! pos := grow_at position (N.of_nat (length l)) in
  lift (let* s := get in copy_loop (vb s) pos l ;;; ret pos).

(** 639-648 erase. *)
Definition erase (position : Z) : E vec nat := shrink_at position 1%N.
Definition erase_range (first last : Z) : E vec nat :=
  check (last <? first)%Z ;!
  if (last <? first)%Z then lift ub else shrink_at first (Z.to_N (last - first)).

(** 650-668 push_back, emplace_back; 670-673 pop_back. *)
Definition push_back (x : vsrc V) : E vec unit :=
  let! n := lift msize in
  let! pos := grow_at (Z.of_nat n) 1%N in
  lift (let* s := get in construct (vb s, pos) x).
Definition pop_back : E vec unit :=
  let! n := lift msize in
  shrink_at (Z.of_nat n - 1) 1%N ;!
  lift (ret tt).

(** 675-707 resize. *)
Definition resize_val (n : N) (x : vsrc V) : E vec unit :=
  reserve n ;!
  lift (let* m := msize in
        cut_loop (m - N.to_nat n) ;;;
        let* m := msize in
        extend_loop (N.to_nat n - m) x).
Definition resize (n : N) : E vec unit := resize_val n (CopyOf dflt).

(** The other members have no checks. *)
Definition call (o : @smallop V) : E vec (option nat) :=
  match o with
  | Seq (PushBack v) => e_no_answer (push_back (CopyOf v))
  | Seq PopBack => e_no_answer pop_back
  | Seq (Insert pos v) => e_position_answer (insert1 (Z.of_nat pos) (CopyOf v))
  | Seq (InsertN pos n v) => e_position_answer (insert_n (Z.of_nat pos) (N.of_nat n) (CopyOf v))
  | Seq (InsertRange pos l) => e_position_answer (insert_range (Z.of_nat pos) l)
  | Seq (Erase pos) => e_position_answer (erase (Z.of_nat pos))
  | Seq (EraseRange first last) =>
      e_position_answer (erase_range (Z.of_nat first) (Z.of_nat last))
  | Seq (Resize n) => e_no_answer (resize (N.of_nat n))
  | Seq (ResizeVal n v) => e_no_answer (resize_val (N.of_nat n) (CopyOf v))
  | Reserve n => e_no_answer (reserve (N.of_nat n))
  | _ => lift (call moved dflt SC RB maxn o)
  end.

Definition sys_call (o : @smallsys V) : E (list vec) (option nat) :=
  match o with
  | On i op => e_on_one (call op) i
  | _ => lift (sys_call moved dflt SC RB maxn o)
  end.
End Small.
End Small.

(** * flat_map *)

(** flat_map.hpp:352-372 at, with ITLIB_FLAT_MAP_NO_THROW (102-108) or without it: what it
    gives a reference to. *)
Definition map_at {K T Q C CT : Type} (kq : C -> K -> Q -> bool)
  (qk : C -> Q -> K -> bool) (cont : container (K * T) CT) (no_throw asserts_ : bool) (k : Q) : E (flat C CT) T :=
  let! i := lift (lower_bound fst kq cont k) in
  let! b := lift (present_at fst qk cont k i) in
  (if b then lift (ret tt)
   else if no_throw then (fun s => if asserts_ then Aborts else Runs (Ok tt s))
   else lift (throw OutOfRange)) ;!
  lift (second cont i).
