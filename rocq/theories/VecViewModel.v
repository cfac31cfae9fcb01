(** Model of /repo/include/itlib/static_vector.hpp and small_vector.hpp as the elements see them: what begin(),
    end() and the storage are like at the moment at which a constructor or a destructor of an element runs.

    Elements have no values here, they are alive or not (C1, C2, C7 and C8 have the values).  Simplified: loops
    over pointers are loops over positions (C115 has the pointers); constructors do not throw and memory does not
    run out (C5, C14); elements look at their vector and do not change it. *)
From Coq Require Import List Arith Bool.
From Verif Require Import Base SeqSpec.
From Verif Require PtrModel.
Import ListNotations.

(** What there is when a constructor or destructor of the object [who] (array and position) runs. *)
Record view : Type := mkView { who : nat * nat; vbegin : nat; vend : nat * nat; lives : nat -> nat -> bool }.

(** Arrays are numbered, number 0 is in the vector itself.  [room]: their sizes, None if given back.
    m_begin is always the beginning of an array; m_end an array and a position. *)
Record st : Type := mkSt {
  live : nat -> nat -> bool;
  room : list (option nat);
  vb : nat;
  ve : nat * nat;
  vcap : nat;
  seen : list view
}.

Definition setl (f : nat -> nat -> bool) (p : nat * nat) (b : bool) : nat -> nat -> bool :=
  fun x y => if (x =? fst p) && (y =? snd p) then b else f x y.
(** A constructor or destructor runs. *)
Definition after (s : st) (p : nat * nat) (b : bool) : st :=
  mkSt (setl (live s) p b) (room s) (vb s) (ve s) (vcap s) (seen s ++ [mkView p (vb s) (ve s) (live s)]).

Definition construct (p : nat * nat) : M st unit := fun s =>
  match nth_error (room s) (fst p) with
  | Some (Some c) => if (snd p <? c) && negb (live s (fst p) (snd p)) then Ok tt (after s p true) else UB
  | _ => UB
  end.
Definition destroy (p : nat * nat) : M st unit := fun s =>
  match nth_error (room s) (fst p) with
  | Some (Some c) => if (snd p <? c) && live s (fst p) (snd p) then Ok tt (after s p false) else UB
  | _ => UB
  end.
(** construct(dst, std::move( *src)) *)
Definition move_to (dst src : nat * nat) : M st unit := fun s =>
  if live s (fst src) (snd src) then construct dst s else UB.

Definition allocate (c : nat) : M st nat := fun s =>
  Ok (length (room s)) (mkSt (live s) (room s ++ [Some c]) (vb s) (ve s) (vcap s) (seen s)).
Definition deallocate (a c : nat) : M st unit := fun s =>
  match a, nth_error (room s) a with
  | S _, Some (Some c') =>
      if c =? c' then Ok tt (mkSt (live s) (upd (room s) a None) (vb s) (ve s) (vcap s) (seen s)) else UB
  | _, _ => UB
  end.
Definition set_end (e : nat * nat) : M st unit := fun s =>
  Ok tt (mkSt (live s) (room s) (vb s) e (vcap s) (seen s)).
Definition set_buf (b : nat) (e : nat * nat) (c : nat) : M st unit := fun s =>
  Ok tt (mkSt (live s) (room s) b e c (seen s)).
(** m_end - m_begin *)
Definition size : M st nat := fun s => if fst (ve s) =? vb s then Ok (snd (ve s)) s else UB.

(** Loops, [k] steps left: destroying; constructing; moving from one place to another; moving and destroying;
    the loop of grow_at which makes room for [num] at [pos]; the loop of shrink_at which closes a hole. *)
Fixpoint destroy_n (a i k : nat) : M st unit :=
  match k with 0 => ret tt | S k' => destroy (a, i) ;;; destroy_n a (S i) k' end.
Fixpoint construct_n (a i k : nat) : M st unit :=
  match k with 0 => ret tt | S k' => construct (a, i) ;;; construct_n a (S i) k' end.
Fixpoint move_n (a i a' i' k : nat) : M st unit :=
  match k with 0 => ret tt | S k' => move_to (a', i') (a, i) ;;; move_n a (S i) a' (S i') k' end.
Fixpoint relocate_n (a i a' i' k : nat) : M st unit :=
  match k with
  | 0 => ret tt
  | S k' => move_to (a', i') (a, i) ;;; destroy (a, i) ;;; relocate_n a (S i) a' (S i') k'
  end.
Fixpoint grow_loop (a pos num k : nat) : M st unit :=
  match k with
  | 0 => ret tt
  | S k' => move_to (a, pos + k' + num) (a, pos + k') ;;; destroy (a, pos + k') ;;; grow_loop a pos num k'
  end.
Fixpoint shrink_loop (a p num k : nat) : M st unit :=
  match k with
  | 0 => ret tt
  | S k' => destroy (a, p) ;;; move_to (a, p) (a, p + num) ;;; shrink_loop a (S p) num k'
  end.

(** * static_vector: m_data is array 0, m_size the position of m_end *)
Section Static.
Variable C : nat.
Definition init_static : st := mkSt (fun _ _ => false) [Some C] 0 (0, 0) C [].
(** static_vector.hpp:429-436 *)
Definition s_clear : M st unit := let* n := size in destroy_n 0 0 n ;;; set_end (0, 0).
(** static_vector.hpp:438-462 *)
Definition s_push : M st unit :=
  let* n := size in throw_if (C <=? n) OutOfRange ;;; construct (0, n) ;;; set_end (0, S n).
(** static_vector.hpp:623-640 grow_at, and the constructions of insert and emplace (464-510) *)
Definition s_insert (pos k : nat) : M st unit :=
  let* n := size in
  throw_if (C <? n + k) OutOfRange ;;;
  (if k =? 0 then ret tt else grow_loop 0 pos k (n - pos) ;;; set_end (0, n + k)) ;;;
  construct_n 0 pos k.
(** static_vector.hpp:642-670 shrink_at *)
Definition s_shrink_at (pos num : nat) : M st unit :=
  let* n := size in
  throw_if (n <? num) OutOfRange ;;;
  if n - num =? 0 then s_clear else
  shrink_loop 0 pos num (n - (pos + num)) ;;; destroy_n 0 (n - num) num ;;; set_end (0, n - num).
(** static_vector.hpp:424-427 *)
Definition s_pop : M st unit := let* n := size in if n =? 0 then ub else s_shrink_at (n - 1) 1.
Fixpoint repeat_n (m : M st unit) (k : nat) : M st unit :=
  match k with 0 => ret tt | S k' => m ;;; repeat_n m k' end.
(** static_vector.hpp:522-550 *)
Definition s_resize (k : nat) : M st unit :=
  throw_if (C <? k) OutOfRange ;;;
  let* n := size in repeat_n s_pop (n - k) ;;; repeat_n s_push (k - n).
(** static_vector.hpp:255-273, 590-621 *)
Definition s_assign (k : nat) : M st unit := s_clear ;;; throw_if (C <? k) OutOfRange ;;; repeat_n s_push k.

Definition s_call (o : vop unit) : M st unit :=
  match o with
  | PushBack _ => s_push
  | PopBack => s_pop
  | Insert pos _ => s_insert pos 1
  | InsertN pos k _ => s_insert pos k
  | InsertRange pos l => s_insert pos (length l)
  | Erase pos => s_shrink_at pos 1
  | EraseRange first last => s_shrink_at first (last - first)
  | Resize k | ResizeVal k _ => s_resize k
  | Clear => s_clear
  | AssignN k _ => s_assign k
  | AssignRange l => s_assign (length l)
  end.
(** Call after call; who calls goes on after std::out_of_range. *)
Fixpoint s_calls (os : list (vop unit)) : M st unit :=
  match os with
  | [] => ret tt
  | o :: os' => fun s => match s_call o s with Throw OutOfRange s' => s_calls os' s' | Ok _ s' => s_calls os' s' | r => r end
  end.
End Static.

(** * small_vector *)
Section Small.
Variable SC RB : nat.    (* StaticCapacity, RevertToStaticBelow *)
Definition init_small : st := mkSt (fun _ _ => false) [Some SC] 0 (0, 0) SC [].

(** small_vector.hpp:956-998 choose_data *)
Definition choose_data (desired : nat) : M st (nat * nat) := fun s =>
  if negb (vb s =? 0) then
    if vcap s <? desired then
      match PtrModel.grown (S desired) (vcap s) desired with
      | None => Diverge
      | Some c' => (let* a := allocate c' in ret (a, c')) s
      end
    else if desired <? RB then Ok (0, SC) s
    else Ok (vb s, vcap s) s
  else if SC <? desired then (let* a := allocate desired in ret (a, desired)) s
  else Ok (vb s, vcap s) s.
(** The memory is given back unless it is the static buffer: 489-493, 799-803 *)
Definition release (a c : nat) : M st unit := if a =? 0 then ret tt else deallocate a c.

(** small_vector.hpp:472-500 *)
Definition reserve (d : nat) : M st unit :=
  let* s := get in
  if d <=? vcap s then ret tt else
  let* cdr := choose_data d in
  let* n := size in
  move_n (vb s) 0 (fst cdr) 0 n ;;;
  destroy_n (vb s) 0 n ;;;
  release (vb s) (vcap s) ;;;
  set_buf (fst cdr) (fst cdr, n) (snd cdr).

(** small_vector.hpp:531-536: the loop of shrink_to_fit; m_end moves on between construction and destruction *)
Fixpoint fit_loop (a i k : nat) : M st unit :=
  match k with
  | 0 => ret tt
  | S k' =>
      let* s := get in
      move_to (ve s) (a, i) ;;; set_end (fst (ve s), S (snd (ve s))) ;;; destroy (a, i) ;;; fit_loop a (S i) k'
  end.
(** small_vector.hpp:507-540 *)
Definition shrink_to_fit : M st unit :=
  let* n := size in
  let* s := get in
  if n =? vcap s then ret tt else
  if vb s =? 0 then ret tt else
  (if n <? SC then set_buf 0 (0, 0) SC
   else let* a := allocate n in set_buf a (a, 0) n) ;;;
  fit_loop (vb s) 0 n ;;;
  deallocate (vb s) (vcap s).
(** small_vector.hpp:545-554 *)
Definition revert_to_static : M st unit :=
  let* n := size in
  let* s := get in
  if vb s =? 0 then ret tt else if SC <? n then ret tt else shrink_to_fit.

(** small_vector.hpp:560-581, 726-732 *)
Definition clear : M st unit :=
  let* n := size in
  let* s := get in
  destroy_n (vb s) 0 n ;;;
  if (0 <? RB) && negb (vb s =? 0) then deallocate (vb s) (vcap s) ;;; set_buf 0 (0, 0) SC
  else set_end (vb s, 0).

(** small_vector.hpp:759-820 grow_at, and the constructions of insert, emplace, push_back (583-673) *)
Definition insert (pos k : nat) : M st unit :=
  let* n := size in
  let* s := get in
  throw_if (n <? pos) OutOfRange ;;;
  let* cdr := choose_data (n + k) in
  (if fst cdr =? vb s then
     set_end (vb s, n + k) ;;; grow_loop (vb s) pos k (n - pos)
   else
     move_n (vb s) 0 (fst cdr) 0 pos ;;;
     move_n (vb s) pos (fst cdr) (pos + k) (n - pos) ;;;
     destroy_n (vb s) 0 n ;;;
     release (vb s) (vcap s) ;;;
     set_buf (fst cdr) (fst cdr, n + k) (snd cdr)) ;;;
  construct_n (fst cdr) pos k.

(** small_vector.hpp:822-888 shrink_at *)
Definition shrink_at (pos num : nat) : M st unit :=
  let* n := size in
  let* s := get in
  throw_if (n <? pos + num) OutOfRange ;;;
  if n - num =? 0 then clear else
  let* cdr := choose_data (n - num) in
  if fst cdr =? vb s then
    shrink_loop (vb s) pos num (n - (pos + num)) ;;;
    destroy_n (vb s) (n - num) num ;;;
    set_end (vb s, n - num)
  else
    relocate_n (vb s) 0 (fst cdr) 0 pos ;;;
    destroy_n (vb s) pos num ;;;
    relocate_n (vb s) (pos + num) (fst cdr) pos (n - (pos + num)) ;;;
    deallocate (vb s) (vcap s) ;;;
    set_buf (fst cdr) (fst cdr, n - num) SC.
(** small_vector.hpp:675-678; end() - 1 of an empty vector *)
Definition pop_back : M st unit := let* n := size in if n =? 0 then ub else shrink_at (n - 1) 1.

(** small_vector.hpp:680-712: destroy(--m_end), construct(m_end++) *)
Fixpoint cut (k : nat) : M st unit :=
  match k with
  | 0 => ret tt
  | S k' => let* s := get in set_end (fst (ve s), snd (ve s) - 1) ;;; destroy (fst (ve s), snd (ve s) - 1) ;;; cut k'
  end.
Fixpoint extend (k : nat) : M st unit :=
  match k with
  | 0 => ret tt
  | S k' => let* s := get in set_end (fst (ve s), S (snd (ve s))) ;;; construct (ve s) ;;; extend k'
  end.
Definition resize (k : nat) : M st unit :=
  reserve k ;;; let* n := size in cut (n - k) ;;; extend (k - n).

(** small_vector.hpp:319-345, 890-950: m_end is set first, and moves on behind every construction; m_begin last *)
Fixpoint assign_loop (k : nat) : M st unit :=
  match k with
  | 0 => ret tt
  | S k' => let* s := get in construct (ve s) ;;; set_end (fst (ve s), S (snd (ve s))) ;;; assign_loop k'
  end.
Definition assign (k : nat) : M st unit :=
  let* n := size in
  let* s := get in
  destroy_n (vb s) 0 n ;;;
  let* cdr := choose_data k in
  set_end (fst cdr, 0) ;;;
  assign_loop k ;;;
  (if negb (vb s =? 0) && negb (vb s =? fst cdr) then deallocate (vb s) (vcap s) else ret tt) ;;;
  let* s' := get in
  set_buf (fst cdr) (ve s') (snd cdr).

Definition call (o : PtrModel.smallop) : M st unit :=
  match o with
  | PtrModel.Seq o =>
      match o with
      | PushBack _ => let* n := size in insert n 1
      | PopBack => pop_back
      | Insert pos _ => insert pos 1
      | InsertN pos k _ => insert pos k
      | InsertRange pos l => insert pos (length l)
      | Erase pos => shrink_at pos 1
      | EraseRange first last => shrink_at first (last - first)
      | Resize k | ResizeVal k _ => resize k
      | Clear => clear
      | AssignN k _ => assign k
      | AssignRange l => assign (length l)
      end
  | PtrModel.Reserve d => reserve d
  | PtrModel.ShrinkToFit => shrink_to_fit
  | PtrModel.RevertToStatic => revert_to_static
  end.
Fixpoint calls (os : list PtrModel.smallop) : M st unit :=
  match os with [] => ret tt | o :: os' => call o ;;; calls os' end.
End Small.
