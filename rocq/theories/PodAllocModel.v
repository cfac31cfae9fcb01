(** Model of /repo/include/itlib/pod_vector.hpp with allocators which are objects: every
    pod_vector has one as its base (150), and memory is to be given back to the allocator it came
    from ("free memory which was allocated here", 87).  The member functions are those of
    PodVectorModel; here are the constructors, the destructor, the assignments and swap, which
    choose the allocator.

    Simplified: allocators are numbers, equal numbers meaning that one can free what the other
    allocated; all vectors have the same element type; constructors from an initializer list are
    those from a range. *)
From Coq Require Import List Arith NArith ZArith Bool.
From Verif Require Import Base SeqSpec VecCommon PodVectorModel.
Import ListNotations.

(** pod_vector.hpp 149-150, 903-906: the vector with its base. *)
Record avec : Type := mkAv { av_al : nat; av_v : pv }.
(** Memory, for each of its blocks the allocator which gave it, and the vectors; [None] is storage
    in which no vector has been constructed. *)
Record avs : Type := mkAvs { av_mem : mem; av_own : list nat; av_slots : list (option avec) }.

(** A block is freed or given another size. *)
Definition altered (x y : mblk) : bool :=
  match x, y with
  | MBlk _ l, MBlk _ l' => negb (length l =? length l')
  | MBlk _ _, MFreed _ => true
  | _, _ => false
  end.
Fixpoint altered_own (al : nat) (own : list nat) (bs bs' : list mblk) : bool :=
  match own, bs, bs' with
  | o :: own1, x :: bs1, y :: bs1' =>
      (negb (altered x y) || (o =? al)) && altered_own al own1 bs1 bs1'
  | _, _, _ => true
  end.

Section Alloc.
Variable A : alc.
Variable T : ety.
Variable early : bool.
(** What is left of an allocator after it was moved from. *)
Variable left_of : nat -> nat.

(** A function on the vector [i] which asks its allocator only.  Undefined: memory of another
    allocator is freed, reallocated or expanded. *)
Definition on_vec {R} (i : nat) (f : M pst R) : M avs R := fun s =>
  match nth_error (av_slots s) i with
  | Some (Some a) =>
      let after m v := mkAvs m (av_own s ++ repeat (av_al a) (length (blks m) - length (av_own s)))
                         (upd (av_slots s) i (Some (mkAv (av_al a) v))) in
      match f (av_mem s, av_v a) with
      | Ok r (m, v) =>
          if altered_own (av_al a) (av_own s) (blks (av_mem s)) (blks m) then Ok r (after m v) else UB
      | Throw e (m, v) =>
          if altered_own (av_al a) (av_own s) (blks (av_mem s)) (blks m) then Throw e (after m v) else UB
      | UB => UB
      | Diverge => Diverge
      end
  | _ => UB
  end.

Definition put_vec (i : nat) (a : option avec) : M avs unit := fun s =>
  Ok tt (mkAvs (av_mem s) (av_own s) (upd (av_slots s) i a)).
Definition the_vec (i : nat) : M avs avec := fun s =>
  match nth_error (av_slots s) i with Some (Some a) => Ok a s | _ => UB end.

(** pod_vector.hpp 175-180 (and 171-173 with the default allocator). *)
Definition v_new (i al : nat) : M avs unit := fun s =>
  match nth_error (av_slots s) i with
  | Some None => put_vec i (Some (mkAv al init_pv)) s
  | _ => UB
  end.
(** 182-186 *)
Definition v_new_count (i al n : nat) : M avs unit :=
  v_new i al ;;; let* r := on_vec i (presize A T (N.of_nat n)) in ret tt.
(** 188-192 *)
Definition v_new_fill (i al n : nat) (x : list N) : M avs unit :=
  v_new i al ;;; on_vec i (passign_fill A T (N.of_nat n) (Val x)).
(** 194-205 *)
Definition v_new_range (i al : nat) (l : list (list N)) : M avs unit :=
  v_new i al ;;; on_vec i (passign_copy A T l).
(** 211-215 *)
Definition v_copy_new_with (i j al : nat) : M avs unit :=
  v_new i al ;;;
  let* l := on_vec j (pread_all T) in
  on_vec i (passign_copy A T l).
(** 207-209, with get_allocator 304-307 *)
Definition v_copy_new (i j : nat) : M avs unit :=
  let* b := the_vec j in
  v_copy_new_with i j (av_al b).
(** 217-225 *)
Definition v_move_new (i j : nat) : M avs unit :=
  let* b := the_vec j in
  v_new i (av_al b) ;;;
  put_vec i (Some (mkAv (av_al b) (av_v b))) ;;;
  put_vec j (Some (mkAv (left_of (av_al b)) init_pv)).
(** 227-230 *)
Definition v_destroy (i : nat) : M avs unit :=
  on_vec i (a_free_begin A T) ;;;
  put_vec i None.
(** 232-238 *)
Definition v_copy_assign (i j : nat) : M avs unit :=
  if i =? j then let* a := the_vec i in ret tt else
  on_vec i pclear ;;;
  let* l := on_vec j (pread_all T) in
  on_vec i (passign_copy A T l).
(** 240-255 *)
Definition v_move_assign (i j : nat) : M avs unit :=
  if i =? j then let* a := the_vec i in ret tt else
  on_vec i (a_free_begin A T) ;;;
  let* b := the_vec j in
  put_vec i (Some (mkAv (av_al b) (av_v b))) ;;;
  put_vec j (Some (mkAv (left_of (av_al b)) init_pv)).
(** 626-631: tmp lives in a place of its own *)
Definition with_tmp (f : nat -> M avs unit) : M avs unit := fun s =>
  let t := length (av_slots s) in
  match f t (mkAvs (av_mem s) (av_own s) (av_slots s ++ [None])) with
  | Ok r s' => Ok r (mkAvs (av_mem s') (av_own s') (firstn t (av_slots s')))
  | Throw e s' => Throw e (mkAvs (av_mem s') (av_own s') (firstn t (av_slots s')))
  | UB => UB
  | Diverge => Diverge
  end.
Definition v_swap (i j : nat) : M avs unit :=
  with_tmp (fun t =>
    v_move_new t j ;;;
    v_move_assign j i ;;;
    v_move_assign i t ;;;
    v_destroy t).
(** 257-264, with the same element type *)
Definition v_recast_copy (i j : nat) : M avs unit :=
  on_vec i pclear ;;;
  let* n := on_vec j (psize T) in
  let* b := on_vec j mbegin in
  let new_size := N.to_nat (e2b T (N.of_nat n) / N.of_nat (esz T))%N in
  let* l := (if new_size =? 0 then ret []
             else let* bytes := on_vec j (read_bytes b (new_size * esz T)) in
                  ret (chunks T new_size bytes)) in
  on_vec i (passign_copy A T l).
(** 266-286, with the same element type *)
Definition v_recast_take (i j : nat) : M avs unit :=
  on_vec i (a_free_begin A T) ;;;
  let* n := on_vec j (psize T) in
  let* b := on_vec j mbegin in
  on_vec i (set_begin b) ;;;
  on_vec i (end_at T (e2b T (N.of_nat n) / N.of_nat (esz T))%N) ;;;
  let* c := on_vec j mcap in
  on_vec i (set_cap (N.to_nat (((N.of_nat (esz T) * N.of_nat c) mod two64) / N.of_nat (esz T))%N)) ;;;
  let* a := the_vec i in
  let* o := the_vec j in
  put_vec i (Some (mkAv (av_al o) (av_v a))) ;;;
  let* o := the_vec j in
  put_vec j (Some (mkAv (if i =? j then av_al o else left_of (av_al o)) init_pv)).

Inductive aop : Type :=
| ANew (i al : nat)
| ANewCount (i al n : nat)
| ANewFill (i al n : nat) (x : list N)
| ANewRange (i al : nat) (l : list (list N))
| ACopyNew (i j : nat)
| ACopyNewWith (i j al : nat)
| AMoveNew (i j : nat)
| ADestroy (i : nat)
| AOn (i : nat) (o : podop)
| ACopyAssign (i j : nat)
| AMoveAssign (i j : nat)
| ASwap (i j : nat)
| ARecastCopy (i j : nat)
| ARecastTake (i j : nat).

Definition a_call (o : aop) : M avs (option nat) :=
  match o with
  | ANew i al => no_answer (v_new i al)
  | ANewCount i al n => no_answer (v_new_count i al n)
  | ANewFill i al n x => no_answer (v_new_fill i al n x)
  | ANewRange i al l => no_answer (v_new_range i al l)
  | ACopyNew i j => no_answer (v_copy_new i j)
  | ACopyNewWith i j al => no_answer (v_copy_new_with i j al)
  | AMoveNew i j => no_answer (v_move_new i j)
  | ADestroy i => no_answer (v_destroy i)
  | AOn i o => on_vec i (pcall A T early o)
  | ACopyAssign i j => no_answer (v_copy_assign i j)
  | AMoveAssign i j => no_answer (v_move_assign i j)
  | ASwap i j => no_answer (v_swap i j)
  | ARecastCopy i j => no_answer (v_recast_copy i j)
  | ARecastTake i j => no_answer (v_recast_take i j)
  end.
End Alloc.
