(** mem_istreambuf::xsgetn (itlib/mem_streambuf.hpp 255-266) once more, with addresses: the
    check for the end is done on pointers, gptr() + count > egptr(), and what that gives
    depends on the machine.

    Two machines. On the first, pointers are numbers of [W] bits, sums wrap around, and
    comparisons compare the numbers. The second is the one of the C++ standard: a pointer into
    an array which is moved outside of it (beyond one past the end) is undefined behaviour
    ([expr.add]), and so is memcpy from a null pointer. *)
From Coq Require Import List Arith NArith ZArith Bool.
From Verif Require Import Base VecCommon.
Import ListNotations.

(** * Pointers as numbers *)
Section Flat.
Variable W : N.

(** The memory: a character at every address where there is one which may be read. *)
Record area (C : Type) : Type := mkArea { a_mem : N -> option C; a_eback : N; a_gptr : N; a_egptr : N }.
Context {C : Type}.

Definition padd_flat (p n : N) : N := ((p + n) mod 2 ^ W)%N.

(** memcpy(s, p, n), the characters *)
Fixpoint read_flat (mem : N -> option C) (p : N) (n : nat) : option (list C) :=
  match n with
  | 0 => Some []
  | S n' =>
      match mem p, read_flat mem (padd_flat p 1) n' with
      | Some c, Some l => Some (c :: l)
      | _, _ => None
      end
  end.

(** 255-266 xsgetn; [count] is not negative *)
Definition xsgetn_flat (count : N) : M (area C) (list C) := fun s =>
  let count' :=
    if (a_egptr _ s <? padd_flat (a_gptr _ s) count)%N then (a_egptr _ s - a_gptr _ s)%N else count in
  match read_flat (a_mem _ s) (a_gptr _ s) (N.to_nat count') with
  | None => UB
  | Some l => Ok l (mkArea _ (a_mem _ s) (a_eback _ s) (padd_flat (a_gptr _ s) count') (a_egptr _ s))
  end.
End Flat.
Arguments mkArea {C}.
Arguments a_mem {C} a.
Arguments a_eback {C} a.
Arguments a_gptr {C} a.
Arguments a_egptr {C} a.

(** * Pointers of the standard *)
Section Strict.
Context {C : Type}.

(** reset (223-227) with an array, or, by the default constructor (216), no array; and the
    offset of gptr(). *)
Record sarea : Type := mkSarea { s_mem : option (list C); s_gpos : nat }.

Definition s_size (s : sarea) : nat := match s_mem s with Some l => length l | None => 0 end.

(** eback() + k, gptr() + n: is the result a pointer? *)
Definition inside (s : sarea) (k : Z) : bool :=
  match s_mem s with
  | Some l => (0 <=? k)%Z && (k <=? Z.of_nat (length l))%Z
  | None => (k =? 0)%Z
  end.

(** 255-266 xsgetn *)
Definition xsgetn_strict (count : nat) : M sarea (list C) := fun s =>
  if negb (inside s (Z.of_nat (s_gpos s + count))) then UB else
  let count' := if s_size s <? s_gpos s + count then s_size s - s_gpos s else count in
  match s_mem s with
  | None => UB
  | Some l => Ok (firstn count' (skipn (s_gpos s) l)) (mkSarea (s_mem s) (s_gpos s + count'))
  end.
End Strict.
Arguments sarea : clear implicits.
