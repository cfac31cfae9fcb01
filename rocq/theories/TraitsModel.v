(** Model of is_noop_convertible (include/itlib/type_traits.hpp 78-90), and of owner_from_member and
    bit_cast (include/itlib/utility.hpp 76-96).

    Scalar types, their values, the bytes of a value (as a number, in the order of the machine)
    and the casts between them are those of a 64-bit machine: two's complement integers, pointers
    which are addresses, null pointers with all bits zero, null pointers to data members with all
    bits set (Itanium ABI). Pointers to member functions, which are larger, and enumerations
    without a fixed underlying type are not modelled. *)
From Coq Require Import List ZArith NArith Bool.
From Verif Require Import Base VecCommon.
Import ListNotations.

(** Integral types, which are also the underlying types of enumerations. *)
Inductive ity : Type :=
| IBool
| IInt (signed : bool) (n : nat).              (* of n bytes *)
Inductive ty : Type :=
| TInt (i : ity)
| TEnum (i : ity)                              (* enum with a fixed underlying type *)
| TFloat (format : nat) (n : nat)              (* a floating point format of n bytes *)
| TPtr (c : nat)                               (* c* for a class c *)
| TVoidPtr                                     (* void* *)
| TMember (c : nat)                            (* T c::*, a pointer to a data member of class c *)
| TNull                                        (* std::nullptr_t *)
| TClass (n : nat).                            (* any type which is not scalar *)

Inductive value : Type :=
| VInt (z : Z)                                 (* of integral and enumeration types; bool: 0, 1 *)
| VFloat (bits : N)
| VPtr (a : N)                                 (* 0 is null *)
| VMember (off : option N)                     (* offset, or null *)
| VNull
| VObject (bits : N).                          (* of types which are not scalar *)

Definition isize (i : ity) : nat := match i with IBool => 1 | IInt _ n => n end.
Definition sizeof (t : ty) : nat :=
  match t with
  | TInt i | TEnum i => isize i
  | TFloat _ n | TClass n => n
  | TPtr _ | TVoidPtr | TMember _ | TNull => 8
  end.
Definition is_scalar (t : ty) : bool := match t with TClass _ => false | _ => true end.
Definition is_floating_point (t : ty) : bool := match t with TFloat _ _ => true | _ => false end.
Definition is_bool (t : ty) : bool := match t with TInt IBool => true | _ => false end.

(** 79-89 *)
Definition is_noop_convertible (from to : ty) : bool :=
  (sizeof from =? sizeof to)%nat
  && is_scalar from
  && is_scalar to
  && Bool.eqb (is_floating_point from) (is_floating_point to)
  && (if is_bool to then is_bool from else true).

(** * Values and their bytes *)
Definition modulus (n : nat) : Z := 2 ^ (8 * Z.of_nat n).
(** The value of an integral type which is congruent to z; bool: whether it is not zero. *)
Definition to_int (i : ity) (z : Z) : Z :=
  match i with
  | IBool => if (z =? 0)%Z then 0 else 1
  | IInt false n => z mod modulus n
  | IInt true n => (z + modulus n / 2) mod modulus n - modulus n / 2
  end%Z.
Definition in_range (i : ity) (z : Z) : Prop :=
  match i with
  | IBool => z = 0 \/ z = 1
  | IInt false n => 0 <= z < modulus n
  | IInt true n => - (modulus n / 2) <= z < modulus n / 2
  end%Z.
(** [v] is a value of type [t]. *)
Definition has_type (t : ty) (v : value) : Prop :=
  match t, v with
  | (TInt i | TEnum i), VInt z => in_range i z
  | TFloat _ n, VFloat b => (Z.of_N b < modulus n)%Z
  | (TPtr _ | TVoidPtr), VPtr a => (a < two64)%N
  | TMember _, VMember (Some o) => (o < two64 - 1)%N
  | TMember _, VMember None => True
  | TNull, VNull => True
  | TClass n, VObject b => (Z.of_N b < modulus n)%Z
  | _, _ => False
  end.
Definition bytes (t : ty) (v : value) : Z :=
  match t, v with
  | (TInt i | TEnum i), VInt z => z mod modulus (isize i)
  | _, VFloat b => Z.of_N b
  | _, VPtr a => Z.of_N a
  | _, VMember (Some o) => Z.of_N o
  | _, VMember None => Z.of_N two64 - 1
  | _, VObject b => Z.of_N b
  | _, _ => 0
  end%Z.

(** * Casts: (to)v, that is static_cast if there is one and reinterpret_cast otherwise *)
Section Casts.
(** The offset of the base class b in the class d, if it is one. *)
Variable base : nat -> nat -> option N.
(** Conversions which change the value's representation: between floating point formats, and
    between floating point and integral types. *)
Variable float_to_float : nat -> nat -> N -> N.
Variable float_to_int : nat -> N -> option Z.
Variable int_to_float : nat -> Z -> N.

(** c* to d*: to a base, to a derived class, or just the address *)
Definition ptr_cast (c d : nat) (a : N) : N :=
  if (a =? 0)%N then 0%N
  else match base c d with
       | Some o => ((a + o) mod two64)%N
       | None => match base d c with
                 | Some o => ((a + two64 - o) mod two64)%N
                 | None => a
                 end
       end.
Definition member_cast (c d : nat) (o : N) : N :=
  match base d c with
  | Some b => ((o + b) mod two64)%N                    (* a member of the base c of d *)
  | None => match base c d with
            | Some b => ((o + two64 - b) mod two64)%N
            | None => o
            end
  end.
(** None: there is no such cast, or its result is undefined, or it is up to the program (classes). *)
Definition cast (from to : ty) (v : value) : option value :=
  match from, to, v with
  | (TInt _ | TEnum _), (TInt i | TEnum i), VInt z => Some (VInt (to_int i z))
  | (TInt _ | TEnum _), TFloat f _, VInt z => Some (VFloat (int_to_float f z))
  | TInt _, (TPtr _ | TVoidPtr), VInt z => Some (VPtr (Z.to_N (z mod Z.of_N two64)))
  | TEnum _, (TPtr _ | TVoidPtr), VInt z => Some (VPtr (Z.to_N (z mod Z.of_N two64)))
  | TFloat f _, TFloat g _, VFloat b =>
      Some (VFloat (if (f =? g)%nat then b else float_to_float f g b))
  | TFloat f _, (TInt i | TEnum i), VFloat b => option_map (fun z => VInt (to_int i z)) (float_to_int f b)
  | (TPtr _ | TVoidPtr), TInt IBool, VPtr a => Some (VInt (if (a =? 0)%N then 0 else 1))
  | (TPtr _ | TVoidPtr), TInt i, VPtr a =>
      if (8 <=? isize i)%nat then Some (VInt (to_int i (Z.of_N a))) else None
  | TPtr c, TPtr d, VPtr a => Some (VPtr (ptr_cast c d a))
  | TPtr _, TVoidPtr, VPtr a | TVoidPtr, (TPtr _ | TVoidPtr), VPtr a => Some (VPtr a)
  | TMember c, TMember d, VMember (Some o) => Some (VMember (Some (member_cast c d o)))
  | TMember c, TMember d, VMember None => Some (VMember None)
  | TMember _, TInt IBool, VMember o => Some (VInt (match o with Some _ => 1 | None => 0 end))
  | TNull, TNull, VNull => Some VNull
  | TNull, (TPtr _ | TVoidPtr), VNull => Some (VPtr 0)
  | TNull, TMember _, VNull => Some (VMember None)
  | TNull, TInt IBool, VNull => Some (VInt 0)
  | TNull, TInt i, VNull => if (8 <=? isize i)%nat then Some (VInt 0) else None
  | _, _, _ => None
  end.
End Casts.

(** * utility.hpp *)
(** 76-82: the address of the owner, of the address of the member and a pointer to member. What the
    machine does with &(null_owner->*ptr), which the standard does not define, is the offset. *)
Definition owner_from_member (member : N) (ptr : N) : N :=
  let m_offset := ((0 + ptr) mod two64)%N in
  ((member + two64 - m_offset) mod two64)%N.

(** 88-94: memcpy of the object representation, a list of bytes. Types of other sizes do not
    compile. *)
Definition bit_cast (dst_size : nat) (src : list N) : option (list N) :=
  if (dst_size =? length src)%nat then Some (firstn (length src) src) else None.
