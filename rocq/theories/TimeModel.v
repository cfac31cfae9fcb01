(** Model of include/itlib/time_t.hpp.

    Times are 64-bit signed numbers of seconds; overflow of signed arithmetic is undefined
    behaviour. Durations have an integral representation of at most 64 bits and a
    period [num]/[den] of a second, positive and in lowest terms (std::ratio); durations with
    floating point representation are not modelled, nor is now. An unsigned representation
    of less than 64 bits is computed with as a signed one; that of 64 bits comes last. std::time_t has 64
    bits here; CalendarModel.v has the conversions to and from dates, and other widths. *)
From Coq Require Import List Arith NArith ZArith Bool.
From Verif Require Import Base VecCommon.
Import ListNotations.

Section Arithmetic.
Open Scope Z_scope.
Definition fits (z : Z) : bool := (- Z.of_N two63 <=? z) && (z <? Z.of_N two63).
Definition int64 (z : Z) : M unit Z := if fits z then ret z else ub.

Record duration : Type := mkDuration { count : Z; num : Z; den : Z }.

(** std::chrono::duration_cast to seconds: it multiplies and divides only where the
    factor is not one *)
Definition duration_cast (d : duration) : M unit Z :=
  if num d =? 1 then
    if den d =? 1 then ret (count d) else int64 (Z.quot (count d) (den d))
  else
    if den d =? 1 then int64 (count d * num d)
    else (let* p := int64 (count d * num d) in int64 (Z.quot p (den d))).

(** 157-161 dc *)
Definition dc (d : duration) : M unit Z := duration_cast d.
(** 121-129; the assigning forms store the same number *)
Definition plus (t : Z) (d : duration) : M unit Z := let* s := dc d in int64 (t + s).
Definition minus (t : Z) (d : duration) : M unit Z := let* s := dc d in int64 (t - s).
(** 131 *)
Definition diff (a b : Z) : M unit Z := int64 (a - b).
(** 113-118 *)
Definition eq (a b : Z) : bool := a =? b.
Definition ne (a b : Z) : bool := negb (a =? b).
Definition lt (a b : Z) : bool := a <? b.
Definition le (a b : Z) : bool := a <=? b.
Definition gt (a b : Z) : bool := b <? a.
Definition ge (a b : Z) : bool := b <=? a.

(** Durations counted in std::uint64_t: the common type of duration_cast is unsigned, so
    that products wrap around; the result is then converted to the signed timestamp_type,
    which keeps it modulo 2^64. *)
Definition uint64 (z : Z) : Z := z mod Z.of_N two64.
Definition to_int64 (z : Z) : Z := if fits z then z else z - Z.of_N two64.
Definition u_duration_cast (d : duration) : Z :=
  if num d =? 1 then
    if den d =? 1 then to_int64 (count d) else to_int64 (count d / den d)
  else
    if den d =? 1 then to_int64 (uint64 (count d * num d))
    else to_int64 (uint64 (count d * num d) / den d).
(** 121-129 with such a duration *)
Definition u_plus (t : Z) (d : duration) : M unit Z := int64 (t + u_duration_cast d).
Definition u_minus (t : Z) (d : duration) : M unit Z := int64 (t - u_duration_cast d).
End Arithmetic.

(** * strftime (168-176) *)
Section Strftime.
Open Scope N_scope.
Context {C : Type}.
Variable zero : C.
(** the text std::strftime produces for the format and time; it does not depend on the buffer *)
Variable text : list C.
(** what it leaves in a buffer which is too small *)
Variable garble : list C -> list C.
(** std::string: the largest size, and for which sizes allocation succeeds *)
Variable max_size : N.
Variable available : N -> bool.

(** std::strftime(buf, n, ...): the text and a terminating zero if they fit, and the
    length of the text; otherwise zero *)
Definition c_strftime : M (list C) N := fun buf =>
  match buf with
  | [] => UB                    (* &ret.front() *)
  | _ =>
      if (length text <? length buf)%nat
      then Ok (N.of_nat (length text)) (text ++ zero :: skipn (length text + 1) buf)
      else Ok 0 (garble buf)
  end.

Definition resize (n : N) : M (list C) unit := fun buf =>
  if max_size <? n then Throw LengthError buf
  else if n <=? N.of_nat (length buf) then Ok tt (firstn (N.to_nat n) buf)
  else if available n then Ok tt (buf ++ repeat zero (N.to_nat n - length buf))
  else Throw BadAlloc buf.

Definition size : M (list C) N := fun buf => Ok (N.of_nat (length buf)) buf.

Fixpoint loop (fuel : nat) : M (list C) N :=
  match fuel with
  | O => diverge
  | S fuel' =>
      let* len := c_strftime in
      if len =? 0 then (let* n := size in resize ((2 * n) mod two64) ;;; loop fuel') else ret len
  end.
Definition strftime (fuel : nat) : M (list C) unit :=
  resize 128 ;;; let* len := loop fuel in resize len.
End Strftime.
