(** Model of the conversions of include/itlib/time_t.hpp between times and calendar dates. The
    functions of the C library which they call are parameters; what POSIX says about them is in
    CalendarSpec.v. The time zone of the process does not change meanwhile. *)
From Coq Require Import List ZArith Bool.
From Verif Require Import Base VecCommon.
Import ListNotations.
Open Scope Z_scope.

(** std::tm; all members are ints. *)
Record tm : Type := mkTm {
  tm_sec : Z; tm_min : Z; tm_hour : Z;
  tm_mday : Z; tm_mon : Z; tm_year : Z;
  tm_wday : Z; tm_yday : Z; tm_isdst : Z
}.
(** std::tm ret = {}, time_t.hpp 136 *)
Definition tm_empty : tm := mkTm 0 0 0 0 0 0 0 0 0.

(** static_cast to a signed type of [w] bits: the value modulo 2^w. *)
Definition as_signed (w z : Z) : Z := (z + 2 ^ (w - 1)) mod 2 ^ w - 2 ^ (w - 1).

(** The functions of the C library: gmtime_r(&t, &buf) and localtime_r(&t, &buf) say whether they
    succeeded and what is in buf then; timegm(&buf) and mktime(&buf) what is in buf and the
    result. On Windows their names and their results are others (98-100, 138-139, 150-151). *)
Record libc : Type := mkLibc {
  gmtime_r : Z -> tm -> bool * tm;
  timegm : tm -> tm * Z;
  localtime_r : Z -> tm -> bool * tm;
  mktime : tm -> tm * Z
}.

Section Conversions.
(** How many bits std::time_t has. *)
Variable w : Z.
Variable L : libc.

(** time_t.hpp 80-83: the only constructor with an argument takes a std::time_t, to which an
    int64_t is converted before. *)
Definition of_seconds (s : Z) : Z := as_signed w s.
(** 84-87 operator std::time_t *)
Definition to_time_t (t : Z) : Z := as_signed w t.
(** 91 from_seconds *)
Definition from_seconds (s : Z) : Z := of_seconds s.
(** 134-144 gmtime; what gmtime_r returns is not looked at. *)
Definition gmtime (t : Z) : tm := snd (gmtime_r L (to_time_t t) tm_empty).
(** 95-105 from_gmtime *)
Definition from_gmtime (b : tm) : tm * Z :=
  let '(b', r) := timegm L b in (b', from_seconds r).
(** 146-155 localtime *)
Definition localtime (t : Z) : tm := snd (localtime_r L (to_time_t t) tm_empty).
(** 107-111 from_localtime *)
Definition from_localtime (b : tm) : tm * Z :=
  let '(b', r) := mktime L b in (b', from_seconds r).
(** 121-125 operator+= and operator+ with a number of seconds, where no int64_t overflows: only
    the second constructs a time_t from the sum. *)
Definition add_assign (t s : Z) : Z := t + s.
Definition add (t s : Z) : Z := of_seconds (t + s).
End Conversions.
