(** The Gregorian calendar and what POSIX says about gmtime_r and timegm: specification used for
    time_t.hpp 95-111 and 134-155. *)
From Coq Require Import ZArith Bool.
From Verif Require Import CalendarModel.
Open Scope Z_scope.

(** Years divisible by 4 are leap years, unless they are divisible by 100 and not by 400. *)
Definition leap (y : Z) : bool :=
  (y mod 4 =? 0) && (negb (y mod 100 =? 0) || (y mod 400 =? 0)).

(** The number of days of month [m] of year [y]. *)
Definition month_days (y m : Z) : Z :=
  if m =? 2 then (if leap y then 29 else 28)
  else if (m =? 4) || (m =? 6) || (m =? 9) || (m =? 11) then 30
  else 31.

Record date : Type := mkDate { year : Z; month : Z; day : Z }.
Definition valid_date (d : date) : Prop :=
  1 <= month d <= 12 /\ 1 <= day d <= month_days (year d) (month d).

(** The day after. *)
Definition next_day (d : date) : date :=
  if day d <? month_days (year d) (month d) then mkDate (year d) (month d) (day d + 1)
  else if month d <? 12 then mkDate (year d) (month d + 1) 1
  else mkDate (year d + 1) 1 1.

(** [day_number d n]: day [d] is [n] days after January 1st, 1970. *)
Inductive day_number : date -> Z -> Prop :=
| dn_epoch : day_number (mkDate 1970 1 1) 0
| dn_after d n : day_number d n -> day_number (next_day d) (n + 1)
| dn_before d n : valid_date d -> day_number (next_day d) (n + 1) -> day_number d n.

(** [b] is the broken-down time, in UTC, of the time [t] seconds after the beginning of 1970.
    That day was a Thursday. *)
Definition utc (t : Z) (b : tm) : Prop :=
  exists d n,
    day_number d n /\
    t = n * 86400 + tm_hour b * 3600 + tm_min b * 60 + tm_sec b /\
    0 <= tm_hour b < 24 /\ 0 <= tm_min b < 60 /\ 0 <= tm_sec b < 60 /\
    tm_year b = year d - 1900 /\ tm_mon b = month d - 1 /\ tm_mday b = day d /\
    tm_wday b = (n + 4) mod 7 /\
    day_number (mkDate (year d) 1 1) (n - tm_yday b) /\
    tm_isdst b = 0.

(** What the members of [b], which may be out of their ranges, say: months count on into other
    years, and days, hours, minutes and seconds count on from there. The day of the week and
    that of the year are not looked at. *)
Definition says (b : tm) (t : Z) : Prop :=
  exists n,
    day_number (mkDate (1900 + tm_year b + tm_mon b / 12) (1 + tm_mon b mod 12) 1) n /\
    t = (n + tm_mday b - 1) * 86400 + tm_hour b * 3600 + tm_min b * 60 + tm_sec b.

(** Later in the calendar. *)
Definition before (a b : tm) : Prop :=
  tm_year a < tm_year b \/ tm_year a = tm_year b /\
  (tm_mon a < tm_mon b \/ tm_mon a = tm_mon b /\
  (tm_mday a < tm_mday b \/ tm_mday a = tm_mday b /\
  (tm_hour a < tm_hour b \/ tm_hour a = tm_hour b /\
  (tm_min a < tm_min b \/ tm_min a = tm_min b /\
   tm_sec a < tm_sec b)))).

Definition int_range (z : Z) : Prop := - 2 ^ 31 <= z < 2 ^ 31.
(** The members of a std::tm are ints. *)
Definition tm_fits (b : tm) : Prop :=
  int_range (tm_sec b) /\ int_range (tm_min b) /\ int_range (tm_hour b) /\
  int_range (tm_mday b) /\ int_range (tm_mon b) /\ int_range (tm_year b) /\
  int_range (tm_wday b) /\ int_range (tm_yday b) /\ int_range (tm_isdst b).
(** A number of [w] bits. *)
Definition time_range (w t : Z) : Prop := - 2 ^ (w - 1) <= t < 2 ^ (w - 1).

(** gmtime_r with times of [w] bits: it yields the broken-down time in UTC where a std::tm can
    hold it. Otherwise it says so by its result, and nothing is said about what it left in the
    buffer, save that it is a std::tm. *)
Definition gmtime_r_ok (w : Z) (gmtime_r : Z -> tm -> bool * tm) : Prop :=
  forall t b, time_range w t -> tm_fits b ->
    (forall b', utc t b' -> tm_fits b' -> gmtime_r t b = (true, b')) /\
    ((forall b', utc t b' -> ~ tm_fits b') ->
     fst (gmtime_r t b) = false /\ tm_fits (snd (gmtime_r t b))).
(** timegm: it yields what the members say, and sets the members to that; where it cannot,
    because the time or the year is out of range, it yields -1. *)
Definition timegm_ok (w : Z) (timegm : tm -> tm * Z) : Prop :=
  forall b t, tm_fits b -> says b t ->
    (forall b', time_range w t -> utc t b' -> tm_fits b' -> timegm b = (b', t)) /\
    ((forall b', utc t b' -> ~ (time_range w t /\ tm_fits b')) -> snd (timegm b) = -1).

(** A time zone says, at every time, by how many seconds clocks are ahead of UTC, and whether
    this is daylight saving time. *)
Definition zone : Type := Z -> Z * bool.
Definition ahead (z : zone) (t : Z) : Z := fst (z t).
Definition summer (z : zone) (t : Z) : bool := snd (z t).

Definition with_isdst (b : tm) (i : Z) : tm :=
  mkTm (tm_sec b) (tm_min b) (tm_hour b) (tm_mday b) (tm_mon b) (tm_year b)
       (tm_wday b) (tm_yday b) i.
(** [b] is what clocks and calendars in the zone show at time [t]. *)
Definition local (z : zone) (t : Z) (b : tm) : Prop :=
  utc (t + ahead z t) (with_isdst b 0) /\ tm_isdst b = if summer z t then 1 else 0.

(** localtime_r, as gmtime_r. *)
Definition localtime_r_ok (z : zone) (w : Z) (localtime_r : Z -> tm -> bool * tm) : Prop :=
  forall t b, time_range w t -> tm_fits b ->
    (forall b', local z t b' -> tm_fits b' -> localtime_r t b = (true, b')) /\
    ((forall b', local z t b' -> ~ tm_fits b') ->
     fst (localtime_r t b) = false /\ tm_fits (snd (localtime_r t b))).

(** At time [t] clocks show what [b] says; and if [b] says whether it is daylight saving time,
    by a member tm_isdst that is not negative, then [b] is right. *)
Definition shown (z : zone) (b : tm) (t : Z) : Prop :=
  says b (t + ahead z t) /\ (0 <= tm_isdst b -> summer z t = (0 <? tm_isdst b)).
(** mktime: where this is so at one time only, it yields that time, and sets the members. *)
Definition mktime_ok (z : zone) (w : Z) (mktime : tm -> tm * Z) : Prop :=
  forall b t b', tm_fits b -> time_range w t -> local z t b' -> tm_fits b' ->
    shown z b t -> (forall t', time_range w t' -> shown z b t' -> t' = t) ->
    mktime b = (b', t).

Definition libc_ok (z : zone) (w : Z) (L : libc) : Prop :=
  gmtime_r_ok w (gmtime_r L) /\ timegm_ok w (timegm L) /\
  localtime_r_ok z w (localtime_r L) /\ mktime_ok z w (mktime L).
