(** time_t.hpp: conversions between times and calendar dates in UTC. *)
From Coq Require Import ZArith Bool Lia.
From Verif Require Import CalendarModel CalendarSpec CalendarProofs.
Open Scope Z_scope.

(** The specification: every time has exactly one date, and every date at most one time. *)
Theorem C100_calendar : forall t,
  (exists b, utc t b /\ forall b', utc t b' -> b' = b) /\
  (forall t' b, utc t b -> utc t' b -> t' = t).
Proof.
  intros t. split.
  - exists (tm_of t). split; [apply tm_of_utc|]. intros b' U.
    exact (utc_unique _ _ _ U (tm_of_utc t)).
  - intros t' b U U'. exact (utc_time _ _ _ U' U).
Qed.
Print Assumptions C100_calendar.

(** With any conforming C library and std::time_t of any width, for all times a std::time_t
    holds, up to the last second of the year 2147485547: gmtime yields the date, from_gmtime
    leads from there back to the time and changes nothing in it, and the dates are in the order
    of the times. *)
Theorem C100_gmtime_partial : forall z w L, 0 < w -> libc_ok z w L ->
  forall t, time_range w t -> -67768040609740800 <= t < 67768036191676800 ->
    utc t (gmtime w L t) /\
    from_gmtime w L (gmtime w L t) = (gmtime w L t, t) /\
    (forall t', time_range w t' -> t < t' < 67768036191676800 ->
       before (gmtime w L t) (gmtime w L t')).
Proof.
  intros z w L W (G & M & _) t R F.
  destruct (gmtime_utc w L t W G R F) as [U H].
  split; [exact U|]. split.
  - exact (from_gmtime_says w L _ t W G M H (utc_says _ _ U) R F).
  - intros t' R' F'.
    assert (F2 : first_second <= t' < end_seconds) by (unfold first_second, end_seconds; lia).
    destruct (gmtime_utc w L t' W G R' F2) as [U' _].
    exact (utc_before _ _ _ _ U U' (proj1 F')).
Qed.
Print Assumptions C100_gmtime_partial.

(** from_gmtime with members that may be out of their ranges: it yields the time they say, and
    leaves the date of that time in its argument. *)
Theorem C100_from_gmtime_partial : forall z w L, 0 < w -> libc_ok z w L ->
  forall b t, tm_fits b -> says b t -> time_range w t ->
    -67768040609740800 <= t < 67768036191676800 ->
    from_gmtime w L b = (gmtime w L t, t) /\ utc t (fst (from_gmtime w L b)).
Proof.
  intros z w L W (G & M & _) b t Fb S R F.
  pose proof (from_gmtime_says w L b t W G M Fb S R F) as E.
  split; [exact E|]. rewrite E. exact (proj1 (gmtime_utc w L t W G R F)).
Qed.
Print Assumptions C100_from_gmtime_partial.

(** The C library of a process whose time zone is UTC. *)
Definition utc_libc (w : Z) : libc := plain_libc (fun _ => false) 0 0 w.

(** Such a library exists. With it, the time 1709210096 was 12:34:56 on February 29th, 2024, a
    Thursday; and 90 minutes after 22:45 on December 31st, 1999 it was 00:15 on January 1st. *)
Example C100_met :
  gmtime 64 (utc_libc 64) 1709210096 = mkTm 56 34 12 29 1 124 4 59 0 /\
  from_gmtime 64 (utc_libc 64) (mkTm 56 34 12 29 1 124 0 0 0) =
    (mkTm 56 34 12 29 1 124 4 59 0, 1709210096) /\
  from_gmtime 64 (utc_libc 64) (mkTm 0 135 22 31 11 99 0 0 0) =
    (mkTm 0 15 0 1 0 100 6 0 0, 946685700) /\
  utc 1709210096 (mkTm 56 34 12 29 1 124 4 59 0) /\
  time_range 64 1709210096.
Proof.
  assert (T : time_range 64 1709210096) by (unfold time_range; cbn; lia).
  assert (E : gmtime 64 (utc_libc 64) 1709210096 = mkTm 56 34 12 29 1 124 4 59 0)
    by (vm_compute; reflexivity).
  split; [exact E|]. split; [vm_compute; reflexivity|]. split; [vm_compute; reflexivity|].
  split; [|exact T]. rewrite <- E.
  apply (C100_gmtime_partial _ 64 _ eq_refl (plain_libc_ok (fun _ => false) 0 0 64) _ T). lia.
Qed.

(** Beyond that year gmtime does not tell that it failed: with every conforming library, what
    it returns is not the date. *)
Theorem C100_far_refuted : forall z L, libc_ok z 64 L ->
  forall t, time_range 64 t -> ~ (-67768040609740800 <= t < 67768036191676800) ->
    ~ utc t (gmtime 64 L t).
Proof.
  intros z L (G & _) t R N U. unfold gmtime, to_time_t in U.
  rewrite (as_signed_id 64 t eq_refl R) in U.
  destruct (G t tm_empty R tm_empty_fits) as [_ G2].
  destruct G2 as [_ F].
  { intros b' U' F'. apply N. exact (proj2 (range_fits _ _ U') F'). }
  apply N. exact (proj2 (range_fits _ _ U) F).
Qed.
Print Assumptions C100_far_refuted.

Example C100_far_met :
  time_range 64 (2 ^ 62) /\ ~ (-67768040609740800 <= 2 ^ 62 < 67768036191676800) /\
  gmtime 64 (utc_libc 64) (2 ^ 62) = tm_empty.
Proof. split; [unfold time_range; cbn; lia|]. split; [lia|]. vm_compute. reflexivity. Qed.

(** from_gmtime does not tell either: where timegm fails, the result is the last second
    of 1969, which is also the result for that second. *)
Theorem C100_failure_refuted : forall z L, libc_ok z 64 L ->
  snd (from_gmtime 64 L (mkTm 59 59 23 31 11 69 0 0 0)) = -1 /\
  snd (from_gmtime 64 L (mkTm 0 0 0 1 12 2147483647 0 0 0)) = -1 /\
  ~ says (mkTm 0 0 0 1 12 2147483647 0 0 0) (-1).
Proof.
  intros z L (G & M & _).
  set (b := mkTm 59 59 23 31 11 69 0 0 0). set (c := mkTm 0 0 0 1 12 2147483647 0 0 0).
  assert (Fb : tm_fits b) by (unfold tm_fits, int_range; cbn; lia).
  assert (Fc : tm_fits c) by (unfold tm_fits, int_range; cbn; lia).
  assert (Sb : says b (-1)).
  { replace (-1) with (seconds_of b) by (vm_compute; reflexivity). apply seconds_of_says. }
  assert (Sc : says c 67768036191676800).
  { replace 67768036191676800 with (seconds_of c) by (vm_compute; reflexivity).
    apply seconds_of_says. }
  split; [|split].
  - rewrite (from_gmtime_says 64 L b (-1) eq_refl G M Fb Sb); [reflexivity| |].
    + unfold time_range. cbn. lia.
    + unfold first_second, end_seconds. lia.
  - unfold from_gmtime. destruct (M c _ Fc Sc) as [_ M2].
    destruct (timegm L c) as [c' r] eqn:E. cbn [snd] in *. rewrite M2; [reflexivity|].
    intros b' U [_ F']. pose proof (proj2 (range_fits _ _ U) F') as X. unfold end_seconds in X. lia.
  - intros S. pose proof (says_unique _ _ _ S Sc). discriminate.
Qed.
Print Assumptions C100_failure_refuted.

(** Where std::time_t has 32 bits, gmtime wraps in 2038 although time_t has 64 bits; and so do
    from_seconds and operator+, but not operator+=. *)
Theorem C100_narrow_refuted : forall z L, libc_ok z 32 L ->
  utc (- 2 ^ 31) (gmtime 32 L (2 ^ 31)) /\ ~ utc (2 ^ 31) (gmtime 32 L (2 ^ 31)) /\
  from_seconds 32 (2 ^ 31) = - 2 ^ 31 /\
  add_assign (2 ^ 31 - 1) 1 = 2 ^ 31 /\ add 32 (2 ^ 31 - 1) 1 = - 2 ^ 31.
Proof.
  intros z L (G & _).
  assert (U : utc (- 2 ^ 31) (gmtime 32 L (2 ^ 31))).
  { change (gmtime 32 L (2 ^ 31)) with (gmtime 32 L (- 2 ^ 31)).
    apply (gmtime_utc 32 L); [reflexivity|exact G| |].
    - unfold time_range. cbn. lia.
    - unfold first_second, end_seconds. lia. }
  split; [exact U|]. split; [|repeat split; reflexivity].
  intros U'. pose proof (utc_time _ _ _ U U'). discriminate.
Qed.
Print Assumptions C100_narrow_refuted.

(** Where the sum is a std::time_t the two operators agree. *)
Theorem C100_narrow_partial : forall w t s, 0 < w -> time_range w (t + s) ->
  add w t s = add_assign t s /\ from_seconds w (t + s) = t + s.
Proof.
  intros w t s W R. unfold add, add_assign, from_seconds, of_seconds.
  now rewrite as_signed_id by assumption.
Qed.
Print Assumptions C100_narrow_partial.

Example C100_narrow_met : time_range 32 (1709210096 + 3600).
Proof. unfold time_range. cbn. lia. Qed.

(** Local time: in every time zone localtime yields what clocks and calendars show, and
    from_localtime leads back, provided that clocks do not show the same, summer or winter time
    included, at another time. *)
Theorem C101_localtime_partial : forall z w L, 0 < w -> libc_ok z w L ->
  forall t, time_range w t -> -67768040609740800 <= t + ahead z t < 67768036191676800 ->
    local z t (localtime w L t) /\
    ((forall t', time_range w t' -> t' + ahead z t' = t + ahead z t ->
                 summer z t' = summer z t -> t' = t) ->
     from_localtime w L (localtime w L t) = (localtime w L t, t)).
Proof.
  intros z w L W (_ & _ & G & M) t R F. destruct (localtime_local z w L t W G R F) as [U H].
  split; [exact U|]. intros X.
  apply (from_localtime_shown z w L _ t W G M H R F (local_shown _ _ _ U)).
  intros t' R' S. destruct (shown_same _ _ _ _ U S) as [E1 E2]. exact (X t' R' E1 E2).
Qed.
Print Assumptions C101_localtime_partial.

(** In zones where clocks are only changed for daylight saving time, it always leads back. *)
Theorem C101_round_trip : forall z w L, 0 < w -> libc_ok z w L ->
  (forall t t', summer z t = summer z t' -> ahead z t = ahead z t') ->
  forall t, time_range w t -> -67768040609740800 <= t + ahead z t < 67768036191676800 ->
    from_localtime w L (localtime w L t) = (localtime w L t, t).
Proof.
  intros z w L W HL Z t R F.
  apply (C101_localtime_partial z w L W HL t R F).
  intros t' _ E S. pose proof (Z _ _ S). lia.
Qed.
Print Assumptions C101_round_trip.

(** from_localtime of any members, tm_isdst negative or not, which describe one time only. *)
Theorem C101_from_localtime_partial : forall z w L, 0 < w -> libc_ok z w L ->
  forall b t, tm_fits b -> time_range w t ->
    -67768040609740800 <= t + ahead z t < 67768036191676800 ->
    shown z b t -> (forall t', time_range w t' -> shown z b t' -> t' = t) ->
    from_localtime w L b = (localtime w L t, t) /\ local z t (fst (from_localtime w L b)).
Proof.
  intros z w L W (_ & _ & G & M) b t Fb R F S X.
  pose proof (from_localtime_shown z w L b t W G M Fb R F S X) as E.
  split; [exact E|]. rewrite E. exact (proj1 (localtime_local z w L t W G R F)).
Qed.
Print Assumptions C101_from_localtime_partial.

(** Where clocks are put back otherwise, no C library helps: localtime yields the same for two
    times, and from_localtime leads back to one of them at most. *)
Theorem C101_put_back_refuted : forall z w L, 0 < w -> localtime_r_ok z w (localtime_r L) ->
  forall t t', t <> t' -> t' + ahead z t' = t + ahead z t -> summer z t' = summer z t ->
    time_range w t -> time_range w t' ->
    -67768040609740800 <= t + ahead z t < 67768036191676800 ->
    localtime w L t = localtime w L t' /\
    ~ (snd (from_localtime w L (localtime w L t)) = t /\
       snd (from_localtime w L (localtime w L t')) = t').
Proof.
  intros z w L W G t t' D E S R R' F.
  destruct (localtime_local z w L t W G R F) as [U _].
  assert (F' : first_second <= t' + ahead z t' < end_seconds) by (rewrite E; exact F).
  destruct (localtime_local z w L t' W G R' F') as [U' _].
  assert (Q : localtime w L t = localtime w L t').
  { apply (local_unique z t _ _ U). destruct U' as [V I]. split; [now rewrite <- E|].
    now rewrite <- S. }
  split; [exact Q|]. rewrite Q. intros [H H']. congruence.
Qed.
Print Assumptions C101_put_back_refuted.

(** Berlin in 2024: summer time from March 31st, 01:00 UTC to October 27th, 01:00 UTC. The hour
    from 2 to 3 on October 27th comes twice, and is told apart by tm_isdst. *)
Definition berlin : zone := simple_zone (fun t => (1711846800 <=? t) && (t <? 1729990800)) 7200 3600.
(** Moscow: on October 25th, 2014, at 22:00 UTC, winter time was put back by an hour. *)
Definition moscow : zone := fun t => ((if t <? 1414274400 then 14400 else 10800), false).

Example C101_met :
  (exists L, libc_ok berlin 64 L /\
     localtime 64 L 1729989000 = mkTm 0 30 2 27 9 124 0 300 1 /\
     localtime 64 L 1729992600 = mkTm 0 30 2 27 9 124 0 300 0 /\
     from_localtime 64 L (mkTm 0 30 2 27 9 124 0 0 1) = (mkTm 0 30 2 27 9 124 0 300 1, 1729989000) /\
     from_localtime 64 L (mkTm 0 30 2 27 9 124 0 0 0) = (mkTm 0 30 2 27 9 124 0 300 0, 1729992600)) /\
  (forall t t', summer berlin t = summer berlin t' -> ahead berlin t = ahead berlin t') /\
  (* two times half an hour before and after in Moscow *)
  1414272600 + ahead moscow 1414272600 = 1414276200 + ahead moscow 1414276200 /\
  summer moscow 1414272600 = summer moscow 1414276200.
Proof.
  split; [|split; [|split; reflexivity]].
  - exists (plain_libc (fun t => (1711846800 <=? t) && (t <? 1729990800)) 7200 3600 64).
    split; [apply plain_libc_ok|].
    repeat split; vm_compute; reflexivity.
  - intros t t'. unfold summer, ahead, berlin, simple_zone. cbn [fst snd]. intros E. now rewrite E.
Qed.

(** Local times are not in the order of times: 02:15 in winter time comes after 02:30 in
    summer time. *)
Theorem C101_order_refuted : forall L, libc_ok berlin 64 L ->
  exists t t', t < t' /\ before (localtime 64 L t') (localtime 64 L t).
Proof.
  intros L (_ & _ & G & _). exists 1729989000, 1729991700. split; [lia|].
  destruct (localtime_local berlin 64 L 1729989000 eq_refl G) as [U _];
    [unfold time_range; cbn; lia|unfold first_second, end_seconds; vm_compute; split; [intros X; discriminate X|reflexivity]|].
  destruct (localtime_local berlin 64 L 1729991700 eq_refl G) as [U' _];
    [unfold time_range; cbn; lia|unfold first_second, end_seconds; vm_compute; split; [intros X; discriminate X|reflexivity]|].
  apply (utc_before _ _ (with_isdst _ 0) (with_isdst _ 0) (proj1 U') (proj1 U)). reflexivity.
Qed.
Print Assumptions C101_order_refuted.
