(** Theorems about strong_try_rec_mutex (property C53). *)
From Coq Require Import ZArith List Bool Lia.
From Verif Require Import Base ConcModel ConcSpec ConcProofs MutexModel MutexSpec MutexProofs.
Import ListNotations.
Open Scope Z_scope.

(** All executions of any number of threads which unlock only what they have locked and do not
    lock more than [dmax] times. *)
Notation executions dmax := (reach (mimpl dmax) mcview mrview (mallowed dmax) (start mst0)).

(** ** C53 *)

(** Every call takes effect at one moment between its beginning and its end; at that moment
    try_lock succeeds if and only if no other thread holds the mutex. *)
Theorem C53_linearizable_partial : forall dmax c, 0 < dmax -> executions dmax c ->
  linearizable rec_mutex (hist c).
Proof. intros. now apply (mreach_lin dmax). Qed.
Print Assumptions C53_linearizable_partial.

(** Two threads never hold it at once. *)
Theorem C53_exclusion_partial : forall dmax c t u, 0 < dmax -> executions dmax c ->
  th c t = None -> th c u = None -> t <> u ->
  0 < balance (completed t (hist c)) -> balance (completed u (hist c)) = 0.
Proof. intros dmax c t u Hd. now apply (mreach_exclusion dmax). Qed.
Print Assumptions C53_exclusion_partial.

(** No data race, no failing assert, no overflow. *)
Theorem C53_defined_partial : forall dmax c, 0 < dmax -> executions dmax c -> ~ bad c.
Proof. intros. now apply (mreach_not_bad dmax). Qed.
Print Assumptions C53_defined_partial.

(** When no call is under way, the next try_lock of a thread, if nobody comes in between, succeeds
    when the threads' locks and unlocks balance or when it holds the mutex itself, and otherwise
    fails: the mutex is free exactly after as many unlocks as locks. *)
Theorem C53_free_again_partial : forall dmax c t, 0 < dmax -> executions dmax c -> quiet c ->
  balance (completed t (hist c)) < dmax ->
  exists s' b, crun (mimpl dmax t CTry) (sh c) = Some (s', Some b) /\
    (b = true <-> forall u, u <> t -> balance (completed u (hist c)) = 0).
Proof.
  intros dmax c t Hd H Hq Hb. apply (try_alone dmax Hd); auto.
Qed.
Print Assumptions C53_free_again_partial.

(** A thread which locks more often than std::int_fast32_t counts overflows it. *)
Theorem C53_depth_refuted : forall dmax, 0 < dmax ->
  exists c, reach (mimpl dmax) mcview mrview (mallowed (dmax + 1)) (start mst0) c /\
    balance (completed 0%nat (hist c)) = dmax /\ bad c.
Proof. intros. now apply depth_overflow. Qed.
Print Assumptions C53_depth_refuted.

(** The theorems speak of something: thread 0 locks twice, thread 1 fails, thread 0 unlocks
    twice, thread 1 succeeds. *)
Example C53_ex : exists c, executions 10 c /\ quiet c /\
  completed 0%nat (hist c) = [(CTry, Some true); (CTry, Some true); (CUnlock, None); (CUnlock, None)] /\
  completed 1%nat (hist c) = [(CTry, Some false); (CTry, Some true)] /\
  0 < balance (completed 1%nat (hist c)).
Proof.
  apply (run_list_ok (mimpl 10) mcview mrview (mallowed 10)
    [(0, CTry); (0, CTry); (1, CTry); (0, CUnlock); (0, CUnlock); (1, CTry)]%nat mst0
    (fun _ h => completed 0%nat h = [(CTry, Some true); (CTry, Some true); (CUnlock, None); (CUnlock, None)] /\
                completed 1%nat h = [(CTry, Some false); (CTry, Some true)] /\
                0 < balance (completed 1%nat h))).
  - vm_compute. repeat split.
  - vm_compute. repeat split.
Qed.
