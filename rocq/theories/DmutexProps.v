(** Theorems about data_mutex (property C52). *)
From Coq Require Import List Arith Bool Lia.
From Verif Require Import Base ConcModel ConcSpec ConcProofs DmutexModel DmutexSpec DmutexProofs.
Import ListNotations.

(** All executions of any number of threads which make guards of all kinds, move them, read and
    write through them and destroy them; locking does not throw. *)
Notation executions recur v0 :=
  (reach (dimpl recur false) dcview drview (dallowed recur) (start (dst0 v0))).
(** The same where locking may throw. *)
Notation executions_t recur v0 :=
  (reach (dimpl recur true) dcview drview (dallowed recur) (start (dst0 v0))).

(** ** C52 *)

(** The reads and writes look like those of one thread at a time. *)
Theorem C52_linearizable_partial : forall recur v0 c, executions recur v0 c ->
  linearizable (fun L => exists v, seq_run datum v0 L v) (hist c).
Proof. exact dreach_lin. Qed.
Print Assumptions C52_linearizable_partial.

(** No data race on the data, no unlocking of what is not locked, no use of a destroyed guard or
    of a pointer not initialised. *)
Theorem C52_defined_partial : forall recur v0 c, executions recur v0 c -> ~ bad c.
Proof. exact dreach_not_bad. Qed.
Print Assumptions C52_defined_partial.

(** A thread (when it is in no call) has locked the mutex exactly once for each of its guards
    which points to the data, in the guard's way. *)
Theorem C52_locked_partial : forall recur v0 c t ex, executions recur v0 c -> th c t = None ->
  holds t ex (sh c) = guards t ex (sh c).
Proof. intros recur v0 c t ex H Ht. now apply (dreach_locked recur v0). Qed.
Print Assumptions C52_locked_partial.

(** A guard which gives exclusive access is the only thread's. *)
Theorem C52_exclusive_partial : forall recur v0 c t u, executions recur v0 c ->
  th c t = None -> th c u = None -> u <> t ->
  0 < guards t true (sh c) -> guards u true (sh c) = 0 /\ guards u false (sh c) = 0.
Proof.
  intros recur v0 c t u H Ht Hu Hn Hp.
  rewrite <- (dreach_locked recur v0 c t H Ht true) in Hp.
  rewrite <- !(dreach_locked recur v0 c u H Hu).
  eapply alone; eauto. now apply (dreach_mutex recur v0).
Qed.
Print Assumptions C52_exclusive_partial.

(** When no guard points to the data, the mutex is free. *)
Theorem C52_free_partial : forall recur v0 c, executions recur v0 c -> quiet c ->
  (forall t ex, guards t ex (sh c) = 0) -> mex (sh c) = None /\ msh (sh c) = [].
Proof.
  intros recur v0 c H Hq Hg.
  assert (forall t ex, holds t ex (sh c) = 0) as Hh.
  { intros t ex. rewrite (dreach_locked recur v0 c t H (Hq t)). apply Hg. }
  pose proof (dreach_mutex recur v0 c H) as Hm. unfold mutex_ok in Hm. split.
  - destruct (mex (sh c)) as [[u d]|] eqn:E; [|reflexivity]. specialize (Hh u true). unfold holds in Hh.
    rewrite E, Nat.eqb_refl in Hh. lia.
  - apply count_nil. intros t. exact (Hh t false).
Qed.
Print Assumptions C52_free_partial.

(** Two threads use the data: writes, moves of guards, a try_unique_lock which fails, shared
    guards at the same time. *)
Example C52_ex : exists c, executions false 3 c /\ quiet c /\
  completed 0 (hist c) =
    [(VOther, VNone); (VOther, VNone); (VWrite 7, VNone); (VOther, VNone); (VOther, VNone);
     (VOther, VNone); (VRead, VVal 7)] /\
  guards 0 false (sh c) = 1 /\ guards 1 false (sh c) = 1 /\ guards 1 true (sh c) = 0.
Proof.
  apply (run_list_ok (dimpl false false) dcview drview (dallowed false)
    [(0, CNew KUniq false); (0, CMove 0); (0, CWrite 1 7); (1, CNew KUniq true); (1, CTest 2);
     (0, CDrop 0); (0, CDrop 1); (1, CNew KShared false); (0, CNew KShared true); (0, CRead 4)] (dst0 3)
    (fun s h => completed 0 h =
      [(VOther, VNone); (VOther, VNone); (VWrite 7, VNone); (VOther, VNone); (VOther, VNone);
       (VOther, VNone); (VRead, VVal 7)] /\
      guards 0 false s = 1 /\ guards 1 false s = 1 /\ guards 1 true s = 0)).
  - cbn [list_allowed dallowed]. vm_compute. repeat split; eauto.
  - vm_compute. repeat split.
Qed.

(** When lock() throws, the base class' destructor unlocks a mutex that is not locked. *)
Theorem C52_throw_refuted : forall recur v0 k,
  exists c, executions_t recur v0 c /\ bad c /\
    nth_error (gs (sh c)) 0 = Some (Some (Guard 0 k PSet)) /\ forall t ex, holds t ex (sh c) = 0.
Proof. exact throw_bad. Qed.
Print Assumptions C52_throw_refuted.

(** With a recursive mutex it unlocks for another guard of the thread: two threads then have
    guards for exclusive access. *)
Theorem C52_throw_unlocks_refuted : forall v0,
  exists c, executions_t true v0 c /\ quiet c /\
    guards 0 true (sh c) = 1 /\ holds 0 true (sh c) = 0 /\ guards 1 true (sh c) = 1.
Proof. exact throw_unlocks. Qed.
Print Assumptions C52_throw_unlocks_refuted.

(** When try_lock() throws, the destructor looks at a pointer that has no value. *)
Theorem C52_try_throw_refuted : forall recur v0 k,
  exists c, executions_t recur v0 c /\ bad c /\
    completed 0 (hist c) = [] /\ exists l, nth_error (gs (sh c)) l = Some (Some (Guard 0 k PRaw)).
Proof. exact try_throw_bad. Qed.
Print Assumptions C52_try_throw_refuted.
