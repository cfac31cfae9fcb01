(** Theorems about data_mutex under the C++ memory model (property C88). *)
From Coq Require Import List Arith Bool Lia.
From Verif Require Import Base ConcModel ConcSpec ConcProofs WmModel MutexWeakModel DmutexModel DmutexSpec
  DmutexProofs DmutexWeakModel DmutexWeakSpec DmutexWeakProofs.
Import ListNotations.
Open Scope nat_scope.

(** All executions of any number of threads which make guards of all kinds, move them, read and
    write through them and destroy them; locking does not throw. *)
Notation executions recur v0 :=
  (reach (eimpl recur) ecview erview (eallowed recur) (start (est0 v0))).

(** ** C88 *)

(** No two accesses to the data race: every two of which one is a write are ordered by
    happens-before, by what the guards' locking and unlocking synchronizes.  (Nor is there other
    undefined behaviour.) *)
Theorem C88_defined : forall recur v0 c, executions recur v0 c -> ~ bad c.
Proof. exact ereach_not_bad. Qed.
Print Assumptions C88_defined.

(** The reads and writes look like those of one thread at a time. *)
Theorem C88_linearizable : forall recur v0 c, executions recur v0 c ->
  linearizable (fun L => exists v, seq_run datum v0 L v) (hist c).
Proof. exact ereach_lin. Qed.
Print Assumptions C88_linearizable.

(** All that was done to the data happens before what a thread does which has a guard for
    exclusive access (of any of the two kinds); all writes, when it has a shared guard. *)
Theorem C88_happens_before : forall recur v0 c t a, executions recur v0 c -> th c t = None ->
  In a (elog (sh c)) ->
  0 < guards t true (base (sh c)) \/ (awrite a = true /\ 0 < guards t false (base (sh c))) ->
  known (sh c) t a.
Proof. intros recur v0 c t a H. now apply (ereach_knows recur v0). Qed.
Print Assumptions C88_happens_before.

(** A thread (when it is in no call) has locked the mutex exactly once for each of its guards
    which points to the data. *)
Theorem C88_locked : forall recur v0 c t ex, executions recur v0 c -> th c t = None ->
  holds t ex (base (sh c)) = guards t ex (base (sh c)).
Proof. intros recur v0 c t ex. apply (ereach_locked recur v0). Qed.
Print Assumptions C88_locked.

(** Thread 0 writes, moves its guard and destroys it; threads 1 and 2 read at the same time;
    thread 0 takes the exclusive guard again: it knows of the write and of both reads.  Thread 1,
    which has no guard any more, may not write (it does not know of thread 2's read), nor would it
    be defined if it did. *)
Example C88_ex : exists c, executions false 3 c /\ quiet c /\
  guards 0 true (base (sh c)) = 1 /\ elog (sh c) = [Acc 0 1 true; Acc 1 1 false; Acc 2 1 false] /\
  completed 2 (hist c) = [(VOther, VNone); (VRead, VVal 7); (VOther, VNone)] /\
  may 0 true (eclk (sh c)) (elog (sh c)) = true /\ may 1 true (eclk (sh c)) (elog (sh c)) = false.
Proof.
  apply (run_list_ok (eimpl false) ecview erview (eallowed false)
    [(0, CNew KUniq false); (0, CMove 0); (0, CWrite 1 7); (0, CDrop 0); (0, CDrop 1);
     (1, CNew KShared false); (2, CNew KShared true); (1, CRead 2); (2, CRead 3);
     (1, CDrop 2); (2, CDrop 3); (0, CNew KUniq true)] (est0 3)
    (fun s h => guards 0 true (base s) = 1 /\ elog s = [Acc 0 1 true; Acc 1 1 false; Acc 2 1 false] /\
      completed 2 h = [(VOther, VNone); (VRead, VVal 7); (VOther, VNone)] /\
      may 0 true (eclk s) (elog s) = true /\ may 1 true (eclk s) (elog s) = false)).
  - cbn [list_allowed]. unfold eallowed, dallowed. vm_compute. repeat split; eauto.
  - vm_compute. repeat split.
Qed.
