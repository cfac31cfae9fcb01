(** Theorems about strong_try_rec_mutex and the data it guards (property C86). *)
From Coq Require Import ZArith List Bool Lia.
From Verif Require Import Base ConcModel ConcSpec ConcProofs WmModel WmProofs MutexModel MutexSpec MutexProofs
  MutexWeakModel MutexWeakSpec MutexWeakProofs.
Import ListNotations.
Open Scope Z_scope.

(** All executions of any number of threads which unlock only what they have locked, do not lock
    more than [dmax] times, and use the data only when they have locked the mutex. *)
Notation guarded_executions dmax v0 :=
  (wreach (himpl dmax) hcview hrview (hallowed dmax) (wstart (hst0 v0))).

(** There is no data race: not on the mutex' members, and not on the data it guards.  No assert
    fails and the depth does not overflow. *)
Theorem C86_defined : forall dmax v0 c, 0 < dmax -> guarded_executions dmax v0 c -> ~ wbad c.
Proof. intros dmax v0 c H. now apply hreach_not_bad. Qed.
Print Assumptions C86_defined.

(** Every call of the mutex takes effect at one moment between its beginning and its end, as in
    C53. *)
Theorem C86_linearizable : forall dmax v0 c, 0 < dmax -> guarded_executions dmax v0 c ->
  linearizable rec_mutex (mutex_hist (whist c)).
Proof.
  intros dmax v0 c Hd H. destruct (hreach_sim dmax Hd v0 c H) as (m & G & Hm & _ & HH & _).
  rewrite <- HH. now apply (mreach_lin dmax).
Qed.
Print Assumptions C86_linearizable.

(** A thread which has locked the mutex and is in no call has before it everything that was done
    with the data so far: the previous owners' unlock synchronizes with its try_lock. *)
Theorem C86_happens_before : forall dmax v0 c t, 0 < dmax -> guarded_executions dmax v0 c ->
  wth c t = None -> 0 < balance (completed t (mutex_hist (whist c))) ->
  forall a, In a (ulog (wsh c)) -> (atime a <= hclk (wsh c) t (athr a))%nat.
Proof.
  intros dmax v0 c t Hd H Ht Hb. destruct (hreach_sim dmax Hd v0 c H) as (m & G & Hm & HR & HH & HT & _).
  assert (th m t = None) as Hi.
  { specialize (HT t). unfold thread_ok in HT. destruct (G t).
    - apply HT.
    - rewrite Ht in HT. apply HT. }
  rewrite <- HH in Hb. pose proof (mreach_owner dmax Hd m t Hm Hi Hb) as Eo.
  destruct HR as (_ & E2 & _ & _ & _ & H3). unfold owning in H3. rewrite E2, Eo in H3. exact H3.
Qed.
Print Assumptions C86_happens_before.

(** The data is used by one thread at a time, and a read gives what was written last. *)
Theorem C86_data : forall dmax v0 c, 0 < dmax -> guarded_executions dmax v0 c ->
  (forall t u, in_use t (whist c) = true -> in_use u (whist c) = true -> t = u) /\
  (forall h1 t v h2, whist c = h1 ++ ERes t (HVal v) :: h2 -> v = last_written v0 h1).
Proof.
  intros dmax v0 c Hd H. destruct (hreach_sim dmax Hd v0 c H) as (m & G & Hm & HR & HH & HT & HU & _ & _ & HQ).
  split; [|exact HQ]. intros t u Ht Hu. rewrite HU in *.
  pose proof (HT t) as Kt. pose proof (HT u) as Ku.
  destruct (G t); [|discriminate]. destruct (G u); [|discriminate].
  destruct Kt as (K1 & _ & _ & K2), Ku as (L1 & _ & _ & L2).
  now apply (one_user dmax Hd m).
Qed.
Print Assumptions C86_data.

(** Thread 0 locks twice and writes; thread 1 fails to lock; thread 0 unlocks twice; thread 1
    locks and reads what thread 0 wrote. *)
Fixpoint acts (t n : nat) : list (sched hcall) :=
  match n with O => [] | S n' => SAct t 0 :: acts t n' end.
Definition call (t : nat) (c : hcall) (n : nat) : list (sched hcall) :=
  SInv t c :: acts t n ++ [SRet t].
Example C86_ex : exists c, guarded_executions 10 3 c /\
  wth c 1%nat = None /\ 0 < balance (completed 1%nat (mutex_hist (whist c))) /\
  completed 1%nat (whist c) = [(HMutex CTry, HM (Some false)); (HMutex CTry, HM (Some true)); (HRead, HVal 7)] /\
  map athr (ulog (wsh c)) = [0; 0; 1]%nat.
Proof.
  destruct (wexec_ok (himpl 10) hcview hrview (hallowed 10)
    (call 0 (HMutex CTry) 7 ++ call 0 (HMutex CTry) 6 ++ call 0 HRead 1 ++ call 0 (HWrite 7) 1 ++
     call 1 (HMutex CTry) 4 ++ call 0 (HMutex CUnlock) 7 ++ call 0 (HMutex CUnlock) 8 ++
     call 1 (HMutex CTry) 7 ++ call 1 HRead 1)
    (fun c => wth c 1%nat = None /\ 0 < balance (completed 1%nat (mutex_hist (whist c))) /\
       completed 1%nat (whist c) =
         [(HMutex CTry, HM (Some false)); (HMutex CTry, HM (Some true)); (HRead, HVal 7)] /\
       map athr (ulog (wsh c)) = [0; 0; 1]%nat)
    (wstart (hst0 3)) (wstart (hst0 3)) (wr_refl _ _ _ _ _)) as (c & Hc & H0 & _).
  - vm_compute. repeat split.
  - exists c. split; [exact Hc|exact H0].
Qed.
