(** Theorems about atomic_relaxed_counter under the C++ memory model (property C85). *)
From Coq Require Import ZArith List Bool Lia.
From Verif Require Import Base ConcModel ConcSpec ConcProofs WmModel WmProofs AtomicModel AtomicSpec
  AtomicProofs AtomicWeakModel AtomicWeakSpec AtomicWeakProofs.
Import ListNotations.
Open Scope Z_scope.

(** All executions of any number of threads, which call the counter's functions with relaxed
    memory order and synchronize with each other by other means. *)
Notation weak_executions bits sgn v0 :=
  (wreach (kimpl bits sgn) kcview krview (kallowed bits sgn) (wstart (loc0 v0))).

(** There is one order of all calls which has each thread's calls in their order, has before a
    call what happens before it, and in which each call returns what it returns when calls
    happen one at a time. Of the calls in progress some may have taken effect. *)
Theorem C85_one_order : forall bits sgn v0 c,
  0 < bits -> lo bits sgn <= v0 <= hi bits sgn -> weak_executions bits sgn v0 c ->
  exists L a, seq_run (aspec bits sgn) v0 L a /\
    (forall t, exists rest, ops_by t L = ops t (whist c) ++ rest /\
       (rest = [] \/ exists k r, rest = [(k, r)] /\ now_calling (whist c) t = Some (KOp k))) /\
    respects (whist c) L.
Proof.
  intros bits sgn v0 c Hb Hv H.
  destruct (kreach_order bits sgn Hb v0 Hv c H) as (L & R & a & Hrun & Hops & Hresp & _).
  now exists L, a.
Qed.
Print Assumptions C85_one_order.

(** A thread which has synchronized with all the others, directly or not, after their last calls
    reads the initial value plus everything that was added and minus everything that was
    subtracted: no update is lost. *)
Theorem C85_no_lost_update : forall bits sgn v0 c h t k r,
  0 < bits -> lo bits sgn <= v0 <= hi bits sgn -> weak_executions bits sgn v0 c ->
  whist c = h ++ [EInv t (KOp k); ERes t (Some r)] -> k = CLoad \/ k = CConv ->
  (forall u, knows h t u = begun u h) ->
  all_calls (fun k => delta k <> None) (counter_calls h) ->
  value_of bits sgn (v0 + total (fun d => d) (counter_calls h)) r.
Proof. intros bits sgn v0 c h t k r Hb Hv. now apply joined. Qed.
Print Assumptions C85_no_lost_update.

(** When only increments happen, and no more of them than the type has values, no two ++x return
    the same value and no two x++ return the same value. *)
Theorem C85_distinct : forall bits sgn v0 c,
  0 < bits -> lo bits sgn <= v0 <= hi bits sgn -> weak_executions bits sgn v0 c ->
  all_calls (fun k => k = CPreInc \/ k = CPostInc) (counter_calls (whist c)) ->
  Z.of_nat (calls (counter_calls (whist c))) <= 2 ^ bits ->
  forall t i u j k r q,
    nth_error (ops t (whist c)) i = Some (k, r) -> nth_error (ops u (whist c)) j = Some (k, q) ->
    (t, i) <> (u, j) -> r <> q.
Proof. intros bits sgn v0 c Hb Hv. now apply kdistinct. Qed.
Print Assumptions C85_distinct.

(** No execution has undefined behaviour when the type is unsigned or narrower than int, or when
    the sums stay in the range of the type whatever the order of the calls. *)
Theorem C85_defined : forall bits sgn v0 c,
  0 < bits -> lo bits sgn <= v0 <= hi bits sgn -> weak_executions bits sgn v0 c ->
  (sgn = false \/ bits < 32 \/
   (all_calls (fun k => delta k <> None) (counter_calls (whist c)) /\
    v0 + total (Z.max 0) (counter_calls (whist c)) <= hi bits sgn /\
    lo bits sgn <= v0 + total (Z.min 0) (counter_calls (whist c)))) ->
  ~ wbad c.
Proof.
  intros bits sgn v0 c Hb Hv H [->|[Hn|(HD & H1 & H2)]].
  - apply (knarrow_not_bad bits false Hb v0 Hv); auto.
  - apply (knarrow_not_bad bits sgn Hb v0 Hv); auto. unfold wide_signed.
    rewrite (proj2 (Z.leb_gt _ _)) by lia. now destruct sgn.
  - apply (kbounded_not_bad bits sgn Hb v0 Hv); auto.
Qed.
Print Assumptions C85_defined.

(** Without synchronization a load may miss an increment which has returned already: there is no
    order of the calls that also has them in the order of time (C49 has it, which is about
    interleaved operations). *)
Theorem C85_stale_load : forall bits sgn v0,
  exists c, weak_executions bits sgn v0 c /\ wquiet c /\
    whist c = [EInv 0%nat (KOp CPostInc); ERes 0%nat (Some v0);
               EInv 1%nat (KOp CLoad); ERes 1%nat (Some v0)].
Proof.
  intros bits sgn v0.
  destruct (wexec_ok (kimpl bits sgn) kcview krview (kallowed bits sgn)
    [SInv 0%nat (KOp CPostInc); SAct 0 0; SRet 0; SInv 1%nat (KOp CLoad); SAct 1 0; SRet 1]
    (fun c => wth c 0%nat = None /\ wth c 1%nat = None /\
       whist c = [EInv 0%nat (KOp CPostInc); ERes 0%nat (Some v0);
                  EInv 1%nat (KOp CLoad); ERes 1%nat (Some v0)])
    (wstart (loc0 v0)) (wstart (loc0 v0)) (wr_refl _ _ _ _ _)) as (c & Hc & (H0 & H1 & H2) & H3).
  - cbn. repeat split; discriminate.
  - exists c. split; [exact Hc|]. split; [|exact H2].
    intros [|[|t]]; [exact H0|exact H1|]. rewrite H3; [reflexivity|]. cbn. lia.
Qed.
Print Assumptions C85_stale_load.

(** The theorems speak of something: threads 0 and 1 increment; thread 2 reads too early and too
    little, then synchronizes with both, the second one by way of the first, and reads the sum. *)
Example C85_ex : exists c h, weak_executions 8 false 255 c /\
  whist c = h ++ [EInv 2%nat (KOp CLoad); ERes 2%nat (Some 1)] /\
  (forall u, knows h 2 u = begun u h) /\
  all_calls (fun k => delta k <> None) (counter_calls h) /\
  total (fun d => d) (counter_calls h) = 2 /\
  ops 2 (whist c) = [(CLoad, Some 0); (CLoad, Some 1)].
Proof.
  set (h := [EInv 0%nat (KOp CPreInc); EInv 1%nat (KOp CPreInc); ERes 1%nat (Some 0);
             ERes 0%nat (Some 1); EInv 2%nat (KOp CLoad); ERes 2%nat (Some 0);
             EInv 0%nat (KSync 1); ERes 0%nat None; EInv 2%nat (KSync 0); ERes 2%nat None]
            : list (event kcall (option Z))).
  destruct (wexec_ok (kimpl 8 false) kcview krview (kallowed 8 false)
    [SInv 0%nat (KOp CPreInc); SInv 1%nat (KOp CPreInc); SAct 1 0; SAct 0 1; SRet 1; SRet 0;
     SInv 2%nat (KOp CLoad); SAct 2 1; SRet 2; SInv 0%nat (KSync 1); SAct 0 0; SRet 0;
     SInv 2%nat (KSync 0); SAct 2 0; SRet 2; SInv 2%nat (KOp CLoad); SAct 2 2; SRet 2]
    (fun c => whist c = h ++ [EInv 2%nat (KOp CLoad); ERes 2%nat (Some 1)])
    (wstart (loc0 255)) (wstart (loc0 255)) (wr_refl _ _ _ _ _)) as (c & Hc & H0 & _).
  - vm_compute. repeat split; discriminate.
  - exists c, h. split; [exact Hc|]. split; [exact H0|]. split; [|split; [|split]].
    + intros [|[|[|u]]]; reflexivity.
    + intros t k. simpl. intros [H|[H|[H|[]]]]; injection H as _ <-; discriminate.
    + reflexivity.
    + rewrite H0. reflexivity.
Qed.

(** Two threads increment an int, and neither knows of the other: the hypotheses of the theorems
    about distinct values and about overflow. *)
Example C85_distinct_ex : exists c, weak_executions 32 true 7 c /\
  all_calls (fun k => k = CPreInc \/ k = CPostInc) (counter_calls (whist c)) /\
  Z.of_nat (calls (counter_calls (whist c))) <= 2 ^ 32 /\
  all_calls (fun k => delta k <> None) (counter_calls (whist c)) /\
  7 + total (Z.max 0) (counter_calls (whist c)) <= hi 32 true /\
  lo 32 true <= 7 + total (Z.min 0) (counter_calls (whist c)) /\
  ops 0 (whist c) = [(CPostInc, Some 7)] /\ ops 1 (whist c) = [(CPostInc, Some 8)] /\
  knows (whist c) 1 0 = 0%nat.
Proof.
  set (h := [EInv 0%nat (KOp CPostInc); EInv 1%nat (KOp CPostInc); ERes 0%nat (Some 7);
             ERes 1%nat (Some 8)] : list (event kcall (option Z))).
  destruct (wexec_ok (kimpl 32 true) kcview krview (kallowed 32 true)
    [SInv 0%nat (KOp CPostInc); SInv 1%nat (KOp CPostInc); SAct 0 0; SAct 1 1; SRet 0; SRet 1]
    (fun c => whist c = h)
    (wstart (loc0 7)) (wstart (loc0 7)) (wr_refl _ _ _ _ _)) as (c & Hc & H0 & _).
  - vm_compute. repeat split; discriminate.
  - exists c. split; [exact Hc|]. rewrite H0. split; [|split; [|split; [|split; [|split; [|split; [|split]]]]]].
    + intros t k. simpl. intros [H|[H|[]]]; injection H as _ <-; auto.
    + vm_compute. discriminate.
    + intros t k. simpl. intros [H|[H|[]]]; injection H as _ <-; discriminate.
    + vm_compute. discriminate.
    + vm_compute. discriminate.
    + reflexivity.
    + reflexivity.
    + reflexivity.
Qed.
