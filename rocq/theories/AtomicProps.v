(** Theorems about atomic_relaxed_counter (property C49). *)
From Coq Require Import ZArith List Bool Lia.
From Verif Require Import Base ConcModel ConcSpec ConcProofs AtomicModel AtomicSpec AtomicProofs.
Import ListNotations.
Open Scope Z_scope.

(** All executions of any number of threads. *)
Notation executions bits sgn v0 :=
  (reach (aimpl bits sgn) acview arview (aallowed bits sgn) (start v0)).

(** ** C49: no update is lost *)

(** Every call of every execution takes effect at one moment between its beginning and its end,
    and what it returns is what it returns when calls happen one at a time. *)
Theorem C49_linearizable_partial : forall bits sgn v0 c,
  0 < bits -> lo bits sgn <= v0 <= hi bits sgn ->
  executions bits sgn v0 c ->
  linearizable (fun L => exists a, seq_run (aspec bits sgn) v0 L a) (hist c).
Proof.
  intros bits sgn v0 c Hb Hv H. destruct (areach_lin bits sgn Hb v0 Hv c H) as (x & E & Hr & HI & _).
  exists x. split; [exact E|]. split; [exact Hr|]. exists (sh c). exact HI.
Qed.
Print Assumptions C49_linearizable_partial.

(** When no call is under way, the counter is the initial value plus everything that was added
    and minus everything that was subtracted, modulo the range of the type. *)
Theorem C49_no_lost_update_partial : forall bits sgn v0 c,
  0 < bits -> lo bits sgn <= v0 <= hi bits sgn ->
  executions bits sgn v0 c -> quiet c ->
  all_calls (fun k => delta k <> None) (hist c) ->
  value_of bits sgn (v0 + total (fun d => d) (hist c)) (sh c).
Proof. intros. apply quiet_value; auto. Qed.
Print Assumptions C49_no_lost_update_partial.

(** When only increments happen, and no more of them than the type has values, no two ++x return
    the same value and no two x++ return the same value. *)
Theorem C49_distinct_partial : forall bits sgn v0 c,
  0 < bits -> lo bits sgn <= v0 <= hi bits sgn ->
  executions bits sgn v0 c ->
  all_calls (fun k => k = CPreInc \/ k = CPostInc) (hist c) ->
  Z.of_nat (calls (hist c)) <= 2 ^ bits ->
  forall t i u j k r q,
    nth_error (completed t (hist c)) i = Some (k, r) ->
    nth_error (completed u (hist c)) j = Some (k, q) ->
    (t, i) <> (u, j) -> r <> q.
Proof. intros bits sgn v0 c Hb Hv. now apply distinct. Qed.
Print Assumptions C49_distinct_partial.

(** No execution has undefined behaviour when the type is unsigned or narrower than int, or when
    the sums stay in the range of the type whatever the order of the calls. *)
Theorem C49_defined_partial : forall bits sgn v0 c,
  0 < bits -> lo bits sgn <= v0 <= hi bits sgn ->
  executions bits sgn v0 c ->
  (sgn = false \/ bits < 32 \/
   (all_calls (fun k => delta k <> None) (hist c) /\
    v0 + total (Z.max 0) (hist c) <= hi bits sgn /\
    lo bits sgn <= v0 + total (Z.min 0) (hist c))) ->
  ~ bad c.
Proof.
  intros bits sgn v0 c Hb Hv H [->|[Hn|(HD & H1 & H2)]].
  - apply (narrow_not_bad bits false Hb v0 Hv); auto.
  - apply (narrow_not_bad bits sgn Hb v0 Hv); auto. unfold wide_signed.
    rewrite (proj2 (Z.leb_gt _ _)) by lia. now destruct sgn.
  - apply (bounded_not_bad bits sgn Hb v0 Hv); auto.
Qed.
Print Assumptions C49_defined_partial.

(** For signed types from int on, the increment of the largest value is undefined behaviour,
    although std::atomic itself wraps around: ++x computes the value once more, as [old + 1]. *)
Theorem C49_overflow_refuted : forall bits, 32 <= bits ->
  exists c, executions bits true (hi bits true) c /\ bad c /\
    value_of bits true (hi bits true + 1) (sh c).
Proof.
  intros bits Hb. eexists. split.
  - eapply r_step. eapply r_step. apply r_refl.
    + apply (s_inv _ _ _ _ _ _ _ 0%nat CPreInc); [reflexivity|]. split; [exact I|discriminate].
    + eapply (s_act _ _ _ _ _ _ _ 0%nat _ 0%nat); [apply setm_eq|reflexivity].
  - cbn [sh th]. split.
    + exists 0%nat, (fun _ _ => Bad), 0%nat. split; [|reflexivity]. cbn [th]. rewrite setm_eq.
      unfold ret_plus, plus, wide_signed. cbn [snd].
      rewrite (proj2 (Z.leb_le _ _) Hb). cbn [andb].
      assert (hi bits true + 1 <=? hi bits true = false) as -> by (apply Z.leb_gt; lia).
      rewrite andb_false_r. reflexivity.
    + apply value_of_norm. lia.
Qed.
Print Assumptions C49_overflow_refuted.

(** A counter assigned to itself is read and then written: an increment in between is lost. *)
Theorem C49_self_assign_refuted : forall bits sgn v0,
  0 < bits -> lo bits sgn <= v0 <= hi bits sgn ->
  exists c, reach (aimpl bits sgn) acview arview (aany bits sgn) (start v0) c /\
    completed 1%nat (hist c) = [(CPostInc, Some v0)] /\ quiet c /\
    all_calls (fun k => k = CPostInc \/ k = CSelf) (hist c) /\ sh c = v0.
Proof.
  intros bits sgn v0 Hb Hv.
  eexists. split.
  - eapply r_step. eapply r_step. eapply r_step. eapply r_step. eapply r_step. eapply r_step. eapply r_step.
    apply r_refl.
    + apply (s_inv _ _ _ _ _ _ _ 0%nat CSelf); [reflexivity|exact I].
    + eapply (s_act _ _ _ _ _ _ _ 0%nat _ 0%nat); [apply setm_eq|reflexivity].
    + apply (s_inv _ _ _ _ _ _ _ 1%nat CPostInc); [reflexivity|exact I].
    + eapply (s_act _ _ _ _ _ _ _ 1%nat _ 0%nat); [apply setm_eq|reflexivity].
    + eapply (s_ret _ _ _ _ _ _ _ 1%nat); apply setm_eq.
    + eapply (s_act _ _ _ _ _ _ _ 0%nat _ 0%nat); reflexivity.
    + eapply (s_ret _ _ _ _ _ _ _ 0%nat); apply setm_eq.
  - cbn [hist sh th app]. split; [reflexivity|]. split; [|split; [|reflexivity]].
    + intros t. unfold setm. cbn [th]. destruct t as [|[|t]]; reflexivity.
    + intros t k. unfold acview. simpl. intros [H|[H|[H|[H|[]]]]]; try discriminate; injection H as _ <-; auto.
Qed.
Print Assumptions C49_self_assign_refuted.

(** The theorems speak of something: two threads increment an unsigned 8 bit counter at 255 at
    the same time, and it ends at 1. *)
Example C49_ex : exists c, executions 8 false 255 c /\ quiet c /\
  all_calls (fun k => delta k <> None) (hist c) /\
  total (fun d => d) (hist c) = 2 /\ calls (hist c) = 2%nat /\ sh c = 1 /\
  completed 0%nat (hist c) = [(CPreInc, Some 1)] /\ completed 1%nat (hist c) = [(CPreInc, Some 0)].
Proof.
  eexists. split.
  - eapply r_step. eapply r_step. eapply r_step. eapply r_step. eapply r_step. eapply r_step.
    apply r_refl.
    + apply (s_inv _ _ _ _ _ _ _ 0%nat CPreInc); [reflexivity|]. split; [exact I|discriminate].
    + apply (s_inv _ _ _ _ _ _ _ 1%nat CPreInc); [reflexivity|]. split; [exact I|discriminate].
    + eapply (s_act _ _ _ _ _ _ _ 1%nat _ 0%nat); [apply setm_eq|reflexivity].
    + eapply (s_act _ _ _ _ _ _ _ 0%nat _ 0%nat); [reflexivity|reflexivity].
    + eapply (s_ret _ _ _ _ _ _ _ 0%nat); reflexivity.
    + eapply (s_ret _ _ _ _ _ _ _ 1%nat); reflexivity.
  - cbn [hist sh th app]. split; [|split; [|repeat split; reflexivity]].
    + intros t. unfold setm. cbn [th]. destruct t as [|[|t]]; reflexivity.
    + intros t k. unfold acview. simpl. intros [H|[H|[H|[H|[]]]]]; try discriminate; injection H as _ <-; discriminate.
Qed.

(** A signed counter which stays in its range. *)
Example C49_ex_signed : exists c, executions 32 true 0 c /\ hist c = [EInv 0%nat (CAdd 5)] /\
  0 + total (Z.max 0) (hist c) <= hi 32 true /\ lo 32 true <= 0 + total (Z.min 0) (hist c).
Proof.
  eexists. split.
  - eapply r_step; [apply r_refl|].
    apply (s_inv _ _ _ _ _ _ _ 0%nat (CAdd 5)); [reflexivity|]. split; [vm_compute; split; discriminate|discriminate].
  - split; [reflexivity|]. vm_compute. split; discriminate.
Qed.
