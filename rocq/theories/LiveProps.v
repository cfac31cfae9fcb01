(** Theorems about calls coming to an end (properties C91, C92, C93). *)
From Coq Require Import List Arith ZArith Bool Lia.
From Verif Require Import Base ConcModel ConcSpec ConcProofs LiveSpec LiveProofs.
From Verif Require AspsModel AspsSpec AspsProofs AspsLiveProofs MutexModel MutexSpec MutexProofs MutexLiveProofs
  DmutexModel DmutexSpec DmutexProofs DmutexLiveProofs.
Import ListNotations.
Open Scope nat_scope.

(** ** C91: atomic_shared_ptr_storage *)
Section C91.
Import AspsModel AspsSpec.
Notation executions uses n := (reach (impl uses n) cview rview allowed (start ast0)).

(** From any moment on, however the threads are scheduled and as long as no new calls begin, the calls
    under way take at most 18n + 15 steps each (waiting not counted), where [n] is how deep destructors
    which use the storage are nested. *)
Theorem C91_bounded : forall uses n c m c', executions uses n c -> goes_on rview m c c' ->
  m <= (18 * n + 15) * under_way c.
Proof.
  intros uses n c m c' H Hg.
  pose proof (bounded_steps (impl uses n) cview rview allowed ast0 _ (AspsLiveProofs.w_impl uses n) c m c' H Hg) as B.
  unfold AspsLiveProofs.K in B. lia.
Qed.
Print Assumptions C91_bounded.

(** And as long as a call is under way somebody can go on; unless a thread waits for itself, having
    destroyed under the lock an object whose destructor uses the storage. *)
Theorem C91_goes_on : forall uses n c, executions uses n c ->
  quiet c \/ can_go rview c \/
  exists t b, flag (sh c) = Some t /\ waiting c t /\ uses b = true /\ In (b, t, true) (gone (sh c)).
Proof.
  intros uses n c H.
  destruct (progress (impl uses n) cview rview allowed ast0 flag (AspsLiveProofs.marked uses)
    (AspsLiveProofs.l_impl uses n) eq_refl (AspsLiveProofs.K n) (AspsLiveProofs.w_impl uses n)
    (AspsProofs.areach_not_bad uses n) c H) as [Hq|[Hg|(t & Hf & Hw & b & Hu & Hi)]]; auto.
  right; right. exists t, b. auto.
Qed.
Print Assumptions C91_goes_on.

(** So when destructors leave the storage alone, all calls return when no more begin: an execution
    which cannot be prolonged is one with no call under way. *)
Theorem C91_all_return : forall uses n c m c', (forall b, uses b = false) -> executions uses n c ->
  goes_on rview m c c' -> ~ can_go rview c' -> quiet c'.
Proof.
  intros uses n c m c' Hu H Hg Hn.
  pose proof (goes_on_reach (impl uses n) cview rview allowed ast0 m c c' Hg H) as H'.
  destruct (C91_goes_on uses n c' H') as [Hq|[Hc|(t & b & _ & _ & Hb & _)]]; [exact Hq|contradiction|].
  rewrite Hu in Hb. discriminate.
Qed.
Print Assumptions C91_all_return.

(** While more calls begin, this does not hold of one call: a thread may find the lock taken each time
    it looks, for ever, while another thread's calls return. *)
Theorem C91_starvation : forall uses n, exists f : nat -> cfg ast rs vcall vres,
  executions uses n (f 0) /\
  (forall i, step (impl uses n) cview rview allowed (f i) (f (S i))) /\
  (forall i, th (f i) 1 = Some (impl uses n 1 CLoad)) /\
  (forall i, exists j, i <= j /\ waiting (f j) 1) /\
  (forall i, exists j, i <= j /\ returned (hist (f i)) < returned (hist (f j))).
Proof. exact AspsLiveProofs.starvation. Qed.
Print Assumptions C91_starvation.

(** Threads 0 and 1 have begun a load and thread 0 has the lock: thread 1 waits, thread 0 can go on;
    two calls are under way. *)
Example C91_met : exists c, executions (fun _ => false) 0 c /\ under_way c = 2 /\ waiting c 1 /\ can_go rview c.
Proof.
  eexists. split.
  - eapply r_step; [eapply r_step; [eapply r_step; [apply r_refl|]|]|].
    + eapply s_inv with (t := 0) (c := CLoad); [reflexivity|exact Logic.I].
    + eapply s_inv with (t := 1) (c := CLoad); [reflexivity|exact Logic.I].
    + eapply s_act with (t := 0) (n := 0); reflexivity.
  - split; [reflexivity|]. split.
    + eexists. split; [reflexivity|]. intros n. reflexivity.
    + eexists. eapply g_act with (t := 0) (n := 0); reflexivity.
Qed.
End C91.

(** ** C92: strong_try_rec_mutex *)
Section C92.
Import MutexModel MutexSpec.
Open Scope nat_scope.
Notation executions dmax := (reach (mimpl dmax) mcview mrview (mallowed dmax) (start mst0)).

(** try_lock and unlock take at most 11 steps each, whoever has locked the mutex. *)
Theorem C92_bounded : forall dmax c m c', executions dmax c -> goes_on mrview m c c' -> m <= 11 * under_way c.
Proof.
  intros dmax c m c' H Hg.
  exact (bounded_steps (mimpl dmax) mcview mrview (mallowed dmax) mst0 10 (MutexLiveProofs.w_mimpl dmax) c m c' H Hg).
Qed.
Print Assumptions C92_bounded.

(** Somebody can always go on: try_lock does not wait for the one who has locked it. *)
Theorem C92_goes_on : forall dmax c, (0 < dmax)%Z -> executions dmax c -> quiet c \/ can_go mrview c.
Proof.
  intros dmax c Hd H.
  destruct (progress (mimpl dmax) mcview mrview (mallowed dmax) mst0 inner MutexLiveProofs.unmarked
    (MutexLiveProofs.l_mimpl dmax) eq_refl 10 (MutexLiveProofs.w_mimpl dmax)
    (MutexProofs.mreach_not_bad dmax Hd) c H) as [Hq|[Hg|(t & _ & _ & [])]]; auto.
Qed.
Print Assumptions C92_goes_on.

Theorem C92_all_return : forall dmax c m c', (0 < dmax)%Z -> executions dmax c ->
  goes_on mrview m c c' -> ~ can_go mrview c' -> quiet c'.
Proof.
  intros dmax c m c' Hd H Hg Hn.
  pose proof (goes_on_reach (mimpl dmax) mcview mrview (mallowed dmax) mst0 m c c' Hg H) as H'.
  destruct (C92_goes_on dmax c' Hd H') as [Hq|Hc]; [exact Hq|contradiction].
Qed.
Print Assumptions C92_all_return.

(** Thread 0 has locked the mutex and thread 1 is in try_lock. *)
Example C92_met : exists c, executions 5 c /\ under_way c = 1 /\ can_go mrview c /\ owner (sh c) = Some 0 /\
  (exists x, th c 1 = Some x).
Proof.
  destruct (run_list_ok (mimpl 5) mcview mrview (mallowed 5) [(0, CTry)] mst0 (fun s h => s = Mst None (Some 0) 1 /\ h = [EInv 0 CTry; ERes 0 (Some true)]))
    as (c & Hc & Hq & Ho & Hh).
  - cbn [list_allowed]. vm_compute. repeat split.
  - vm_compute. repeat split.
  - destruct c as [s T h]. cbn [sh hist] in *. subst s h. eexists. split; [|split; [|split; [|split]]].
    + eapply r_step; [exact Hc|]. eapply s_inv with (t := 1) (c := CTry); [apply Hq|vm_compute; reflexivity].
    + reflexivity.
    + eexists. eapply g_act with (t := 1) (n := 0); [now rewrite setm_eq|reflexivity].
    + reflexivity.
    + eexists. cbn [th]. now rewrite setm_eq.
Qed.
End C92.

(** ** C93: data_mutex *)
Section C93.
Import DmutexModel DmutexSpec.
Notation executions recur v0 := (reach (dimpl recur false) dcview drview (dallowed recur) (start (dst0 v0))).

(** Making, moving, destroying and using a guard take at most 15 steps each. *)
Theorem C93_bounded : forall recur v0 c m c', executions recur v0 c -> goes_on drview m c c' ->
  m <= 15 * under_way c.
Proof.
  intros recur v0 c m c' H Hg.
  exact (bounded_steps (dimpl recur false) dcview drview (dallowed recur) (dst0 v0) 14 (DmutexLiveProofs.w_dimpl recur) c m c' H Hg).
Qed.
Print Assumptions C93_bounded.

(** Somebody can go on, or some thread which is in no call keeps a guard: there is nothing else to wait
    for. *)
Theorem C93_goes_on : forall recur v0 c, executions recur v0 c ->
  quiet c \/ can_go drview c \/ exists t ex, th c t = None /\ 0 < guards t ex (sh c).
Proof.
  intros recur v0 c H. destruct (DmutexLiveProofs.waits_for_guards recur v0 c H) as [Hq|[Hg|(t & Ht & ex & He)]]; auto.
  right; right. now exists t, ex.
Qed.
Print Assumptions C93_goes_on.

(** In particular when nobody keeps a guard all calls return. *)
Theorem C93_all_return : forall recur v0 c m c', executions recur v0 c -> goes_on drview m c c' ->
  ~ can_go drview c' -> (forall t ex, th c' t = None -> guards t ex (sh c') = 0) -> quiet c'.
Proof.
  intros recur v0 c m c' H Hg Hn Hk.
  pose proof (goes_on_reach (dimpl recur false) dcview drview (dallowed recur) (dst0 v0) m c c' Hg H) as H'.
  destruct (C93_goes_on recur v0 c' H') as [Hq|[Hc|(t & ex & Ht & He)]]; [exact Hq|contradiction|].
  rewrite Hk in He by exact Ht. lia.
Qed.
Print Assumptions C93_all_return.

(** Thread 0 has a guard and thread 1 waits for it: nobody can go on before thread 0 begins another call. *)
Example C93_met : exists c, executions false 7 c /\ under_way c = 1 /\ waiting c 1 /\ ~ can_go drview c /\
  th c 0 = None /\ guards 0 true (sh c) = 1.
Proof.
  destruct (run_list_ok (dimpl false false) dcview drview (dallowed false) [(0, CNew KUniq false)] (dst0 7)
    (fun s h => s = Dst (Some (0, 1)) [] [Some (Guard 0 KUniq PSet)] (Some 7) None [] /\ h = [EInv 0 VOther; ERes 0 VNone]))
    as (c & Hc & Hq & Ho & Hh).
  - cbn [list_allowed]. vm_compute. repeat split. now right.
  - vm_compute. repeat split.
  - destruct c as [s T h]. cbn [sh hist] in *. subst s h. eexists. split; [|split; [|split; [|split; [|split]]]].
    + eapply r_step; [eapply r_step; [exact Hc|]|].
      * eapply s_inv with (t := 1) (c := CNew KUniq false); [apply Hq|]. vm_compute. split; [reflexivity|now right].
      * eapply s_act with (t := 1) (n := 0); [now rewrite setm_eq|reflexivity].
    + reflexivity.
    + eexists. cbn [th sh]. rewrite setm_eq. split; [reflexivity|]. now intros [|n].
    + intros (c' & Hg). inversion Hg as [s T0 h t a n s' k HT Ha|s T0 h t r HT]; clear Hg; subst;
        (destruct (Nat.eq_dec t 1) as [->|Hn]; [rewrite setm_eq in HT|rewrite !setm_neq in HT by auto; pose proof (Hq t) as Hz; cbn [th] in Hz; congruence]).
      * injection HT as HT. subst a. destruct n; discriminate Ha.
      * discriminate HT.
    + cbn [th]. rewrite !setm_neq by discriminate. apply Hq.
    + reflexivity.
Qed.
End C93.
