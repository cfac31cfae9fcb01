(** Theorems about atomic_shared_ptr_storage (properties C50, C51 and C65). *)
From Coq Require Import List Arith Bool Lia.
From Verif Require Import Base ConcModel ConcSpec ConcProofs AspsModel AspsSpec AspsProofs.
Import ListNotations.

(** All executions of any number of threads which call the functions of one storage with their
    own std::shared_ptrs, make such, destroy them and hand them to each other; [uses] says whose
    destructors call load() themselves, up to [n] deep. *)
Notation executions uses n := (reach (impl uses n) cview rview allowed (start ast0)).

(** ** C50 *)

(** Every call takes effect at one moment between its beginning and its end. *)
Theorem C50_linearizable : forall uses n c, executions uses n c ->
  linearizable (fun L => exists v, seq_run holds_one (Sp 0 None) L v) (hist c).
Proof.
  intros uses n c H. destruct (areach_lin uses n c H) as (x & E & Hr & (v & Hv & _) & _).
  exists x. split; [exact E|]. split; [exact Hr|]. now exists v.
Qed.
Print Assumptions C50_linearizable.

(** The use counts are the numbers of pointers which own; an object is destroyed at most once
    and not while a pointer, the stored one or another, owns it; and when no call is under way
    all objects without owner have been destroyed. *)
Theorem C50_counts : forall uses n c, executions uses n c ->
  (forall b, cnt (sh c) b = owners b (objs (sh c))) /\
  (forall b, destroyed b (sh c) <= 1) /\
  (forall b, 0 < owners b (objs (sh c)) -> destroyed b (sh c) = 0) /\
  (quiet c -> forall b, b < ncb (sh c) -> owners b (objs (sh c)) = 0 -> destroyed b (sh c) = 1).
Proof.
  intros uses n c H. destruct (areach_counts uses n c H) as (A & B & C & D).
  split; [exact A|]. split; [exact B|]. split; [|exact D]. intros b Hb. now apply C.
Qed.
Print Assumptions C50_counts.

(** No data race, no use of a destroyed pointer, no count below zero. *)
Theorem C50_defined : forall uses n c, executions uses n c -> ~ bad c.
Proof. intros uses n c. apply areach_not_bad. Qed.
Print Assumptions C50_defined.

(** The theorems speak of something: thread 0 stores a pointer to object 0, thread 1 loads it,
    fails to exchange it with a wrong expectation, succeeds with the right one, drops its two
    pointers, and with the last of them the object is destroyed; object 1 is stored. *)
Example C50_ex : exists c, executions (fun _ => true) 3 c /\ quiet c /\
  completed 1 (hist c) =
    [(VOther, VVal (Some (Sp 8 (Some 1)))); (VLoad, VVal (Some (Sp 7 (Some 0))));
     (VOther, VVal (Some (Sp 9 None))); (VOther, VVal (Some (Sp 8 (Some 1))));
     (VCas (Some (Sp 9 None)) (Some (Sp 8 (Some 1))), VBool false (Some (Sp 7 (Some 0))));
     (VCas (Some (Sp 7 (Some 0))) (Some (Sp 8 (Some 1))), VBool true (Some (Sp 7 (Some 0))));
     (VOther, VUnit); (VOther, VUnit)] /\
  destroyed 0 (sh c) = 1 /\ destroyed 1 (sh c) = 0 /\ owners 1 (objs (sh c)) = 1.
Proof.
  apply (run_list_ok (impl (fun _ => true) 3) cview rview allowed
    [(0, CMake 7); (0, CStore 1); (1, CMake 8); (1, CLoad); (1, CBare 9); (1, CAlias 3 8);
     (1, CCas 5 6); (1, CCas 4 3); (1, CDrop 4); (1, CDrop 5)] ast0
    (fun s h => completed 1 h =
       [(VOther, VVal (Some (Sp 8 (Some 1)))); (VLoad, VVal (Some (Sp 7 (Some 0))));
        (VOther, VVal (Some (Sp 9 None))); (VOther, VVal (Some (Sp 8 (Some 1))));
        (VCas (Some (Sp 9 None)) (Some (Sp 8 (Some 1))), VBool false (Some (Sp 7 (Some 0))));
        (VCas (Some (Sp 7 (Some 0))) (Some (Sp 8 (Some 1))), VBool true (Some (Sp 7 (Some 0))));
        (VOther, VUnit); (VOther, VUnit)] /\
      destroyed 0 s = 1 /\ destroyed 1 s = 0 /\ owners 1 (objs s) = 1)).
  - cbn [list_allowed allowed]. vm_compute. repeat split; eauto; discriminate.
  - vm_compute. repeat split.
Qed.

(** ** C51 *)

(** Objects are destroyed with the lock held only by a compare_exchange which fails, and then
    it is what its expected pointer owned; load, store, exchange and a successful
    compare_exchange destroy nothing under the lock. *)
Theorem C51_outside_lock_partial : forall uses n c, executions uses n c ->
  exists x, erase x = hist c /\ (forall t, exists st, runs t x st) /\
    (exists v, seq_run holds_one (Sp 0 None) (lins x) v) /\
    forall b t, In (b, t, true) (gone (sh c)) ->
      exists e p v, In (t, VCas (Some e) (Some p), VBool false (Some v)) (lins x) /\ cb e = Some b.
Proof.
  intros uses n c H. destruct (areach_lin uses n c H) as (x & E & Hr & (v & Hv & _) & Hg).
  exists x. split; [exact E|]. split; [exact Hr|]. split; [now exists v|exact Hg].
Qed.
Print Assumptions C51_outside_lock_partial.

(** A failing compare_exchange does: the old value of the expected pointer is released with the
    lock held. *)
Theorem C51_under_lock_refuted : forall uses, uses 0 = false -> forall n,
  exists c, executions uses n c /\ quiet c /\ In (0, 0, true) (gone (sh c)).
Proof.
  intros uses Hu n.
  apply (run_list_ok (impl uses n) cview rview allowed
    [(0, CMake 7); (0, CBare 8); (0, CCas 1 2)] ast0 (fun s _ => In (0, 0, true) (gone s))).
  - cbn [list_allowed allowed]. destruct n; cbn; rewrite ?Hu; unfold usable; cbn; repeat split; eauto; try discriminate.
  - destruct n; cbn; rewrite ?Hu; cbn; auto.
Qed.
Print Assumptions C51_under_lock_refuted.

(** If the destructor uses the storage, the thread then waits for itself: whatever happens
    afterwards, the call does not return and the storage stays locked. *)
Theorem C51_deadlock_refuted : forall uses, uses 0 = true -> forall n, 0 < n ->
  exists c k, executions uses n c /\ th c 0 = Some k /\
    forall c', reach (impl uses n) cview rview allowed c c' ->
      th c' 0 = Some k /\ flag (sh c') = Some 0.
Proof. intros uses Hu n Hn. now apply deadlock. Qed.
Print Assumptions C51_deadlock_refuted.

(** Hypotheses which can hold. *)
Example C51_ex : (exists uses, uses 0 = true) /\ (exists uses : nat -> bool, uses 0 = false) /\
  exists c, executions (fun _ => true) 1 c.
Proof.
  split; [now exists (fun _ => true)|]. split; [now exists (fun _ => false)|].
  eexists. apply r_refl.
Qed.

(** ** C65 *)

(** As long as there is one owner for each address, it behaves as std::atomic<std::shared_ptr>. *)
Theorem C65_as_std_partial : forall uses n c, executions uses n c ->
  one_owner ((Sp 0 None) :: flat_map (fun i => args (snd i)) (invs (hist c))) ->
  linearizable (fun L => exists v, seq_run holds_std (Sp 0 None) L v) (hist c).
Proof.
  intros uses n c H Ho. destruct (areach_lin uses n c H) as (x & E & Hr & (v & Hv & _) & _).
  exists x. split; [exact E|]. split; [exact Hr|]. exists v. eapply to_std; eauto.
  intros t k r Hin p Hp. apply in_flat_map. exists (t, k). split; [|exact Hp].
  rewrite <- E. eapply lins_invs; eauto.
Qed.
Print Assumptions C65_as_std_partial.

(** Else not: compare_exchange succeeds though the expected pointer owns nothing and the stored
    one owns an object. *)
Theorem C65_owner_ignored_refuted :
  exists c, executions (fun _ => false) 0 c /\ quiet c /\
    ~ linearizable (fun L => exists v, seq_run holds_std (Sp 0 None) L v) (hist c).
Proof. exact owner_ignored. Qed.
Print Assumptions C65_owner_ignored_refuted.

Example C65_ex : exists c, executions (fun _ => false) 0 c /\ quiet c /\
  one_owner ((Sp 0 None) :: flat_map (fun i => args (snd i)) (invs (hist c))) /\
  completed 0 (hist c) =
    [(VOther, VVal (Some (Sp 7 (Some 0)))); (VOther, VVal (Some (Sp 7 (Some 0))));
     (VStore (Some (Sp 7 (Some 0))), VUnit); (VOther, VVal (Some (Sp 8 None)));
     (VCas (Some (Sp 7 (Some 0))) (Some (Sp 8 None)), VBool true (Some (Sp 7 (Some 0))))].
Proof.
  apply (run_list_ok (impl (fun _ => false) 0) cview rview allowed
    [(0, CMake 7); (0, CAlias 1 7); (0, CStore 1); (0, CBare 8); (0, CCas 2 4)] ast0
    (fun _ h => one_owner ((Sp 0 None) :: flat_map (fun i => args (snd i)) (invs h)) /\ completed 0 h =
      [(VOther, VVal (Some (Sp 7 (Some 0)))); (VOther, VVal (Some (Sp 7 (Some 0))));
       (VStore (Some (Sp 7 (Some 0))), VUnit); (VOther, VVal (Some (Sp 8 None)));
       (VCas (Some (Sp 7 (Some 0))) (Some (Sp 8 None)), VBool true (Some (Sp 7 (Some 0))))])).
  - cbn [list_allowed allowed]. vm_compute. repeat split; eauto; discriminate.
  - vm_compute. split; [|reflexivity].
    intros p q Hp Hq. repeat (destruct Hp as [<-|Hp]); try destruct Hp;
      repeat (destruct Hq as [<-|Hq]); try destruct Hq; cbn; congruence.
Qed.
