(** The property theorems of pod_vectors with allocators which are objects: C96, C97.

    Parameters of every theorem: how the allocators behave [A] - in everything but whose memory
    is whose they are alike -, sizeof and alignof of the element type [T], and what is left of an
    allocator which is moved from. *)
From Coq Require Import List Arith NArith ZArith Bool Lia.
From Verif Require Import Base SeqSpec VecCommon PodVectorModel PodVectorSpec PodVectorProofs PodVectorProps SmallVectorProofs PodAllocModel PodAllocSpec PodAllocProofs.
Import ListNotations.
Open Scope nat_scope.

(** * C96: memory goes back to the allocator it came from *)

(** Any number of places for vectors, any history of constructors, destructors, assignments, swaps,
    recasts from another vector and member functions: nothing is undefined - in this model that includes freeing, reallocating
    or expanding a block with another allocator than the one which gave it -, every vector has the
    elements and the allocator which the specification gives it, and what memory it has is of that
    allocator.  Once all vectors are destroyed all memory has been freed. *)
Theorem C96_memory_goes_back :
  forall (A : alc) (T : ety), ety_ok T -> alc_ok A ->
  forall (early : bool) (left_of : nat -> nat) (n k : nat) (os : list aop),
  a_along A T left_of (repeat None n) os ->
  exists s cs rs,
    run_calls (a_call A T early left_of) (mkAvs (mkMem [] k) [] (repeat None n)) os = Some (s, rs) /\
    a_history A T left_of (repeat None n) os cs rs /\
    allocators s = allocators_of cs /\
    (forall i al xs, nth_error cs i = Some (Some (al, xs)) -> reads A T s i xs) /\
    (forall i a b off, nth_error (av_slots s) i = Some (Some a) -> pb (av_v a) = Some (b, off) ->
       exists o, nth_error (av_own s) b = Some (av_al a) /\ nth_error (blks (av_mem s)) b = Some o /\ forall x, o <> MFreed x) /\
    ((forall i, i < n -> nth_error cs i = Some None) ->
       Forall (fun b => exists a, b = MFreed a) (blks (av_mem s))).
Proof.
  intros A T HT HA early left_of n k os Al.
  destruct (a_history_spec A T HT HA early left_of os _ _ (a_start A T n k) Al) as (s & cs & rs & E & H & I).
  exists s, cs, rs. split; [exact E|]. split; [exact H|]. split; [now apply (allocators_spec A T)|].
  split; [intros i al xs; now apply (reads_spec A T HT)|]. split; [now apply (memory_spec A T s cs)|].
  intros Hn. eapply (all_freed_spec A T); [exact I|]. rewrite (a_history_length _ _ _ _ _ _ _ H), repeat_length. exact Hn.
Qed.
Print Assumptions C96_memory_goes_back.

Definition ex_b (x : N) : list N := [x; 0; 0; 0]%N.
Definition ex_aops : list aop :=
  [ANewRange 0 7 [ex_b 1; ex_b 2]; ANew 1 9; ACopyAssign 1 0; AMoveAssign 0 1; ACopyNewWith 2 0 5;
   ASwap 0 2; ASwap 1 1; AOn 0 (PSeq PopBack); ADestroy 1; AMoveNew 1 2; ARecastTake 2 1;
   ARecastCopy 0 2; ADestroy 2; ADestroy 0; ADestroy 1].
Lemma ex_room k : k <= 3 -> room ex_int k.
Proof. intros H. unfold room, two63. cbn [esz eal ex_int]. destruct k as [|[|[|[|]]]]; [reflexivity..|lia]. Qed.
Ltac astep := intros cs r H; inversion H; subst; clear H; try discriminate; cbn in *;
  repeat match goal with
         | h : Some _ = Some _ |- _ => inversion h; clear h; subst
         end; cbn.
(** Three places; the allocators 7, 9 and 5; a copy with another allocator, a move which takes the
    memory of 9 along, a swap between different allocators, a swap of a vector with itself,
    recasts of both kinds. *)
Example C96_case :
  a_along ex_malloc ex_int S (repeat None 3) ex_aops /\
  exists s cs rs, run_calls (a_call ex_malloc ex_int false S) (mkAvs (mkMem [] 0) [] (repeat None 3)) ex_aops = Some (s, rs) /\
    a_history ex_malloc ex_int S (repeat None 3) ex_aops cs rs /\ cs = [None; None; None] /\ length (blks (av_mem s)) = 3 /\ av_own s = [7; 9; 5].
Proof.
  split.
  - cbn [a_along ex_aops repeat].
    split; [split; [reflexivity|split; [repeat constructor|apply ex_room; cbn; lia]]|]. astep.
    split; [reflexivity|]. astep.
    split; [split; [eexists; reflexivity|do 2 eexists; split; [reflexivity|apply ex_room; cbn; lia]]|]. astep.
    split; [split; eexists; reflexivity|]. astep.
    split; [split; [reflexivity|do 2 eexists; split; [reflexivity|apply ex_room; cbn; lia]]|]. astep.
    split; [split; eexists; reflexivity|]. astep.
    split; [split; eexists; reflexivity|]. astep.
    split; [do 2 eexists; split; [reflexivity|split; [discriminate|apply ex_room; cbn; lia]]|]. astep.
    match goal with h : pod_step _ _ _ _ _ _ |- _ => inversion h; subst; clear h end. cbn.
    split; [eexists; reflexivity|]. astep.
    split; [split; [reflexivity|eexists; reflexivity]|]. astep.
    split; [split; [lia|split; eexists; reflexivity]|]. astep.
    split; [split; [lia|split; [eexists; reflexivity|do 2 eexists; split; [reflexivity|apply ex_room; cbn; lia]]]|]. astep.
    split; [eexists; reflexivity|]. astep.
    split; [eexists; reflexivity|]. astep.
    split; [eexists; reflexivity|]. astep.
    exact Logic.I.
  - do 3 eexists. split; [vm_compute; reflexivity|]. split; [|split; [reflexivity|split; reflexivity]].
    unfold ex_aops. cbn [repeat].
    eapply ahist_cons; [apply a_new_range|]. eapply ahist_cons; [apply a_new|]. eapply ahist_cons; [eapply a_copy_assign; reflexivity|].
    eapply ahist_cons; [eapply a_move_assign; [lia|reflexivity]|]. eapply ahist_cons; [eapply a_copy_new_with; reflexivity|].
    eapply ahist_cons; [eapply a_swap; reflexivity|]. eapply ahist_cons; [eapply a_swap; reflexivity|].
    eapply ahist_cons; [eapply a_on; [reflexivity|exact (step_seq ex_malloc ex_int [ex_b 1; ex_b 2] PopBack [] ltac:(discriminate))]|].
    eapply ahist_cons; [apply a_destroy|]. eapply ahist_cons; [eapply a_move_new; reflexivity|].
    eapply ahist_cons; [eapply a_recast_take; reflexivity|]. eapply ahist_cons; [eapply a_recast_copy; reflexivity|].
    eapply ahist_cons; [apply a_destroy|]. eapply ahist_cons; [apply a_destroy|]. eapply ahist_cons; [apply a_destroy|].
    apply ahist_nil.
Qed.

(** The hypothesis that only an allocator's own memory is given back to it is not idle: giving back
    a block of another allocator is undefined in this model. *)
Example C96_checked :
  on_vec 0 (a_free_begin ex_malloc ex_int)
    (mkAvs (mkMem [MBlk 1000 (ex_b 1)] 1) [7] [Some (mkAv 9 (mkPv (Some (0, 0)) (Some (0, 4)) 1))]) = UB /\
  on_vec 0 (preserve ex_malloc ex_int 2)
    (mkAvs (mkMem [MBlk 1000 (ex_b 1)] 1) [7] [Some (mkAv 9 (mkPv (Some (0, 0)) (Some (0, 4)) 1))]) = UB.
Proof. split; vm_compute; reflexivity. Qed.

(** * C97: a vector and itself *)

(** As the property has it, for one of the calls: whatever happened before, a vector which is both
    the object and the argument keeps its elements and its allocator, as do all others. *)
Definition keeps_itself (A : alc) (T : ety) (left_of : nat -> nat) (call : nat -> M avs unit) : Prop :=
  forall (early : bool) (n k : nat) (os : list aop),
  a_along A T left_of (repeat None n) os ->
  exists s cs rs,
    run_calls (a_call A T early left_of) (mkAvs (mkMem [] k) [] (repeat None n)) os = Some (s, rs) /\
    a_history A T left_of (repeat None n) os cs rs /\
    forall i al xs, nth_error cs i = Some (Some (al, xs)) -> room T (length xs) ->
    exists s', call i s = Ok tt s' /\ allocators s' = allocators s /\
      forall j al' ys, nth_error cs j = Some (Some (al', ys)) -> reads A T s' j ys.

(** Assignments and swap.  Missing from the property: recast_copy_from and recast_take_from. *)
Theorem C97_assigned_to_itself_partial :
  forall (A : alc) (T : ety), ety_ok T -> alc_ok A -> forall (left_of : nat -> nat),
  keeps_itself A T left_of (fun i => v_copy_assign A T i i) /\
  keeps_itself A T left_of (fun i => v_move_assign A T left_of i i) /\
  keeps_itself A T left_of (fun i => v_swap A T left_of i i).
Proof.
  intros A T HT HA left_of.
  split; [|split]; intros early n k os Al;
    (destruct (a_history_spec A T HT HA early left_of os _ _ (a_start A T n k) Al) as (s & cs & rs & E & H & I);
     exists s, cs, rs; split; [exact E|]; split; [exact H|]; intros i al xs Ei _).
  - exists s. split; [eapply (self_assign A T left_of); eauto|]. split; [reflexivity|].
    intros j al' ys Ej. eapply (reads_spec A T HT); eauto.
  - exists s. split; [eapply (self_assign A T left_of); eauto|]. split; [reflexivity|].
    intros j al' ys Ej. eapply (reads_spec A T HT); eauto.
  - destruct (self_swap A T left_of s cs i al xs I Ei) as (s' & E' & I'). exists s'. split; [exact E'|].
    split; [rewrite (allocators_spec A T s' cs I'), (allocators_spec A T s cs I); reflexivity|].
    intros j al' ys Ej. eapply (reads_spec A T HT); eauto.
Qed.
Print Assumptions C97_assigned_to_itself_partial.

(** recast_copy_from clears the vector before it looks at its argument: it always ends up empty. *)
Theorem C97_recast_copy_empties_refuted :
  forall (A : alc) (T : ety), ety_ok T -> alc_ok A ->
  forall (early : bool) (left_of : nat -> nat) (n k : nat) (os : list aop),
  a_along A T left_of (repeat None n) os ->
  exists s cs rs,
    run_calls (a_call A T early left_of) (mkAvs (mkMem [] k) [] (repeat None n)) os = Some (s, rs) /\
    a_history A T left_of (repeat None n) os cs rs /\
    forall i al xs, nth_error cs i = Some (Some (al, xs)) -> room T (length xs) ->
    exists s', v_recast_copy A T i i s = Ok tt s' /\ reads A T s i xs /\ reads A T s' i [].
Proof.
  intros A T HT HA early left_of n k os Al.
  destruct (a_history_spec A T HT HA early left_of os _ _ (a_start A T n k) Al) as (s & cs & rs & E & H & I).
  exists s, cs, rs. split; [exact E|]. split; [exact H|]. intros i al xs Ei R.
  assert (room T 0) as R0.
  { unfold room in *. cbn. assert (0 <= (N.of_nat (length xs) + N.of_nat (length xs) / 2) * N.of_nat (esz T))%N by apply N.le_0_l. lia. }
  destruct (self_recast_copy A T HT HA s cs i al xs I Ei R0) as (s' & E' & I'). exists s'. split; [exact E'|].
  split; [eapply (reads_spec A T HT); eauto|]. eapply (reads_spec A T HT); [exact I'|]. apply nth_error_upd_eq. eapply nth_lt; eauto.
Qed.
Print Assumptions C97_recast_copy_empties_refuted.

(** recast_take_from frees the memory and goes on using it, if there is any. *)
Theorem C97_recast_take_uses_freed_memory_refuted :
  forall (A : alc) (T : ety), ety_ok T -> alc_ok A ->
  forall (early : bool) (left_of : nat -> nat) (n k : nat) (os : list aop),
  a_along A T left_of (repeat None n) os ->
  exists s cs rs,
    run_calls (a_call A T early left_of) (mkAvs (mkMem [] k) [] (repeat None n)) os = Some (s, rs) /\
    a_history A T left_of (repeat None n) os cs rs /\
    forall i al xs, nth_error cs i = Some (Some (al, xs)) -> xs <> [] -> v_recast_take A T left_of i i s = UB.
Proof.
  intros A T HT HA early left_of n k os Al.
  destruct (a_history_spec A T HT HA early left_of os _ _ (a_start A T n k) Al) as (s & cs & rs & E & H & I).
  exists s, cs, rs. split; [exact E|]. split; [exact H|]. intros i al xs Ei Hx. now apply (self_recast_take A T HT left_of s cs i al xs).
Qed.
Print Assumptions C97_recast_take_uses_freed_memory_refuted.

(** The property in the words above is false of both. *)
Theorem C97_recast_from_itself_refuted :
  exists (A : alc) (T : ety) (left_of : nat -> nat), ety_ok T /\ alc_ok A /\
    ~ keeps_itself A T left_of (fun i => v_recast_copy A T i i) /\
    ~ keeps_itself A T left_of (fun i => v_recast_take A T left_of i i).
Proof.
  exists ex_malloc, ex_int, S. split; [apply ex_int_ok|]. split; [apply ex_malloc_ok|].
  assert (a_along ex_malloc ex_int S (repeat None 1) [ANewRange 0 7 [ex_b 1]]) as Al.
  { split; [split; [reflexivity|split; [repeat constructor|apply ex_room; cbn; lia]]|]. intros; exact Logic.I. }
  split; intros K.
  - destruct (K false 1 0 _ Al) as (s & cs & rs & E & H & G). vm_compute in E. injection E as <- <-.
    inversion H; subst. match goal with h : a_step _ _ _ _ _ _ _ |- _ => inversion h; subst end.
    match goal with h : a_history _ _ _ _ [] _ _ |- _ => inversion h; subst end.
    destruct (G 0 7 [ex_b 1] eq_refl (ex_room 1 ltac:(lia))) as (s' & E & _ & Rd). vm_compute in E. injection E as <-.
    destruct (Rd 0 7 [ex_b 1] eq_refl) as (a & Ea & Es & _). injection Ea as <-. vm_compute in Es. discriminate.
  - destruct (K false 1 0 _ Al) as (s & cs & rs & E & H & G). vm_compute in E. injection E as <- <-.
    inversion H; subst. match goal with h : a_step _ _ _ _ _ _ _ |- _ => inversion h; subst end.
    match goal with h : a_history _ _ _ _ [] _ _ |- _ => inversion h; subst end.
    destruct (G 0 7 [ex_b 1] eq_refl (ex_room 1 ltac:(lia))) as (s' & E & _). vm_compute in E. discriminate.
Qed.
Print Assumptions C97_recast_from_itself_refuted.

Example C97_case :
  a_along ex_malloc ex_int S (repeat None 1) [ANewRange 0 7 [ex_b 1; ex_b 2]] /\
  exists s rs, run_calls (a_call ex_malloc ex_int false S) (mkAvs (mkMem [] 0) [] (repeat None 1)) [ANewRange 0 7 [ex_b 1; ex_b 2]] = Some (s, rs) /\
    v_copy_assign ex_malloc ex_int 0 0 s = Ok tt s /\ v_swap ex_malloc ex_int S 0 0 s = Ok tt s /\
    v_recast_take ex_malloc ex_int S 0 0 s = UB.
Proof.
  split.
  - split; [split; [reflexivity|split; [repeat constructor|apply ex_room; cbn; lia]]|]. intros; exact Logic.I.
  - do 2 eexists. split; [vm_compute; reflexivity|]. split; [|split]; vm_compute; reflexivity.
Qed.
