(** Theorems about atomic_shared_ptr_storage under the C++ memory model (property C84). *)
From Coq Require Import List Arith Bool Lia.
From Verif Require Import Base ConcModel ConcSpec ConcProofs WmModel WmProofs AspsModel AspsSpec AspsProofs
  AspsWeakModel AspsWeakSpec AspsWeakProofs.
Import ListNotations.

(** All executions of any number of threads which call the functions of one storage with their
    own std::shared_ptrs, make such, destroy them and hand them to each other; the spinlock's
    flag is an atomic object of the C++ memory model, m_ptr is plain memory. *)
Notation weak_executions uses n := (wreach (wimpl uses n) wcview wrview wallowed (wstart wst0)).
Notation executions uses n := (reach (impl uses n) cview rview allowed (start ast0)).

(** No data race on m_ptr, no use of a destroyed pointer, no count below zero. *)
Theorem C84_defined : forall uses n c, weak_executions uses n c -> ~ wbad c.
Proof. intros uses n c. apply wreach_not_bad. Qed.
Print Assumptions C84_defined.

(** Every call takes effect at one moment between its beginning and its end. *)
Theorem C84_linearizable : forall uses n c, weak_executions uses n c ->
  linearizable (fun L => exists v, seq_run holds_one (Sp 0 None) L v) (whist c).
Proof.
  intros uses n c H. destruct (wreach_sim uses n c H) as (c' & Hc & _ & -> & _).
  destruct (areach_lin uses n c' Hc) as (x & E & Hr & (v & Hv & _) & _).
  exists x. split; [exact E|]. split; [exact Hr|]. now exists v.
Qed.
Print Assumptions C84_linearizable.

(** The use counts are the numbers of pointers which own; an object is destroyed at most once
    and not while a pointer owns it; and when no call is under way all objects without owner
    have been destroyed. *)
Theorem C84_counts : forall uses n c, weak_executions uses n c ->
  (forall b, wcnt (wsh c) b = owners b (wobjs (wsh c))) /\
  (forall b, wdestroyed b (wsh c) <= 1) /\
  (forall b, 0 < owners b (wobjs (wsh c)) -> wdestroyed b (wsh c) = 0) /\
  (wquiet c -> forall b, b < wncb (wsh c) -> owners b (wobjs (wsh c)) = 0 -> wdestroyed b (wsh c) = 1).
Proof.
  intros uses n c H. destruct (wreach_sim uses n c H) as (c' & Hc & HR & _ & HT).
  destruct (areach_counts uses n c' Hc) as (A & B & C & D).
  destruct HR as (E1 & E2 & E3 & E4 & E5 & _).
  assert (Ed : forall b, wdestroyed b (wsh c) = destroyed b (sh c')).
  { intros b. unfold wdestroyed, destroyed. rewrite E5, map_map. reflexivity. }
  rewrite E1, E3, E4. setoid_rewrite Ed.
  split; [exact A|]. split; [exact B|]. split; [intros b Hb; now apply C|].
  intros Hq. apply D. intros t. specialize (HT t). rewrite Hq in HT. apply HT.
Qed.
Print Assumptions C84_counts.

(** What the threads see is what they see when the operations are interleaved one after the
    other: all theorems about histories carry over (C50, C65). *)
Theorem C84_as_interleaved : forall uses n c, weak_executions uses n c ->
  exists c', executions uses n c' /\ hist c' = whist c /\
    objs (sh c') = wobjs (wsh c) /\ (wquiet c -> quiet c').
Proof.
  intros uses n c H. destruct (wreach_sim uses n c H) as (c' & Hc & (E1 & _) & E & HT).
  exists c'. split; [exact Hc|]. split; [now symmetry|]. split; [now symmetry|].
  intros Hq t. specialize (HT t). rewrite Hq in HT. apply HT.
Qed.
Print Assumptions C84_as_interleaved.

(** An execution which is not an interleaving: thread 1 finds the flag set while thread 0 stores,
    and finds it set once more after thread 0 has cleared it. *)
Example C84_ex : exists c, weak_executions (fun _ => true) 2 c /\ wquiet c /\
  completed 1 (whist c) = [(VLoad, VVal (Some (Sp 7 (Some 0))))] /\
  map mval (mo (wflag (wsh c))) = [false; true; true; true; false; true; false].
Proof.
  destruct (wexec_ok (wimpl (fun _ => true) 2) wcview wrview wallowed
    ([SInv 0 (CMake 7); SAct 0 0; SRet 0;
      SInv 0 (CStore 1); SInv 1 CLoad; SAct 0 0;                  (* the parameter is moved *)
      SAct 0 0;                                                   (* thread 0 locks *)
      SAct 1 1;                                                   (* thread 1 finds it set *)
      SAct 0 0;                                                   (* swap *)
      SAct 0 2;                                                   (* thread 0 unlocks *)
      SAct 1 2;                                                   (* thread 1 finds it set *)
      SAct 0 0; SAct 0 0; SRet 0;
      SAct 1 4; SAct 1 0; SAct 1 0; SAct 1 5; SRet 1])
    (fun c => wth c 0 = None /\ wth c 1 = None /\
      completed 1 (whist c) = [(VLoad, VVal (Some (Sp 7 (Some 0))))] /\
      map mval (mo (wflag (wsh c))) = [false; true; true; true; false; true; false])
    (wstart wst0) (wstart wst0) (wr_refl _ _ _ _ _)) as (c & Hc & (H0 & H1 & H3 & H4) & H2).
  - vm_compute. repeat split; eauto; discriminate.
  - exists c. split; [exact Hc|]. split; [|now split].
    intros [|[|t]]; [exact H0|exact H1|]. rewrite H2; [reflexivity|]. cbn. lia.
Qed.

(** The model tells the orders apart: with a relaxed clear, or with a relaxed test_and_set, the
    next thread which gets the lock races. *)
Definition lock_touch_unlock (ol ou : order) (t i j : nat) (s : wst) : option wst :=
  match rmw ol (fun _ => true) t i (wflag s) (wclk s) with
  | Some (false, L, c) =>
      match touch t 0 true (with_lock s L c) with
      | Some s1 => match wstore ou false t j (wflag s1) (wclk s1) with
                   | Some L1 => Some (with_lock s1 L1 (wclk s1))
                   | None => None
                   end
      | None => None
      end
  | _ => None
  end.
Example C84_orders_ex :
  (exists s s', lock_touch_unlock Acquire Release 0 0 1 wst0 = Some s /\
     lock_touch_unlock Acquire Release 1 2 3 s = Some s') /\
  (exists s L c, lock_touch_unlock Acquire Relaxed 0 0 1 wst0 = Some s /\
     rmw Acquire (fun _ => true) 1 2 (wflag s) (wclk s) = Some (false, L, c) /\
     touch 1 0 true (with_lock s L c) = None) /\
  (exists s L c, lock_touch_unlock Relaxed Release 0 0 1 wst0 = Some s /\
     rmw Relaxed (fun _ => true) 1 2 (wflag s) (wclk s) = Some (false, L, c) /\
     touch 1 0 true (with_lock s L c) = None).
Proof.
  split; [|split]; do 2 eexists; [|eexists|eexists]; cbn; repeat split; reflexivity.
Qed.
