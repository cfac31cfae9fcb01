(** The property theorems about the cost of adding elements: C94 (pod_vector) and C95
    (small_vector). *)
From Coq Require Import List Arith NArith ZArith Bool Lia.
From Verif Require Import Base SeqSpec VecCommon SmallVectorModel SmallVectorSpec SmallVectorProofs
  SmallBufSpec SmallBufProofs PodVectorModel PodVectorSpec PodVectorProps AmortSpec AmortProofs PodAmortProofs.
Import ListNotations.
Open Scope nat_scope.

(** * C94: pod_vector *)

(** In any history of calls which add and take away elements the allocator is asked so rarely that,
    if all elements are copied each time, no more than five elements are copied for each one
    added. *)
Theorem C94_pod_vector_amortized :
  forall (A : alc) (T : ety), ety_ok T -> alc_ok A ->
  forall (early : bool) (k : nat) (os : list podop),
  pod_along A T [] os ->
  exists copied added s,
    pod_cost A T early (mkMem [] k, init_pv) os = Some (copied, added, s) /\ copied <= 5 * added.
Proof.
  intros A T HT HA early k os Al.
  destruct (pod_amort A T HT HA early os [] k init_pv []) as (c & a & z & E & B).
  - split; [constructor|]. exists []. repeat split; cbn; lia.
  - exact Al.
  - exists c, a, z. split; [exact E|]. exact B.
Qed.
Print Assumptions C94_pod_vector_amortized.

(** Seven elements pushed back one by one: asked for 1, 2, 3, 5 and 8, 11 elements copied. *)
Definition seven : list podop := repeat (PSeq (PushBack [1;0;0;0]%N)) 7.
Example C94_case :
  pod_along ex_malloc ex_int [] seven /\
  exists s, pod_cost ex_malloc ex_int true (mkMem [] 0, init_pv) seven = Some (11, 7, s).
Proof.
  split; [|eexists; vm_compute; reflexivity].
  assert (forall k xs, length xs + k <= 7 -> pod_along ex_malloc ex_int xs (repeat (PSeq (PushBack [1;0;0;0]%N)) k)) as G.
  { induction k as [|k IH]; intros xs L; cbn [repeat pod_along]; [exact Logic.I|]. split.
    - split; [reflexivity|]. cbn [pod_ok]. split; [reflexivity|].
      assert (exists m, length xs = m /\ m <= 6) as (m & -> & Hm) by (exists (length xs); lia).
      unfold room, two63. cbn [esz eal ex_int].
      assert (N.of_nat (m + 1) / 2 <= N.of_nat (m + 1))%N by (apply N.div_le_upper_bound; lia). lia.
    - intros xs' r St. inversion St; subst. apply IH. cbn. rewrite app_length. cbn. lia. }
  apply G. cbn. lia.
Qed.

(** * C95: small_vector *)

(** Missing: more than half of the static capacity as RevertToStaticBelow. *)
Theorem C95_small_vector_amortized_partial :
  forall (V : Type) (moved : V -> V) (dflt : V) (SC RB : nat) (maxn : N),
  0 < SC -> 2 * RB <= SC -> (maxn < two63)%N ->
  forall os : list (vop V),
  small_along dflt maxn [] os ->
  exists carried added s,
    small_cost moved dflt SC RB maxn (init_vec SC) os = Some (carried, added, s) /\ carried <= 10 * added.
Proof.
  intros V moved dflt SC RB maxn H1 H2 H3 os Al.
  destruct (small_amort moved dflt SC RB maxn H1 ltac:(lia) H3 H2 os (init_vec SC) []) as (c & a & z & E & B).
  - eapply (holds_init SC 0 0%N); lia.
  - reflexivity.
  - exact Al.
  - exists c, a, z. split; [exact E|]. exact B.
Qed.
Print Assumptions C95_small_vector_amortized_partial.

Definition up_and_down : list (vop nat) := repeat (PushBack 7) 9 ++ repeat PopBack 8 ++ [Insert 0 1; Resize 6; Clear].
Example C95_case :
  small_along 0 1000%N [] up_and_down /\
  exists s, small_cost (fun v => v) 0 4 2 1000%N (init_vec 4) up_and_down = Some (4 + 5 + 8 + 1 + 2, 9 + 1 + 4, s).
Proof. split; [unfold up_and_down; meets; unfold room; cbn; lia|eexists; vm_compute; reflexivity]. Qed.

(** With StaticCapacity + 1, as in the example at the head of small_vector.hpp (71), a full static
    buffer is left and come back to with every push_back and pop_back: all the elements are moved
    by each of them. *)
Theorem C95_small_vector_thrashing_refuted :
  forall (V : Type) (moved : V -> V) (dflt : V) (SC : nat) (maxn : N),
  0 < SC -> (maxn < two63)%N -> SmallVectorSpec.room maxn (SC + 1) ->
  forall (v : V) (k : nat),
  let os := repeat (PushBack v) SC ++ concat (repeat [PushBack v; PopBack] k) in
  exists s, small_cost moved dflt SC (SC + 1) maxn (init_vec SC) os = Some (k * (2 * SC), SC + k, s).
Proof.
  intros V moved dflt SC maxn H1 H3 Hr v k os. subst os.
  assert (R : forall n, n <= SC + 1 -> SmallVectorSpec.room maxn n) by
    (intros n Hn; unfold SmallVectorSpec.room in *; pose proof (Nat.div_le_mono n (SC + 1) 2 ltac:(lia) Hn); lia).
  set (RB := SC + 1). assert (HRB : RB <= SC + 1) by (unfold RB; lia).
  (* one call: where the elements are, and how many there are *)
  assert (One : forall s xs o, holds SC s xs -> vfuse s = None -> small_ok maxn xs (Seq o) ->
    exists s' r q, observe (call moved dflt SC RB maxn (Seq o) s) = Some (s', r) /\
      holds SC s' (fst (small_step dflt xs (Seq o))) /\ vfuse s' = None /\
      place_step SC RB (place_of s) (length xs) (Seq o) q /\ place_of s' = q /\
      size_of s = length xs /\ size_of s' = length (fst (small_step dflt xs (Seq o)))).
  { intros s xs o H Hf Ho.
    destruct (call_spec moved dflt SC RB maxn H1 HRB H3 s xs (Seq o) H Hf Ho) as (s' & E & H' & F').
    destruct (call_place moved dflt SC RB maxn H1 HRB H3 s xs (Seq o) s' _ H Hf Ho E) as (q & P & L & _).
    destruct (holds_size _ _ _ H) as (Ev & _). destruct (holds_size _ _ _ H') as (Ev' & _).
    exists s', (snd (small_step dflt xs (Seq o))), q. unfold size_of. rewrite Ev, Ev'. cbn [snd].
    split; [exact E|]. split; [exact H'|]. split; [exact F'|]. split; [exact P|]. split; [exact L|]. now split. }
  assert (Zig : forall k s xs, holds SC s xs -> vfuse s = None -> length xs = SC -> place_of s = None ->
    exists z, small_cost moved dflt SC RB maxn s (concat (repeat [PushBack v; PopBack] k)) = Some (k * (2 * SC), k, z)).
  { clear k. induction k as [|k IH]; intros s xs H Hf L P; [now exists s|].
    destruct (One s xs (PushBack v) H Hf) as (s1 & r1 & q1 & E1 & G1 & F1 & P1 & Q1 & N0 & N1).
    { cbn [small_ok fits]. apply R. lia. }
    cbn [small_step valid_pos spec_step fits fst] in G1, N1. rewrite app_length in N1. cbn [length] in N1.
    cbn [place_step] in P1. rewrite P in P1. cbn [suits] in P1. rewrite (proj2 (Nat.leb_gt (length xs + 1) SC)) in P1 by lia.
    rewrite P1 in Q1. clear P1 q1.
    destruct (One s1 (xs ++ [v]) PopBack G1 F1) as (s2 & r2 & q2 & E2 & G2 & F2 & P2 & Q2 & _ & N2).
    { cbn [small_ok fits]. auto. }
    cbn [place_step] in P2. rewrite app_length in P2. cbn [length] in P2.
    destruct (Nat.eqb_spec (length xs + 1) 0) as [|_]; [lia|]. unfold lessened in P2.
    destruct (Nat.eqb_spec (length xs + 1 - 1) 0) as [|_]; [lia|].
    rewrite Q1 in P2. cbn [suits] in P2.
    destruct (Nat.leb_spec (length xs + 1 - 1) (length xs + 1)) as [_|]; [|lia].
    destruct (Nat.ltb_spec (length xs + 1 - 1) RB) as [_|]; [|unfold RB in *; lia]. rewrite P2 in Q2. clear P2 q2.
    assert (fst (small_step dflt (xs ++ [v]) (Seq PopBack)) = xs) as Ex.
    { cbn [small_step valid_pos spec_step]. destruct (xs ++ [v]) eqn:Ea; [now destruct xs|]. cbn [fst]. rewrite <- Ea. now rewrite removelast_last. }
    rewrite Ex in G2, N2.
    destruct (IH s2 xs G2 F2 L Q2) as (z & Ez).
    exists z. cbn [repeat concat app small_cost]. rewrite E1. rewrite E2, Ez.
    unfold place_of, is_static in *.
    destruct (Nat.eqb_spec (vb s) 0); [|discriminate P]. destruct (Nat.eqb_spec (vb s1) 0); [discriminate Q1|].
    destruct (Nat.eqb_spec (vb s2) 0); [|discriminate Q2].
    unfold carried, more. destruct (Nat.eqb_spec (vb s) (vb s1)); [congruence|]. destruct (Nat.eqb_spec (vb s1) (vb s2)); [congruence|].
    rewrite N0, N1, N2. do 2 f_equal. f_equal; [|]; lia. }
  assert (Fill : forall m s xs, holds SC s xs -> vfuse s = None -> length xs + m = SC -> place_of s = None ->
    exists z, small_cost moved dflt SC RB maxn s (repeat (PushBack v) m ++ concat (repeat [PushBack v; PopBack] k)) = Some (k * (2 * SC), m + k, z)).
  { induction m as [|m IH]; intros s xs H Hf L P; [apply (Zig k s xs); auto; lia|].
    destruct (One s xs (PushBack v) H Hf) as (s1 & r1 & q1 & E1 & G1 & F1 & P1 & Q1 & N0 & N1).
    { cbn [small_ok fits]. apply R. lia. }
    cbn [small_step valid_pos spec_step fits fst] in G1, N1. pose proof N1 as N1'. rewrite app_length in N1. cbn [length] in N1.
    cbn [place_step] in P1. rewrite P in P1. cbn [suits] in P1. rewrite (proj2 (Nat.leb_le (length xs + 1) SC)) in P1 by lia.
    rewrite P1 in Q1. clear P1 q1. destruct (IH s1 _ G1 F1) as (z & Ez); [rewrite app_length; cbn; lia|exact Q1|].
    exists z. cbn [repeat app small_cost]. rewrite E1, Ez.
    unfold place_of, is_static in *.
    destruct (Nat.eqb_spec (vb s) 0); [|discriminate P]. destruct (Nat.eqb_spec (vb s1) 0); [|discriminate Q1].
    unfold carried, more. destruct (Nat.eqb_spec (vb s) (vb s1)); [|congruence]. rewrite N0, N1. do 2 f_equal. f_equal; lia. }
  apply (Fill SC (init_vec SC) []); auto.
  eapply (holds_init SC 0 0%N); lia.
Qed.
Print Assumptions C95_small_vector_thrashing_refuted.

(** small_vector<int, 4, 5>: eight elements moved for every two calls. *)
Example C95_thrashing_case :
  SmallVectorSpec.room 1000%N (4 + 1) /\
  exists s, small_cost (fun v => v) 0 4 5 1000%N (init_vec 4) (repeat (PushBack 7) 4 ++ concat (repeat [PushBack 7; PopBack] 100)) = Some (800, 104, s).
Proof. split; [unfold SmallVectorSpec.room; cbn; lia|eexists; vm_compute; reflexivity]. Qed.
