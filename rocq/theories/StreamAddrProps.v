(** Property C106: the check for the end in mem_istreambuf::xsgetn. *)
From Coq Require Import List Arith NArith ZArith Bool Lia.
From Verif Require Import Base VecCommon StreamAddrModel.
Import ListNotations.

(** The get area of a mem_istreambuf made for the array [l] at the address [a], which can be
    read there and nowhere else, with [g] characters read. *)
Definition at_address {C} (W a : N) (l : list C) (g : nat) (s : area C) : Prop :=
  (a + N.of_nat (length l) < 2 ^ W)%N /\ g <= length l /\
  a_eback s = a /\ a_gptr s = (a + N.of_nat g)%N /\ a_egptr s = (a + N.of_nat (length l))%N /\
  forall p, a_mem s p = if (a <=? p)%N then nth_error l (N.to_nat (p - a)) else None.

Lemma read_flat_ok {C} W a (l : list C) mem :
  (a + N.of_nat (length l) < 2 ^ W)%N ->
  (forall p, mem p = if (a <=? p)%N then nth_error l (N.to_nat (p - a)) else None) ->
  forall n g, g + n <= length l ->
  read_flat W mem (a + N.of_nat g) n = Some (firstn n (skipn g l)).
Proof.
  intros Ha Hm. induction n as [|n IH]; intros g L; [reflexivity|]. cbn [read_flat]. rewrite Hm.
  destruct (N.leb_spec a (a + N.of_nat g)) as [_|?]; [|lia].
  replace (N.to_nat (a + N.of_nat g - a)) with g by lia.
  destruct (nth_error l g) as [c|] eqn:Ec; [|apply nth_error_None in Ec; lia].
  unfold padd_flat. rewrite N.mod_small by lia.
  replace (a + N.of_nat g + 1)%N with (a + N.of_nat (S g))%N by lia. rewrite IH by lia. f_equal.
  clear -Ec. revert g Ec. induction l as [|y l IHl]; intros [|g] Ec; cbn in *; try discriminate.
  - injection Ec as ->. reflexivity.
  - apply IHl. exact Ec.
Qed.

(** C106. A read gives what was asked for or what is left, whichever is less, whenever
    gptr() + count is no address beyond the last one. *)
Theorem C106_read_partial :
  forall (C : Type) (W a : N) (l : list C) (g : nat) (s : area C) (count : N),
  at_address W a l g s -> (a + N.of_nat g + count < 2 ^ W)%N ->
  exists s', xsgetn_flat W count s = Ok (firstn (N.to_nat count) (skipn g l)) s' /\
    at_address W a l (g + length (firstn (N.to_nat count) (skipn g l))) s'.
Proof.
  intros C W a l g s count (Ha & Hg & E1 & E2 & E3 & Hm) Hc.
  unfold xsgetn_flat. rewrite E2, E3. cbv zeta.
  replace (padd_flat W (a + N.of_nat g) count) with (a + N.of_nat g + count)%N
    by (unfold padd_flat; now rewrite N.mod_small by exact Hc).
  assert (forall k, k <= length l - g ->
    exists s', match read_flat W (a_mem s) (a + N.of_nat g) k with
               | Some x => Ok x (mkArea (a_mem s) (a_eback s) (padd_flat W (a + N.of_nat g) (N.of_nat k)) (a + N.of_nat (length l)))
               | None => UB end = Ok (firstn k (skipn g l)) s' /\
      at_address W a l (g + length (firstn k (skipn g l))) s') as R.
  { intros k Hk. rewrite (read_flat_ok W a l) by (auto || lia). eexists. split; [reflexivity|].
    rewrite firstn_length, skipn_length, Nat.min_l by lia.
    unfold at_address. cbn [a_mem a_eback a_gptr a_egptr]. unfold padd_flat. rewrite N.mod_small by lia.
    split; [exact Ha|]. split; [lia|]. split; [exact E1|]. split; [lia|]. split; [reflexivity|exact Hm]. }
  destruct (N.ltb_spec (a + N.of_nat (length l)) (a + N.of_nat g + count)) as [Q|Q].
  - destruct (R (length l - g) (le_n _)) as (s' & E & H).
    replace (a + N.of_nat (length l) - (a + N.of_nat g))%N with (N.of_nat (length l - g)) by lia.
    rewrite Nat2N.id. exists s'.
    replace (firstn (N.to_nat count) (skipn g l)) with (firstn (length l - g) (skipn g l)); [split; [exact E|exact H]|].
    rewrite !firstn_all2; rewrite ?skipn_length; auto; lia.
  - destruct (R (N.to_nat count) ltac:(lia)) as (s' & E & H). rewrite N2Nat.id in E. exists s'. split; [exact E|exact H].
Qed.
Print Assumptions C106_read_partial.

(** That is so where the memory lies in the lower half of the addresses, as on 64-bit
    machines, for every count std::streamsize can have. *)
Theorem C106_lower_half :
  forall (C : Type) (W a : N) (l : list C) (g : nat) (s : area C) (count : N),
  (0 < W)%N -> at_address W a l g s -> (a + N.of_nat (length l) <= 2 ^ (W - 1))%N -> (count < 2 ^ (W - 1))%N ->
  exists s', xsgetn_flat W count s = Ok (firstn (N.to_nat count) (skipn g l)) s' /\
    at_address W a l (g + length (firstn (N.to_nat count) (skipn g l))) s'.
Proof.
  intros C W a l g s count HW H Hl Hc. apply C106_read_partial; [exact H|].
  destruct H as (_ & Hg & _). replace (2 ^ W)%N with (2 ^ (W - 1) + 2 ^ (W - 1))%N; [lia|].
  replace W with (N.succ (W - 1)) at 3 by lia. rewrite N.pow_succ_r'. lia.
Qed.
Print Assumptions C106_lower_half.

(** It is not so for memory in the upper half, as 32-bit machines have it: for every array
    there is a count which std::streamsize can have, and for which the check is passed and
    memory behind the array is read. *)
Theorem C106_wrap_refuted :
  forall (C : Type) (W a : N) (l : list C) (g : nat) (s : area C),
  at_address W a l g s -> (0 < W)%N -> (2 ^ (W - 1) < a + N.of_nat g)%N ->
  exists count, (count < 2 ^ (W - 1))%N /\ xsgetn_flat W count s = UB.
Proof.
  intros C W a l g s H HW Hu. pose proof H as (Ha & Hg & E1 & E2 & E3 & Hm).
  assert (2 ^ W = 2 ^ (W - 1) + 2 ^ (W - 1))%N as D.
  { replace W with (N.succ (W - 1)) at 1 by lia. rewrite N.pow_succ_r'. lia. }
  exists (2 ^ W - (a + N.of_nat g))%N. split; [lia|].
  unfold xsgetn_flat. rewrite E2, E3. cbv zeta.
  replace (padd_flat W (a + N.of_nat g) (2 ^ W - (a + N.of_nat g))) with 0%N.
  2:{ unfold padd_flat. replace (a + N.of_nat g + (2 ^ W - (a + N.of_nat g)))%N with (2 ^ W)%N by lia.
      now rewrite N.mod_same by lia. }
  destruct (N.ltb_spec (a + N.of_nat (length l)) 0) as [Q|_]; [lia|].
  assert (forall n k, k <= length l -> length l < k + n -> read_flat W (a_mem s) (a + N.of_nat k) n = None) as R.
  { induction n as [|n IH]; intros k L1 L2; [lia|]. cbn [read_flat]. rewrite Hm.
    destruct (N.leb_spec a (a + N.of_nat k)) as [_|?]; [|lia].
    replace (N.to_nat (a + N.of_nat k - a)) with k by lia.
    destruct (nth_error l k) as [c|] eqn:Ec; [|reflexivity].
    assert (k < length l) by (apply nth_error_Some; congruence).
    unfold padd_flat. rewrite N.mod_small by lia.
    replace (a + N.of_nat k + 1)%N with (a + N.of_nat (S k))%N by lia. rewrite IH by lia. reflexivity. }
  now rewrite R by lia.
Qed.
Print Assumptions C106_wrap_refuted.

(** Four characters at an address, and nothing else *)
Definition four (a : N) (g : N) : area nat :=
  mkArea (fun p => if (a <=? p)%N then nth_error [1; 2; 3; 4] (N.to_nat (p - a)) else None)
    a (a + g) (a + 4).
Lemma four_at a g W : (a + 4 < 2 ^ W)%N -> (g <= 4)%N -> at_address W a [1; 2; 3; 4] (N.to_nat g) (four a g).
Proof.
  intros Ha Hg. split; [exact Ha|]. split; [cbn [length]; lia|]. split; [reflexivity|].
  split; [cbn [four a_gptr]; now rewrite N2Nat.id|]. split; reflexivity.
Qed.
Example C106_met :
  at_address 32 0x90000000 [1; 2; 3; 4] 1 (four 0x90000000 1) /\
  (0x90000000 + N.of_nat 1 + 1000 < 2 ^ 32)%N /\ (2 ^ (32 - 1) < 0x90000000 + N.of_nat 1)%N /\
  (exists s', xsgetn_flat 32 1000 (four 0x90000000 1) = Ok [2; 3; 4] s').
Proof.
  assert (at_address 32 0x90000000 [1; 2; 3; 4] 1 (four 0x90000000 1)) as H
    by (apply (four_at 0x90000000 1 32); [reflexivity|discriminate]).
  split; [exact H|]. split; [reflexivity|]. split; [reflexivity|].
  destruct (C106_read_partial _ _ _ _ _ _ 1000 H eq_refl) as (s' & E & _). exists s'. exact E.
Qed.
Example C106_lower_met :
  at_address 64 0x1000 [1; 2; 3; 4] 1 (four 0x1000 1) /\
  (0 < 64)%N /\ (0x1000 + N.of_nat 4 <= 2 ^ (64 - 1))%N /\ (0x7fffffffffffffff < 2 ^ (64 - 1))%N.
Proof.
  split; [apply (four_at 0x1000 1 64); [reflexivity|discriminate]|].
  split; [reflexivity|]. split; [discriminate|reflexivity].
Qed.

(** By the standard every read which finds less than it asked for is undefined: it forms a
    pointer outside of the array. *)
Theorem C106_pointer_refuted :
  forall (C : Type) (s : sarea C) (count : nat),
  s_gpos s <= s_size s -> s_size s < s_gpos s + count -> xsgetn_strict count s = UB.
Proof.
  intros C s count Hg Hc. unfold xsgetn_strict, inside, s_size in *. destruct (s_mem s) as [l|].
  - destruct (Z.leb_spec 0 (Z.of_nat (s_gpos s + count))); [|lia].
    destruct (Z.leb_spec (Z.of_nat (s_gpos s + count)) (Z.of_nat (length l))); [lia|reflexivity].
  - destruct (Z.eqb_spec (Z.of_nat (s_gpos s + count)) 0); [lia|reflexivity].
Qed.
Print Assumptions C106_pointer_refuted.

(** And so is every read from a buffer made by the default constructor, even of nothing. *)
Theorem C106_default_refuted :
  forall (C : Type) (count : nat), xsgetn_strict count (mkSarea (@None (list C)) 0) = UB.
Proof. intros C count. unfold xsgetn_strict. now destruct (negb _). Qed.
Print Assumptions C106_default_refuted.

(** Reads of no more than is left are fine. *)
Theorem C106_strict_partial :
  forall (C : Type) (l : list C) (g count : nat),
  g + count <= length l ->
  xsgetn_strict count (mkSarea (Some l) g) = Ok (firstn count (skipn g l)) (mkSarea (Some l) (g + count)).
Proof.
  intros C l g count H. unfold xsgetn_strict, inside, s_size. cbn [s_mem s_gpos].
  destruct (Z.leb_spec 0 (Z.of_nat (g + count))); [|lia].
  destruct (Z.leb_spec (Z.of_nat (g + count)) (Z.of_nat (length l))); [|lia].
  destruct (Nat.ltb_spec (length l) (g + count)); [lia|reflexivity].
Qed.
Print Assumptions C106_strict_partial.
Example C106_strict_met : 1 + 2 <= length [5; 6; 7] /\ s_gpos (mkSarea (Some [5; 6; 7]) 1) <= 3 /\ 3 < 1 + 3.
Proof. cbn. lia. Qed.
