(** Theorems about the references and iterators of dynamic_bitset (property C90). *)
From Coq Require Import List Arith NArith ZArith Bool Lia.
From Verif Require Import Base VecCommon BitsetModel BitsetSpec BitsetProofs BitsetRefModel BitsetRefSpec BitsetRefProofs.
Import ListNotations.
Open Scope nat_scope.

(** ** C90 *)

(** Every history of calls on a bitset, of uses of references kept from operator[] and from iterators,
    and of iterators kept and moved, answers as positions in a sequence of booleans do; for every choice
    of the vector of how much to allocate.  References may be used until the bitset needs more words
    than there was room for (reserve makes room) or is assigned to; iterators stay what they are. *)
Theorem C90_history : forall (W : nat) (os : list rop) (s : bs) (l : list bool) (c : nat),
  0 < W -> holds_bits W s l -> length (buf s) <= c ->
  rallowed_along W (View l (length (buf s)) [] []) os ->
  exists u', rrun W os (User (Rbs s 0 c) [] []) = Ok (snd (rhistory W (View l (length (buf s)) [] []) os)) u' /\
    holds_bits W (core (ub_ u')) (vbits (fst (rhistory W (View l (length (buf s)) [] []) os))).
Proof.
  intros W os s l c HW H Hc Hok.
  destruct (rrun_sim W HW os (User (Rbs s 0 c) [] []) (View l (length (buf s)) [] [])) as (u' & R & Hu); auto.
  - repeat split; cbn; auto; apply H.
  - exists u'. split; [exact R|apply Hu].
Qed.
Print Assumptions C90_history.

(** The condition on references is needed: when push_back needs another block, every reference taken
    before is dangling. *)
Theorem C90_dangling : forall (W : nat) (l : list bool) (b : bool) (c : nat) (s : rbs) (i : nat) (b0 : bool),
  0 < W -> holds_bits W (core s) l -> size_ok W (length l + 1) -> i < length l ->
  length (buf (core s)) = capw s -> length l mod W = 0 ->
  exists r a s', ref_make W i s = Ok r s /\ rcall W c (BPushBack b) s = Ok a s' /\
    ref_test r s' = UB /\ ref_set r s' = UB /\ ref_reset W r s' = UB /\ ref_flip r s' = UB /\
    ref_set_to W r b0 s' = UB.
Proof.
  intros W l b c s i b0 HW H Hs Hi Hc Hm.
  destruct (dangling W HW l b c s i b0 H Hs Hc Hm) as (a & s' & R & K).
  exists (Bitref (block s) (i / W) (word_mask W i)), a, s'. split; [|split; [exact R|exact K]].
  eapply make_ok_ref; eauto.
Qed.
Print Assumptions C90_dangling.

(** Five bits; room for 16; a reference to bit 3 and one through an iterator (bit 4) survive eleven more
    bits (two words of 8 bits), and are not usable after the next. *)
Definition C90_os : list rop :=
  [RReserve 16 0; RRef 3; IBegin; IAdd 0 4; IRef 1; IEnd; IDiff 2 1; RSet 0; RFlip 1; RTest 1]
  ++ repeat (RCall (BPushBack true) 0) 11 ++ [RReset 0; RTest 0; RAssign 1 false; IRead 1; IDec 2; IRead 2; RCall BIterate 0].
Example C90_met : let s := mkBs [0]%N 5 in let v := View (repeat false 5) 1 [] [] in
  holds_bits 8 s (repeat false 5) /\ length (buf s) <= 1 /\ rallowed_along 8 v C90_os /\
  snd (rhistory 8 v C90_os) =
    [RaNone; RaNone; RaNone; RaNone; RaNone; RaNone; RaInt 1; RaNone; RaNone; RaBool true]
    ++ repeat (RaBits BaNone) 11 ++
    [RaNone; RaBool false; RaNone; RaBool false; RaNone; RaBool false;
     RaBits (BaBits (repeat false 5 ++ repeat true 11))] /\
  ~ usable (fst (rstep 8 (fst (rhistory 8 v C90_os)) (RCall (BPushBack true) 0))) 0.
Proof.
  cbn zeta. split; [|split; [|split; [|split]]].
  - apply holds_intro; cbn; auto.
    + intros w [<-|[]]. reflexivity.
    + intros i Hi. do 5 (destruct i as [|i]; [reflexivity|]). cbn in Hi. lia.
  - cbn. lia.
  - unfold C90_os. cbn [repeat app].
    repeat (lazymatch goal with |- rallowed_along ?W ?v (?o :: ?os) =>
      change (rallowed W v o /\ rallowed_along W (fst (rstep W v o)) os); split;
      [cbn; repeat split; try (vm_compute; reflexivity); try (vm_compute; discriminate);
       try (eexists; split; [reflexivity|cbn]); cbn; lia
      |let x := eval vm_compute in (fst (rstep W v o)) in change (rallowed_along W x os)] end).
    exact Logic.I.
  - vm_compute. reflexivity.
  - intros (i & Hi & _). vm_compute in Hi. discriminate.
Qed.
