(** Theorems about references and iterators of bitsets which are moved (property C119). *)
From Coq Require Import List Arith NArith ZArith Bool Lia.
From Verif Require Import Base VecCommon BitsetModel BitsetSpec BitsetProofs BitsetRefModel BitsetRefProofs
  BitsetMoveModel BitsetMoveSpec BitsetMoveProofs.
Import ListNotations.
Open Scope nat_scope.

(** ** C119 *)

(** Any number of bitsets, any history of calls, copies, moves and swaps, and uses of references and iterators
    kept from before: a reference is its bit, wherever that is moved to, until the vector it is in needs another
    block, is assigned to or is replaced by a moved one; an iterator stays with its bitset object. *)
Theorem C119_history : forall (W : nat) (os : list gop) (ss : list rbs) (ls : list (list bool)) (n : nat),
  0 < W -> Forall2 (fun s l => holds_bits W (core s) l /\ length (buf (core s)) <= capw s) ss ls ->
  blocks_apart ss n ->
  let v := Gview (map (fun l => (l, words_for W (length l))) ls) [] [] in
  gallowed_along W v os ->
  exists w', grun W os (World ss n [] []) = Ok (snd (ghistory W v os)) w' /\
    Forall2 (fun s x => holds_bits W (core s) (fst x)) (sets w') (gsets (fst (ghistory W v os))).
Proof.
  intros W os ss ls n HW H Ha v Hok.
  destruct (grun_sim W HW os (World ss n [] []) v) as (w' & R & Hw); auto.
  - unfold gshows. cbn [sets nextb grefs gits gsets gvrefs gvits v map].
    split; [|split; [exact Ha|split; [constructor|split; [reflexivity|constructor]]]].
    clear - H. induction H as [|s l ss ls (A & B) H IH]; cbn [map]; constructor; auto.
    unfold is_set. cbn [fst snd]. rewrite (holds_words W _ _ A) in *. auto.
  - exists w'. split; [exact R|]. destruct Hw as (A & _). clear - A.
    induction A as [|s x ss xs Hs A IH]; constructor; auto. apply Hs.
Qed.
Print Assumptions C119_history.

(** Moving to a bitset and swapping, for every state: the references to the bits of [j] go to [i], with whatever
    they are used for; those to bits [i] had before are dangling; after a swap none is. *)
Theorem C119_moves : forall (A : Type) (m : M rbs A) (w : world) (i j : nat) (a b : rbs) (x y : nat) (mx my : N),
  nth_error (sets w) i = Some a -> nth_error (sets w) j = Some b -> i <> j -> blocks_apart (sets w) (nextb w) ->
  (exists w', g_move i j w = Ok tt w' /\ nth_error (sets w') i = Some b /\
     (exists e, nth_error (sets w') j = Some e /\ core e = mkBs [] 0) /\
     (forall k, k <> i -> k <> j -> nth_error (sets w') k = nth_error (sets w) k) /\
     through (Bitref (block b) y my) m w' = at_set i m w' /\
     through (Bitref (block a) x mx) m w' = UB) /\
  (exists w', g_swap i j w = Ok tt w' /\ nth_error (sets w') i = Some b /\ nth_error (sets w') j = Some a /\
     (forall k, k <> i -> k <> j -> nth_error (sets w') k = nth_error (sets w) k) /\
     through (Bitref (block b) y my) m w' = at_set i m w' /\
     through (Bitref (block a) x mx) m w' = at_set j m w').
Proof.
  intros A m w i j a b x y mx my Ea Eb N (B1 & B2).
  assert (i < length (sets w)) as Li by (apply nth_error_Some; congruence).
  assert (j < length (sets w)) as Lj by (apply nth_error_Some; congruence).
  assert (forall l b0, (forall k s, nth_error l k = Some s -> block s <> b0) -> owner_of l b0 = None) as None_.
  { induction l as [|s l IH]; intros b0 H; [reflexivity|]. cbn [owner_of].
    rewrite (proj2 (Nat.eqb_neq _ _) (H 0 s eq_refl)). rewrite IH; [reflexivity|]. intros k t Ht. now apply (H (S k)). }
  split.
  - rewrite (g_move_run w i j a b N Ea Eb).
    set (w' := World _ _ _ _).
    assert (nth_error (sets w') i = Some b) as E1.
    { cbn [w' sets]. rewrite nth_error_upd_neq by auto. now apply nth_error_upd_eq. }
    assert (blocks_apart (sets w') (nextb w')) as Ap.
    { split.
      - intros p q c d Hc Hd Ecd. cbn [w' sets] in Hc, Hd. apply nth_upd_cases in Hc, Hd.
        destruct Hc as [(-> & -> & L)|(N1 & Hc)], Hd as [(-> & -> & L')|(N2 & Hd)]; auto;
          try apply nth_upd_cases in Hc; try apply nth_upd_cases in Hd; cbn [block] in *.
        + destruct Hd as [(-> & -> & _)|(_ & Hd)]; [apply B2 in Eb|apply B2 in Hd]; lia.
        + destruct Hc as [(-> & -> & _)|(_ & Hc)]; [apply B2 in Eb|apply B2 in Hc]; lia.
        + destruct Hc as [(-> & -> & _)|(N3 & Hc)], Hd as [(-> & -> & _)|(N4 & Hd)]; auto.
          * destruct N2. symmetry. eauto.
          * destruct N1. eauto.
          * eauto.
      - intros p c Hc. cbn [w' sets nextb] in *. apply nth_upd_cases in Hc.
        destruct Hc as [(-> & -> & L)|(N1 & Hc)]; [cbn; lia|].
        apply nth_upd_cases in Hc. destruct Hc as [(-> & -> & L)|(N2 & Hc)]; [apply B2 in Eb|apply B2 in Hc]; lia. }
    exists w'. repeat apply conj; auto.
    + eexists. split; [cbn [w' sets]; apply nth_error_upd_eq; now rewrite upd_length|reflexivity].
    + intros k N1 N2. cbn [w' sets]. now rewrite !nth_error_upd_neq by auto.
    + unfold through. cbn [rblock]. now rewrite (owner_ok _ _ _ _ Ap E1).
    + unfold through. cbn [rblock]. rewrite None_; [reflexivity|]. intros k s Hs Eq. cbn [w' sets] in Hs.
      apply nth_upd_cases in Hs. destruct Hs as [(-> & -> & _)|(N1 & Hs)].
      * cbn [block] in Eq. apply B2 in Ea. lia.
      * apply nth_upd_cases in Hs. destruct Hs as [(-> & -> & _)|(N2 & Hs)].
        -- apply N. apply (B1 i j a b); auto.
        -- apply N2. apply (B1 k i s a); auto.
  - rewrite (g_swap_run w i j a b N Ea Eb).
    set (w' := World _ _ _ _).
    assert (nth_error (sets w') i = Some b) as E1.
    { cbn [w' sets]. rewrite nth_error_upd_neq by auto. now apply nth_error_upd_eq. }
    assert (nth_error (sets w') j = Some a) as E2.
    { cbn [w' sets]. apply nth_error_upd_eq. now rewrite upd_length. }
    assert (blocks_apart (sets w') (nextb w')) as Ap.
    { split.
      - intros p q c d Hc Hd Ecd. cbn [w' sets] in Hc, Hd. apply nth_upd_cases in Hc, Hd.
        destruct Hc as [(-> & -> & L)|(N1 & Hc)], Hd as [(-> & -> & L')|(N2 & Hd)]; auto;
          try apply nth_upd_cases in Hc; try apply nth_upd_cases in Hd.
        + destruct Hd as [(-> & -> & _)|(N3 & Hd)]; [destruct N; eauto|destruct N3; symmetry; eauto].
        + destruct Hc as [(-> & -> & _)|(N3 & Hc)]; [destruct N; symmetry; eauto|destruct N3; eauto].
        + destruct Hc as [(-> & -> & _)|(N3 & Hc)], Hd as [(-> & -> & _)|(N4 & Hd)]; auto.
          * destruct N2. symmetry. eauto.
          * destruct N1. eauto.
          * eauto.
      - intros p c Hc. cbn [w' sets nextb] in *. apply nth_upd_cases in Hc.
        destruct Hc as [(-> & -> & L)|(N1 & Hc)]; [apply B2 in Ea; lia|].
        apply nth_upd_cases in Hc. destruct Hc as [(-> & -> & L)|(N2 & Hc)]; [apply B2 in Eb|apply B2 in Hc]; lia. }
    exists w'. repeat apply conj; auto.
    + intros k N1 N2. cbn [w' sets]. now rewrite !nth_error_upd_neq by auto.
    + unfold through. cbn [rblock]. now rewrite (owner_ok _ _ _ _ Ap E1).
    + unfold through. cbn [rblock]. now rewrite (owner_ok _ _ _ _ Ap E2).
Qed.
Print Assumptions C119_moves.

(** Calls which would need another block, and assignments, leave every reference into the old block dangling;
    whichever number the new one gets. *)
Theorem C119_dangling : forall (W : nat) (A : Type) (m : M rbs A) (w : world) (i j c n : nat) (b : bool) (a o : rbs) (l k : list bool) (x : nat) (mx : N),
  0 < W -> nth_error (sets w) i = Some a -> nth_error (sets w) j = Some o -> i <> j -> blocks_apart (sets w) (nextb w) ->
  holds_bits W (core a) l -> holds_bits W (core o) k -> length (buf (core a)) <= capw a ->
  (exists w', g_copy i j c w = Ok tt w' /\ through (Bitref (block a) x mx) m w' = UB) /\
  (capw a < words_for W n -> size_ok W n ->
   exists w', at_set i (rreserve W c n) w = Ok tt w' /\ through (Bitref (block a) x mx) m w' = UB) /\
  (capw a < words_for W (length l + length k) -> size_ok W (length l + length k) ->
   exists w', g_append W i j c w = Ok tt w' /\ through (Bitref (block a) x mx) m w' = UB) /\
  (capw a < words_for W (length l + 1) -> size_ok W (length l + 1) ->
   exists w', at_set i (rcall W c (BPushBack b)) w = Ok BaNone w' /\ through (Bitref (block a) x mx) m w' = UB).
Proof.
  intros W A m w i j c n b a o l k x mx HW Ea Eo N Ap Ha Ho Hc.
  assert (forall s', block s' <> block a -> through (Bitref (block a) x mx) m (placed i a s' w) = UB) as Gone.
  { intros s' Nb. unfold placed. rewrite (proj2 (Nat.eqb_neq _ _) Nb). unfold through. cbn [rblock sets].
    assert (owner_of (upd (sets w) i (Rbs (core s') (nextb w) (capw s'))) (block a) = None) as ->; [|reflexivity].
    destruct Ap as (B1 & B2).
    assert (forall l b0, (forall k s, nth_error l k = Some s -> block s <> b0) -> owner_of l b0 = None) as None_.
    { induction l0 as [|s l0 IH]; intros b0 H; [reflexivity|]. cbn [owner_of].
      rewrite (proj2 (Nat.eqb_neq _ _) (H 0 s eq_refl)). rewrite IH; [reflexivity|]. intros k0 t Ht. now apply (H (S k0)). }
    apply None_. intros p s Hs Eq. apply nth_upd_cases in Hs. destruct Hs as [(-> & -> & _)|(N1 & Hs)].
    - cbn [block] in Eq. apply B2 in Ea. lia.
    - apply N1. apply (B1 p i s a); auto. }
  assert (the_set j w = Ok o w) as R0 by (unfold the_set; now rewrite Eo).
  assert (forall s, exists s', account c s = Ok tt s' /\ (block s' = block s \/ block s' = S (block s)) /\
            (capw s < length (buf (core s)) -> block s' = S (block s))) as Acc.
  { intros s. unfold account. destruct (Nat.leb_spec (length (buf (core s))) (capw s)); eexists;
      (split; [reflexivity|]); cbn [block]; split; auto; lia. }
  repeat apply conj.
  - unfold g_copy. rewrite (proj2 (Nat.eqb_neq _ _) N).
    destruct (Acc (Rbs (core o) (S (block a)) (capw a))) as (s' & R & D & _). cbn [block] in D.
    eexists. split.
    + erewrite bind_ok by exact R0. eapply at_set_run; [exact Ea|]. erewrite bind_ok by reflexivity.
      unfold renew. erewrite bind_ok by reflexivity. exact R.
    + apply Gone. lia.
  - intros L Hn. eexists. split.
    + eapply at_set_run; [exact Ea|]. unfold rreserve. rewrite (word_size_ok W HW n Hn).
      rewrite (proj2 (Nat.leb_gt _ _)) by lia. reflexivity.
    + apply Gone. cbn [block]. lia.
  - intros L Hn. unfold g_append. rewrite (proj2 (Nat.eqb_neq _ _) N).
    destruct (append_ok W HW (core a) l (core o) k Ha Ho Hn) as (b' & R & Hb).
    destruct (Acc (Rbs b' (block a) (capw a))) as (s' & R2 & _ & D). cbn [block capw core] in D.
    eexists. split.
    + erewrite bind_ok by exact R0. eapply at_set_run; [exact Ea|]. erewrite bind_ok by (apply on_core_ok; exact R). exact R2.
    + apply Gone. rewrite D; [lia|]. rewrite (holds_words W _ _ Hb), app_length. exact L.
  - intros L Hn. destruct (bcall_ok W HW (core a) l (BPushBack b) Ha Hn) as (b' & R & Hb). cbn [bstep fst snd] in R, Hb.
    destruct (Acc (Rbs b' (block a) (capw a))) as (s' & R2 & _ & D). cbn [block capw core] in D.
    eexists. split.
    + eapply at_set_run; [exact Ea|]. unfold rcall. erewrite bind_ok by (apply on_core_ok; exact R).
      erewrite bind_ok by exact R2. reflexivity.
    + apply Gone. rewrite D; [lia|]. rewrite (holds_words W _ _ Hb), app_length. exact L.
Qed.
Print Assumptions C119_dangling.

(** Ten bits and three; references to the last of each and an iterator to bit 1 of the first. After a swap the
    references are to bits of the other bitset, the iterator is to the same; after a move the second reference is
    lost, and the bitset which was moved from can be filled anew. *)
Definition C119_os : list gop :=
  [GRef 0 9; GRef 1 2; GBegin 0; GAdvance 0 1; GSwap 0 1; GSet 0; GSetTo 1 true; GRead 1;
   GCall 1 (BTest 9) 0; GCall 0 (BTest 2) 0; GMove 0 1; GTest 0; GFlip 0; GCall 0 BIterate 0; GItRef 1; GSet 2;
   GRead 1; GCall 1 BSize 0; GAppend 1 0 0; GReset 2; GCall 1 BIterate 0; GCopy 1 0 4; GReserve 0 20 0].
Definition C119_start : list rbs := [Rbs (mkBs [0; 0] 10) 4 2; Rbs (mkBs [0] 3) 7 5]%N.
Example C119_met :
  let v := Gview [(repeat false 10, 2); (repeat false 3, 1)] [] [] in
  Forall2 (fun s l => holds_bits 8 (core s) l /\ length (buf (core s)) <= capw s) C119_start [repeat false 10; repeat false 3] /\
  blocks_apart C119_start 9 /\ gallowed_along 8 v C119_os /\
  snd (ghistory 8 v C119_os) =
    [RaNone; RaNone; RaNone; RaNone; RaNone; RaNone; RaNone; RaBool false;
     RaBits (BaBool true); RaBits (BaBool true); RaNone; RaBool true; RaNone; RaBits (BaBits (repeat false 10)); RaNone; RaNone;
     RaBool true; RaBits (BaNat 0); RaNone; RaNone; RaBits (BaBits (false :: true :: repeat false 8)); RaNone; RaNone] /\
  ~ gusable (fst (ghistory 8 v C119_os)) 1.
Proof.
  cbn zeta. split; [|split; [|split; [|split]]].
  - unfold C119_start. repeat constructor; cbn; auto; try (intros w [<-|[<-|[]]]; reflexivity); try (intros w [<-|[]]; reflexivity).
    + intros i Hi. do 10 (destruct i as [|i]; [reflexivity|]). lia.
    + intros i Hi. do 3 (destruct i as [|i]; [reflexivity|]). lia.
  - split.
    + intros [|[|i]] [|[|j]] a b Ha Hb E; cbn in Ha, Hb; auto;
        try (destruct i; discriminate); try (destruct j; discriminate);
        injection Ha as <-; injection Hb as <-; discriminate.
    + intros [|[|i]] a Ha; cbn in Ha; try (destruct i; discriminate); injection Ha as <-; cbn; lia.
  - unfold C119_os.
    repeat (lazymatch goal with |- gallowed_along ?W ?v (?o :: ?os) =>
      change (gallowed W v o /\ gallowed_along W (fst (gstep W v o)) os); split;
      [cbn; repeat split; try (vm_compute; reflexivity); try (vm_compute; discriminate);
       try (do 2 eexists; split; [reflexivity|cbn]); cbn; lia
      |let x := eval vm_compute in (fst (gstep W v o)) in change (gallowed_along W x os)] end).
    exact Logic.I.
  - vm_compute. reflexivity.
  - intros (i & p & Hi & _). vm_compute in Hi. discriminate.
Qed.
Example C119_moves_met :
  let w := World C119_start 9 [] [] in
  through (Bitref 7 0 4) (ref_test (Bitref 7 0 4)) w = Ok false w /\
  (exists w', g_move 0 1 w = Ok tt w' /\ through (Bitref 4 1 2) (ref_test (Bitref 4 1 2)) w' = UB) /\
  (exists w', g_swap 0 1 w = Ok tt w' /\ through (Bitref 4 1 2) (ref_test (Bitref 4 1 2)) w' = Ok false w') /\
  capw (nth 0 C119_start (Rbs (mkBs [] 0) 0 0)) < words_for 8 20.
Proof.
  cbn zeta. split; [reflexivity|]. split; [eexists; split; vm_compute; reflexivity|].
  split; [eexists; split; vm_compute; reflexivity|]. vm_compute. lia.
Qed.
