(** Proofs about references and iterators of bitsets which are moved. *)
From Coq Require Import List Arith NArith ZArith Bool Lia.
From Verif Require Import Base VecCommon BitsetModel BitsetSpec BitsetProofs BitsetRefModel BitsetRefSpec
  BitsetRefProofs BitsetMoveModel BitsetMoveSpec.
Import ListNotations.
Open Scope nat_scope.

Lemma nth_upd_cases {A} (l : list A) i x j y : nth_error (upd l i x) j = Some y ->
  (j = i /\ y = x /\ i < length l) \/ (j <> i /\ nth_error l j = Some y).
Proof.
  intros H. destruct (Nat.eq_dec j i) as [->|N].
  - left. assert (i < length l) as L. { rewrite <- (upd_length l i x). apply nth_error_Some. congruence. }
    rewrite nth_error_upd_eq in H by exact L. injection H as <-. auto.
  - right. rewrite nth_error_upd_neq in H by auto. auto.
Qed.
Lemma upd_upd_same {A} (l : list A) i x y : upd (upd l i x) i y = upd l i y.
Proof. revert i. induction l as [|z l IH]; intros [|i]; cbn; auto. now rewrite IH. Qed.
Lemma upd_comm {A} (l : list A) i j x y : i <> j -> upd (upd l i x) j y = upd (upd l j y) i x.
Proof. revert i j. induction l as [|z l IH]; intros [|i] [|j] N; cbn; auto; [lia|]. now rewrite IH by lia. Qed.
Lemma g_move_run w i j a b : i <> j -> nth_error (sets w) i = Some a -> nth_error (sets w) j = Some b ->
  g_move i j w = Ok tt (World (upd (upd (sets w) i b) j (Rbs (mkBs [] 0) (nextb w) 0)) (S (nextb w)) (grefs w) (gits w)).
Proof.
  intros N Ea Eb. unfold g_move. rewrite (proj2 (Nat.eqb_neq _ _) N). unfold take_out, put_in, bind. rewrite Eb.
  cbn [sets nextb grefs gits]. rewrite nth_error_upd_neq by auto. rewrite Ea. now rewrite upd_comm by auto.
Qed.
Lemma g_swap_run w i j a b : i <> j -> nth_error (sets w) i = Some a -> nth_error (sets w) j = Some b ->
  g_swap i j w = Ok tt (World (upd (upd (sets w) i b) j a) (S (S (nextb w))) (grefs w) (gits w)).
Proof.
  intros N Ea Eb. unfold g_swap. unfold bind at 1. unfold take_out. rewrite Ea.
  erewrite bind_ok.
  2:{ eapply g_move_run; cbn [sets]; [exact N|apply nth_error_upd_eq, nth_error_Some; congruence|
      rewrite nth_error_upd_neq by auto; exact Eb]. }
  unfold put_in. cbn [sets nextb grefs gits].
  rewrite nth_error_upd_eq by (rewrite !upd_length; apply nth_error_Some; congruence).
  now rewrite !upd_upd_same.
Qed.
Lemma owner_ok l n i s : blocks_apart l n -> nth_error l i = Some s -> owner_of l (block s) = Some i.
Proof.
  intros (A & _). revert i. induction l as [|t l IH]; intros i Es; [destruct i; discriminate|]. cbn [owner_of].
  destruct (Nat.eqb_spec (block t) (block s)) as [Eb|Nb].
  - f_equal. apply (A 0 i t s); auto.
  - destruct i as [|i]; [cbn in Es; congruence|]. rewrite (IH) with (i := i); auto.
    intros x y a b Ha Hb E. assert (S x = S y) by (apply (A (S x) (S y) a b); auto). lia.
Qed.

Section Moves.
Variable W : nat.
Hypothesis HW : 0 < W.
Notation gshows := (gshows W).
Notation is_set := (is_set W).

(** ** Lists *)
Lemma f2_nth {A B} (P : A -> B -> Prop) l k i a : Forall2 P l k -> nth_error l i = Some a ->
  exists b, nth_error k i = Some b /\ P a b.
Proof.
  intros H. revert i. induction H as [|x y l k Hxy H IH]; intros [|i] E; cbn in *; try discriminate.
  - injection E as <-. eauto.
  - now apply IH.
Qed.
Lemma f2_nth_r {A B} (P : A -> B -> Prop) l k i b : Forall2 P l k -> nth_error k i = Some b ->
  exists a, nth_error l i = Some a /\ P a b.
Proof.
  intros H. revert i. induction H as [|x y l k Hxy H IH]; intros [|i] E; cbn in *; try discriminate.
  - injection E as <-. eauto.
  - now apply IH.
Qed.
Lemma f2_upd {A B} (P : A -> B -> Prop) l k i a b : Forall2 P l k -> P a b -> Forall2 P (upd l i a) (upd k i b).
Proof. intros H R. revert i. induction H as [|x y l k Hxy H IH]; intros [|i]; cbn; constructor; auto. Qed.
Lemma f2_weak {A B} (P Q : A -> B -> Prop) l k : (forall a b, P a b -> Q a b) -> Forall2 P l k -> Forall2 Q l k.
Proof. intros H R. induction R; constructor; auto. Qed.
Lemma f2_send (P : bitref -> option (nat * nat) -> Prop) (Q : bitref -> option (nat * nat) -> Prop) f rs os :
  (forall r, Q r None) ->
  (forall r a p, P r (Some (a, p)) -> match f a with Some b => Q r (Some (b, p)) | None => True end) ->
  Forall2 P rs os -> Forall2 Q rs (send f os).
Proof.
  intros H0 H R. induction R as [|r o rs os Hr R IH]; cbn; constructor; auto.
  destruct o as [[a p]|]; auto. specialize (H r a p Hr). destruct (f a); auto.
Qed.
Lemma nth_pair {A} (l : list A) i d : i < length l -> nth_error l i = Some (nth i l d).
Proof. apply nth_error_nth'. Qed.

(** ** The bitsets *)
Lemma set_at w v i : gshows w v -> i < length (gsets v) ->
  exists s, nth_error (sets w) i = Some s /\ is_set s (bits_at v i, room_at v i).
Proof.
  intros (A & _) Hi. unfold bits_at, room_at.
  destruct (f2_nth_r _ _ _ _ _ A (nth_pair _ _ ([], 0) Hi)) as (s & E & Hs).
  exists s. rewrite <- surjective_pairing. auto.
Qed.
Lemma apart_new l n i s : blocks_apart l n -> block s = n -> blocks_apart (upd l i s) (S n).
Proof.
  intros (A & B) E. split.
  - intros x y a b Ha Hb Eb. apply nth_upd_cases in Ha, Hb.
    destruct Ha as [(-> & -> & L)|(N & Ha)], Hb as [(-> & -> & L')|(N' & Hb)]; auto.
    + apply B in Hb. lia.
    + apply B in Ha. lia.
    + eauto.
  - intros x a Ha. apply nth_upd_cases in Ha. destruct Ha as [(-> & -> & L)|(N & Ha)]; [lia|]. apply B in Ha. lia.
Qed.
Lemma apart_same l n i s s' : blocks_apart l n -> nth_error l i = Some s -> block s' = block s ->
  blocks_apart (upd l i s') n.
Proof.
  intros (A & B) Es E. split.
  - intros x y a b Ha Hb Eb. apply nth_upd_cases in Ha, Hb.
    destruct Ha as [(-> & -> & L)|(N & Ha)], Hb as [(-> & -> & L')|(N' & Hb)]; auto.
    + eapply A; eauto. congruence.
    + eapply A; eauto. congruence.
    + eauto.
  - intros x a Ha. apply nth_upd_cases in Ha. destruct Ha as [(-> & -> & L)|(N & Ha)]; [rewrite E|]; eauto.
Qed.

(** A bitset changes and keeps its block. *)
Lemma keep_block w v i s s' x : gshows w v -> nth_error (sets w) i = Some s -> block s' = block s -> is_set s' x ->
  gshows (World (upd (sets w) i s') (nextb w) (grefs w) (gits w)) (Gview (upd (gsets v) i x) (gvrefs v) (gvits v)).
Proof.
  intros (A & B & C & D & E) Es Eb Hx. repeat apply conj; cbn [sets nextb grefs gits gsets gvrefs gvits]; auto.
  - now apply f2_upd.
  - apply (apart_same _ _ _ _ _ B Es Eb).
  - apply (apart_same _ _ _ _ _ B Es Eb).
  - eapply f2_weak; [|exact C]. cbn beta. intros r o H a p Ho. destruct (H a p Ho) as (t & Et & ->).
    destruct (Nat.eq_dec a i) as [->|N].
    + rewrite Es in Et. injection Et as <-. exists s'. rewrite nth_error_upd_eq by (apply nth_error_Some; congruence).
      now rewrite Eb.
    + exists t. now rewrite nth_error_upd_neq by auto.
  - eapply Forall_impl; [|exact E]. intros y Hy. now rewrite upd_length.
Qed.
(** References may be forgotten. *)
Lemma forget_some w v i : gshows w v -> gshows w (Gview (gsets v) (send (lost i) (gvrefs v)) (gvits v)).
Proof.
  intros (A & B & C & D & E). repeat apply conj; cbn [gsets gvrefs gvits]; auto; try apply B.
  eapply f2_send; [discriminate| |exact C]. cbn beta. intros r a p H. unfold lost.
  destruct (a =? i); [exact Logic.I|]. intros a' p' [= <- <-]. now apply H.
Qed.
(** A bitset changes and gets another block. *)
Lemma new_block w v i s' x : gshows w v -> block s' = nextb w -> is_set s' x ->
  gshows (World (upd (sets w) i s') (S (nextb w)) (grefs w) (gits w))
         (Gview (upd (gsets v) i x) (send (lost i) (gvrefs v)) (gvits v)).
Proof.
  intros (A & B & C & D & E) Eb Hx. repeat apply conj; cbn [sets nextb grefs gits gsets gvrefs gvits]; auto.
  - now apply f2_upd.
  - apply (apart_new _ _ i s' B Eb).
  - apply (apart_new _ _ i s' B Eb).
  - eapply f2_send; [discriminate| |exact C]. cbn beta. intros r a p H. unfold lost.
    destruct (Nat.eqb_spec a i) as [->|N]; [exact Logic.I|]. intros a' p' [= <- <-].
    destruct (H a p eq_refl) as (t & Et & ->). exists t. now rewrite nth_error_upd_neq by auto.
  - eapply Forall_impl; [|exact E]. intros y Hy. now rewrite upd_length.
Qed.

Lemma at_set_run {A} (m : M rbs A) w i s a s' : nth_error (sets w) i = Some s -> m s = Ok a s' ->
  at_set i m w = Ok a (placed i s s' w).
Proof. intros E R. unfold at_set. now rewrite E, R. Qed.

(** A member function after which references may be lost. *)
Lemma placed_lost w v i s s' x : gshows w v -> nth_error (sets w) i = Some s -> is_set s' x ->
  gshows (placed i s s' w) (Gview (upd (gsets v) i x) (send (lost i) (gvrefs v)) (gvits v)).
Proof.
  intros H Es Hx. unfold placed. destruct (Nat.eqb_spec (block s') (block s)) as [Eb|Nb].
  - apply (forget_some _ (Gview (upd (gsets v) i x) (gvrefs v) (gvits v)) i). now apply keep_block with s.
  - apply new_block; auto.
Qed.
Lemma placed_kept w v i s s' x : gshows w v -> nth_error (sets w) i = Some s -> block s' = block s -> is_set s' x ->
  gshows (placed i s s' w) (Gview (upd (gsets v) i x) (gvrefs v) (gvits v)).
Proof. intros H Es Eb Hx. unfold placed. rewrite Eb, Nat.eqb_refl. now apply keep_block with s. Qed.

(** What [account] leaves: the same block if there was room. *)
Lemma accounted c b' s l room : holds_bits W b' l -> room <= capw s ->
  exists s', account c (Rbs b' (block s) (capw s)) = Ok tt s' /\
    if words_for W (length l) <=? room then block s' = block s /\ is_set s' (l, room)
    else is_set s' (l, words_for W (length l)).
Proof.
  intros Hb Hr. pose proof (holds_words W _ _ Hb) as Lb.
  destruct (account_ok W HW c (Rbs b' (block s) (capw s))) as (s' & R & Ec & K). cbn [core capw] in *.
  exists s'. split; [exact R|]. destruct (Nat.leb_spec (words_for W (length l)) room) as [L|L].
  - destruct K as [[K1 ->]|[K1 K2]]; [|lia]. split; [reflexivity|]. repeat split; cbn; auto; try apply Hb; lia.
  - unfold is_set. cbn [fst snd]. rewrite Ec. repeat split; auto; try apply Hb; try lia.
    destruct K as [[K1 ->]|[K1 K2]]; cbn; lia.
Qed.
Lemma becomes_ok w v i s s' l : gshows w v -> nth_error (sets w) i = Some s ->
  (if words_for W (length l) <=? room_at v i then block s' = block s /\ is_set s' (l, room_at v i)
   else is_set s' (l, words_for W (length l))) ->
  gshows (placed i s s' w) (gbecomes W v i l).
Proof.
  intros H Es K. unfold gbecomes. destruct (words_for W (length l) <=? room_at v i).
  - destruct K. now apply placed_kept.
  - now apply placed_lost.
Qed.
(** After an assignment. *)
Lemma assigned_ok c w v i s b' l : gshows w v -> nth_error (sets w) i = Some s -> room_at v i <= capw s ->
  holds_bits W b' l ->
  exists s', (renew ;;; account c) (Rbs b' (block s) (capw s)) = Ok tt s' /\
    gshows (placed i s s' w) (gassigned W v i l).
Proof.
  intros H Es Hr Hb. unfold renew. erewrite bind_ok by reflexivity. cbn [core block capw].
  pose proof (holds_words W _ _ Hb) as Lb.
  destruct (account_ok W HW c (Rbs b' (S (block s)) (capw s))) as (s' & R & Ec & K). cbn [core capw] in *.
  exists s'. split; [exact R|]. apply placed_lost; auto.
  unfold is_set. cbn [fst snd]. rewrite Ec. repeat split; auto; try apply Hb; try lia.
  destruct K as [[K1 ->]|[K1 K2]]; cbn; lia.
Qed.

Lemma rcall_accounted c o s l room : is_set s (l, room) -> bok W l o -> (forall ws, o <> BAssign ws) ->
  exists s', rcall W c o s = Ok (snd (bstep W l o)) s' /\
    if words_for W (length (fst (bstep W l o))) <=? room
    then block s' = block s /\ is_set s' (fst (bstep W l o), room)
    else is_set s' (fst (bstep W l o), words_for W (length (fst (bstep W l o)))).
Proof.
  intros (A & B & C) Hok Ho. cbn [fst snd] in *.
  destruct (bcall_ok W HW (core s) l o A Hok) as (b' & R & Hb).
  destruct (accounted c b' s _ room Hb B) as (s' & R2 & K). exists s'. split; [|exact K].
  unfold rcall. erewrite bind_ok by (apply on_core_ok; exact R).
  destruct o; try (erewrite bind_ok by exact R2; reflexivity). now destruct (Ho words).
Qed.

Lemma reserve_placed c n s l room : is_set s (l, room) -> size_ok W n ->
  exists s', rreserve W c n s = Ok tt s' /\
    if words_for W n <=? room then s' = s else is_set s' (l, words_for W n).
Proof.
  intros (A & B & C) Hn. cbn [fst snd] in *. unfold rreserve. rewrite (word_size_ok W HW n Hn).
  destruct (Nat.leb_spec (words_for W n) room) as [L|L].
  - exists s. rewrite (proj2 (Nat.leb_le _ _)) by lia. auto.
  - destruct (Nat.leb_spec (words_for W n) (capw s)) as [L2|L2]; eexists; (split; [reflexivity|]);
      repeat split; cbn; auto; try apply A; lia.
Qed.

(** ** References *)
Lemma gref_use w v k : gshows w v -> gusable v k ->
  exists i p s r, where_ v k = (i, p) /\ nth_error (grefs w) k = Some r /\ nth_error (sets w) i = Some s /\
    r = Bitref (block s) (p / W) (word_mask W p) /\ owner_of (sets w) (rblock r) = Some i /\
    i < length (gsets v) /\ p < length (bits_at v i) /\ is_set s (bits_at v i, room_at v i).
Proof.
  intros H (i & p & Er & Lp). pose proof H as (A & B & C & D & E).
  destruct (f2_nth_r _ _ _ _ _ C Er) as (r & Hr & Hs). destruct (Hs i p eq_refl) as (s & Es & Eq).
  assert (i < length (gsets v)) as Li.
  { rewrite <- (f2_length _ _ _ A). apply nth_error_Some. congruence. }
  destruct (set_at w v i H Li) as (s1 & Es1 & Hs1). rewrite Es in Es1. injection Es1 as <-.
  exists i, p, s, r. unfold where_. rewrite Er. repeat apply conj; auto; try apply Hs1.
  rewrite Eq. cbn [rblock]. eapply owner_ok; eauto.
Qed.
(** Writing through a reference. *)
Lemma write_ok {A} (m : M rbs A) w v i p s a b' x : gshows w v -> nth_error (sets w) i = Some s ->
  is_set s (bits_at v i, room_at v i) ->
  m s = Ok a (Rbs b' (block s) (capw s)) -> holds_bits W b' (upd (bits_at v i) p x) ->
  exists w', at_set i m w = Ok a w' /\ gshows w' (gwrite v i p x).
Proof.
  intros H Es (Hs & L1 & L2) R Hb. cbn [fst snd] in *. eexists. split; [eapply at_set_run; eauto|].
  apply placed_kept; auto. repeat split; cbn; auto; try apply Hb.
  rewrite (holds_words W _ _ Hb), upd_length, <- (holds_words W _ _ Hs). exact L2.
Qed.
Lemma read_ok {A} (m : M rbs A) w v i s a : gshows w v -> nth_error (sets w) i = Some s -> m s = Ok a s ->
  at_set i m w = Ok a w.
Proof.
  intros H Es R. erewrite at_set_run by eauto. unfold placed. rewrite Nat.eqb_refl, (upd_nth_id _ _ _ Es).
  now destruct w.
Qed.

(** ** Moves *)


Lemma empty_set n : is_set (Rbs (mkBs [] 0) n 0) ([], 0).
Proof. split; [apply holds_nil; exact HW|]. cbn. auto. Qed.

Lemma move_ok w v i j : gshows w v -> i < length (gsets v) -> j < length (gsets v) -> i <> j ->
  exists w', g_move i j w = Ok tt w' /\ gshows w' (fst (gstep W v (GMove i j))).
Proof.
  intros H Hi Hj N. destruct (set_at w v i H Hi) as (a & Ea & Ha), (set_at w v j H Hj) as (b & Eb & Hb).
  rewrite (g_move_run w i j a b N Ea Eb). eexists. split; [reflexivity|]. cbn [gstep fst].
  pose proof H as (A & (B1 & B2) & C & D & E).
  repeat apply conj; cbn [sets nextb grefs gits gsets gvrefs gvits]; auto.
  - apply f2_upd; [|apply empty_set]. now apply f2_upd.
  - intros x y c d Hc Hd Ecd. apply nth_upd_cases in Hc, Hd. 
    destruct Hc as [(-> & -> & L)|(N1 & Hc)], Hd as [(-> & -> & L')|(N2 & Hd)]; auto;
      try apply nth_upd_cases in Hc; try apply nth_upd_cases in Hd; cbn [block] in *.
    + destruct Hd as [(-> & -> & _)|(_ & Hd)]; [apply B2 in Eb|apply B2 in Hd]; lia.
    + destruct Hc as [(-> & -> & _)|(_ & Hc)]; [apply B2 in Eb|apply B2 in Hc]; lia.
    + destruct Hc as [(-> & -> & _)|(N3 & Hc)], Hd as [(-> & -> & _)|(N4 & Hd)]; auto.
      * destruct N2. symmetry. eauto.
      * destruct N1. eauto.
      * eauto.
  - intros x c Hc. apply nth_upd_cases in Hc. destruct Hc as [(-> & -> & L)|(N1 & Hc)]; [cbn; lia|].
    apply nth_upd_cases in Hc. destruct Hc as [(-> & -> & L)|(N2 & Hc)]; [apply B2 in Eb|apply B2 in Hc]; lia.
  - eapply f2_send; [discriminate| |exact C]. cbn beta. intros r x p Hr. unfold moved_to.
    destruct (Hr x p eq_refl) as (t & Et & ->).
    destruct (Nat.eqb_spec x i) as [->|N1]; [exact Logic.I|]. destruct (Nat.eqb_spec x j) as [->|N2].
    + intros x' p' [= <- <-]. rewrite Eb in Et. injection Et as <-. exists b. split; [|reflexivity].
      rewrite nth_error_upd_neq by auto. apply nth_error_upd_eq. apply nth_error_Some. congruence.
    + intros x' p' [= <- <-]. exists t. split; [|reflexivity]. now rewrite !nth_error_upd_neq by auto.
  - eapply Forall_impl; [|exact E]. intros y Hy. now rewrite !upd_length.
Qed.
Lemma swap_ok w v i j : gshows w v -> i < length (gsets v) -> j < length (gsets v) -> i <> j ->
  exists w', g_swap i j w = Ok tt w' /\ gshows w' (fst (gstep W v (GSwap i j))).
Proof.
  intros H Hi Hj N. destruct (set_at w v i H Hi) as (a & Ea & Ha), (set_at w v j H Hj) as (b & Eb & Hb).
  rewrite (g_swap_run w i j a b N Ea Eb). eexists. split; [reflexivity|]. cbn [gstep fst].
  pose proof H as (A & (B1 & B2) & C & D & E).
  repeat apply conj; cbn [sets nextb grefs gits gsets gvrefs gvits]; auto.
  - apply f2_upd; [|exact Ha]. now apply f2_upd.
  - intros x y c d Hc Hd Ecd. apply nth_upd_cases in Hc, Hd.
    destruct Hc as [(-> & -> & L)|(N1 & Hc)], Hd as [(-> & -> & L')|(N2 & Hd)]; auto;
      try apply nth_upd_cases in Hc; try apply nth_upd_cases in Hd.
    + destruct Hd as [(-> & -> & _)|(N3 & Hd)]; [destruct N; eauto|destruct N3; symmetry; eauto].
    + destruct Hc as [(-> & -> & _)|(N3 & Hc)]; [destruct N; symmetry; eauto|destruct N3; eauto].
    + destruct Hc as [(-> & -> & _)|(N3 & Hc)], Hd as [(-> & -> & _)|(N4 & Hd)]; auto.
      * destruct N2. symmetry. eauto.
      * destruct N1. eauto.
      * eauto.
  - intros x c Hc. apply nth_upd_cases in Hc. destruct Hc as [(-> & -> & L)|(N1 & Hc)]; [apply B2 in Ea; lia|].
    apply nth_upd_cases in Hc. destruct Hc as [(-> & -> & L)|(N2 & Hc)]; [apply B2 in Eb|apply B2 in Hc]; lia.
  - eapply f2_send; [discriminate| |exact C]. cbn beta. intros r x p Hr. unfold exchanged.
    destruct (Hr x p eq_refl) as (t & Et & ->).
    destruct (Nat.eqb_spec x i) as [->|N1]; [|destruct (Nat.eqb_spec x j) as [->|N2]].
    + intros x' p' [= <- <-]. rewrite Ea in Et. injection Et as <-. exists a. split; [|reflexivity].
      apply nth_error_upd_eq. rewrite upd_length. apply nth_error_Some. congruence.
    + intros x' p' [= <- <-]. rewrite Eb in Et. injection Et as <-. exists b. split; [|reflexivity].
      rewrite nth_error_upd_neq by auto. apply nth_error_upd_eq. apply nth_error_Some. congruence.
    + intros x' p' [= <- <-]. exists t. split; [|reflexivity]. now rewrite !nth_error_upd_neq by auto.
  - eapply Forall_impl; [|exact E]. intros y Hy. now rewrite !upd_length.
Qed.

(** ** Keeping references and iterators *)
Lemma keep_ref_ok w v i p s : gshows w v -> nth_error (sets w) i = Some s ->
  gshows (World (sets w) (nextb w) (grefs w ++ [Bitref (block s) (p / W) (word_mask W p)]) (gits w)) (gadd v i p).
Proof.
  intros (A & B & C & D & E) Es. repeat apply conj; cbn [sets nextb grefs gits gsets gvrefs gvits gadd]; auto; try apply B.
  apply Forall2_app; [exact C|]. constructor; [|constructor]. intros a q [= <- <-]. eauto.
Qed.
Lemma keep_it_ok w v i p : gshows w v -> i < length (gsets v) -> (N.of_nat p < two64 / 2)%N ->
  gshows (World (sets w) (nextb w) (grefs w) (gits w ++ [(i, N.of_nat p)])) (Gview (gsets v) (gvrefs v) (gvits v ++ [(i, p)])).
Proof.
  intros (A & B & C & D & E) Hi Hp. repeat apply conj; cbn [sets nextb grefs gits gsets gvrefs gvits]; auto; try apply B.
  - rewrite D, map_app. reflexivity.
  - apply Forall_app. split; [exact E|]. constructor; [auto|constructor].
Qed.
Lemma g_it_ok w v k : gshows w v -> k < length (gvits v) ->
  g_it k w = Ok (fst (it_at v k), N.of_nat (snd (it_at v k))) w /\ fst (it_at v k) < length (gsets v) /\
  (N.of_nat (snd (it_at v k)) < two64 / 2)%N.
Proof.
  intros (A & B & C & D & E) Hk. unfold g_it, it_at. rewrite D, nth_error_map, (nth_pair _ _ (0, 0) Hk). cbn [option_map].
  split; [reflexivity|]. rewrite Forall_forall in E. apply E. now apply nth_In.
Qed.

Lemma gdo_sim o w v : gshows w v -> gallowed W v o ->
  exists w', gdo W o w = Ok (snd (gstep W v o)) w' /\ gshows w' (fst (gstep W v o)).
Proof.
  intros H Hok. destruct o as [i o c|i n c|i j c|i j c|i j|i j|i p|k|k|k|k|k b|i|k z|k|k]; cbn [gdo gallowed] in *.
  - destruct Hok as (Hi & Hok). destruct (set_at w v i H Hi) as (s & Es & Hs).
    assert ((forall ws, o <> BAssign ws) \/ exists ws, o = BAssign ws) as [Ho|(ws & ->)].
    { destruct o; try (left; discriminate). right. eauto. }
    + destruct (rcall_accounted c o s _ _ Hs Hok Ho) as (s' & R & K).
      assert (gstep W v (GCall i o c) = (gbecomes W v i (fst (bstep W (bits_at v i) o)), RaBits (snd (bstep W (bits_at v i) o)))) as ->.
      { destruct o; try reflexivity; try (cbn [gstep]; now rewrite surjective_pairing at 1). now destruct (Ho words). }
      erewrite bind_ok by (eapply at_set_run; eauto). eexists. split; [reflexivity|]. cbn [fst].
      now apply becomes_ok.
    + pose proof Hs as (A & B & C). cbn [fst snd] in *.
      destruct (bcall_ok W HW (core s) _ (BAssign ws) A Hok) as (b' & R & Hb). cbn [bstep fst snd] in R, Hb.
      destruct (assigned_ok c w v i s b' _ H Es B Hb) as (s' & R2 & K).
      erewrite bind_ok. 2:{ eapply at_set_run; [exact Es|]. unfold rcall. erewrite bind_ok by (apply on_core_ok; exact R).
        unfold renew in *. erewrite bind_ok in R2 by reflexivity. erewrite bind_ok by reflexivity.
        erewrite bind_ok by exact R2. reflexivity. }
      eexists. split; [reflexivity|]. exact K.
  - destruct Hok as (Hi & Hn). destruct (set_at w v i H Hi) as (s & Es & Hs).
    destruct (reserve_placed c n s _ _ Hs Hn) as (s' & R & K). cbn [gstep fst snd].
    erewrite bind_ok by (eapply at_set_run; eauto). eexists. split; [reflexivity|].
    destruct (words_for W n <=? room_at v i).
    + subst s'. unfold placed. rewrite Nat.eqb_refl, (upd_nth_id _ _ _ Es). now destruct w.
    + now apply placed_lost.
  - destruct Hok as (Hi & Hj & N & Hn). destruct (set_at w v i H Hi) as (a & Ea & Ha), (set_at w v j H Hj) as (b & Eb & Hb).
    unfold g_append. rewrite (proj2 (Nat.eqb_neq _ _) N).
    destruct (append_ok W HW (core a) _ (core b) _ (proj1 Ha) (proj1 Hb) Hn) as (b' & R & Hb'). cbn [fst] in *.
    destruct (accounted c b' a _ (room_at v i) Hb' (proj1 (proj2 Ha))) as (s' & R2 & K).
    assert (the_set j w = Ok b w) as R0 by (unfold the_set; now rewrite Eb).
    erewrite bind_ok. 2:{ erewrite bind_ok by exact R0. eapply at_set_run; [exact Ea|].
      erewrite bind_ok by (apply on_core_ok; exact R). exact R2. }
    eexists. split; [reflexivity|]. cbn [gstep fst]. now apply becomes_ok.
  - destruct Hok as (Hi & Hj & N). destruct (set_at w v i H Hi) as (a & Ea & Ha), (set_at w v j H Hj) as (b & Eb & Hb).
    unfold g_copy. rewrite (proj2 (Nat.eqb_neq _ _) N).
    destruct (assigned_ok c w v i a (core b) _ H Ea (proj1 (proj2 Ha)) (proj1 Hb)) as (s' & R2 & K).
    assert (the_set j w = Ok b w) as R0 by (unfold the_set; now rewrite Eb).
    erewrite bind_ok. 2:{ erewrite bind_ok by exact R0. eapply at_set_run; [exact Ea|].
      erewrite bind_ok by reflexivity. exact R2. }
    eexists. split; [reflexivity|]. exact K.
  - destruct Hok as (Hi & Hj & N). destruct (move_ok w v i j H Hi Hj N) as (w' & R & K).
    erewrite bind_ok by exact R. eexists. split; [reflexivity|exact K].
  - destruct Hok as (Hi & Hj & N). destruct (swap_ok w v i j H Hi Hj N) as (w' & R & K).
    erewrite bind_ok by exact R. eexists. split; [reflexivity|exact K].
  - destruct Hok as (Hi & Hp). destruct (set_at w v i H Hi) as (s & Es & Hs).
    erewrite bind_ok by (eapply read_ok; eauto; eapply make_ok_ref; eauto; apply Hs).
    eexists. split; [reflexivity|]. now apply keep_ref_ok.
  - destruct (gref_use _ _ _ H Hok) as (i & p & s & r & Ew & Er & Es & Hr & Ho & Hi & Hp & Hs).
    unfold bind at 1, g_ref. rewrite Er. unfold through. cbn [gstep fst snd]. rewrite Ew.
    erewrite bind_ok. 2:{ rewrite Ho. eapply read_ok; eauto. rewrite (proj1 (ref_as_bit W s _ r Hr)).
      erewrite on_core_ok by exact (test_ok W HW _ _ _ (proj1 Hs) Hp). now destruct s. }
    eexists. split; [reflexivity|exact H].
  - destruct (gref_use _ _ _ H Hok) as (i & p & s & r & Ew & Er & Es & Hr & Ho & Hi & Hp & Hs).
    unfold bind at 1, g_ref. rewrite Er. unfold through. cbn [gstep fst snd]. rewrite Ew. cbn [fst snd].
    destruct (set_to_ok W HW (core s) _ p true (proj1 Hs) Hp) as (b' & R & Hb). cbn [set_to] in R.
    destruct (write_ok (ref_set r) w v i p s tt b' true H Es Hs) as (w' & R2 & K); auto.
    { rewrite (proj1 (proj2 (ref_as_bit W s _ r Hr))). now apply on_core_ok. }
    erewrite bind_ok by (rewrite Ho; exact R2). eexists. split; [reflexivity|exact K].
  - destruct (gref_use _ _ _ H Hok) as (i & p & s & r & Ew & Er & Es & Hr & Ho & Hi & Hp & Hs).
    unfold bind at 1, g_ref. rewrite Er. unfold through. cbn [gstep fst snd]. rewrite Ew. cbn [fst snd].
    destruct (set_to_ok W HW (core s) _ p false (proj1 Hs) Hp) as (b' & R & Hb). cbn [set_to] in R.
    destruct (write_ok (ref_reset W r) w v i p s tt b' false H Es Hs) as (w' & R2 & K); auto.
    { rewrite (proj1 (proj2 (proj2 (ref_as_bit W s _ r Hr)))). now apply on_core_ok. }
    erewrite bind_ok by (rewrite Ho; exact R2). eexists. split; [reflexivity|exact K].
  - destruct (gref_use _ _ _ H Hok) as (i & p & s & r & Ew & Er & Es & Hr & Ho & Hi & Hp & Hs).
    unfold bind at 1, g_ref. rewrite Er. unfold through. cbn [gstep fst snd]. rewrite Ew. cbn [fst snd].
    destruct (flip_ok W HW (core s) _ p (proj1 Hs) Hp) as (b' & R & Hb).
    destruct (write_ok (ref_flip r) w v i p s tt b' (negb (nth p (bits_at v i) false)) H Es Hs) as (w' & R2 & K); auto.
    { rewrite (proj2 (proj2 (proj2 (ref_as_bit W s _ r Hr)))). now apply on_core_ok. }
    erewrite bind_ok by (rewrite Ho; exact R2). eexists. split; [reflexivity|exact K].
  - destruct (gref_use _ _ _ H Hok) as (i & p & s & r & Ew & Er & Es & Hr & Ho & Hi & Hp & Hs).
    unfold bind at 1, g_ref. rewrite Er. unfold through. cbn [gstep fst snd]. rewrite Ew. cbn [fst snd].
    destruct (set_to_ok W HW (core s) _ p b (proj1 Hs) Hp) as (b' & R & Hb).
    destruct (write_ok (ref_set_to W r b) w v i p s tt b' b H Es Hs) as (w' & R2 & K); auto.
    { transitivity (on_core (set_to W p b) s); [|now apply on_core_ok].
      unfold ref_set_to, set_to. destruct b; apply (ref_as_bit W s _ r Hr). }
    erewrite bind_ok by (rewrite Ho; exact R2). eexists. split; [reflexivity|exact K].
  - destruct (set_at w v i H Hok) as (s & Es & Hs). assert (the_set i w = Ok s w) as R0 by (unfold the_set; now rewrite Es).
    erewrite bind_ok by exact R0. eexists. split; [reflexivity|]. now apply (keep_it_ok w v i 0).
  - destruct Hok as (Hk & Hz & Hz2). destruct (g_it_ok w v k H Hk) as (R & Hi & Hp). erewrite bind_ok by exact R.
    eexists. split; [reflexivity|]. cbn [gstep fst snd].
    rewrite (it_add_pos W HW) by (rewrite half in *; lia). rewrite nat_N_Z. apply keep_it_ok; auto. rewrite half in *. lia.
  - destruct Hok as (Hk & Hp). destruct (g_it_ok w v k H Hk) as (R & Hi & _). erewrite bind_ok by exact R. cbn [fst snd].
    destruct (set_at w v _ H Hi) as (s & Es & Hs). rewrite Nat2N.id.
    erewrite bind_ok. 2:{ eapply read_ok; eauto. erewrite on_core_ok by exact (test_ok W HW _ _ _ (proj1 Hs) Hp). now destruct s. }
    eexists. split; [reflexivity|exact H].
  - destruct Hok as (Hk & Hp). destruct (g_it_ok w v k H Hk) as (R & Hi & _). erewrite bind_ok by exact R. cbn [fst snd].
    destruct (set_at w v _ H Hi) as (s & Es & Hs). rewrite Nat2N.id.
    erewrite bind_ok by (eapply read_ok; eauto; eapply make_ok_ref; eauto; apply Hs).
    eexists. split; [reflexivity|]. now apply keep_ref_ok.
Qed.

Lemma grun_sim os : forall w v, gshows w v -> gallowed_along W v os ->
  exists w', grun W os w = Ok (snd (ghistory W v os)) w' /\ gshows w' (fst (ghistory W v os)).
Proof.
  induction os as [|o os IH]; intros w v H Hok; cbn [grun ghistory gallowed_along] in *.
  - exists w. split; [reflexivity|exact H].
  - destruct Hok as (Ho & Hok). destruct (gdo_sim o w v H Ho) as (w1 & R1 & H1).
    destruct (gstep W v o) as (v1, a). cbn [fst snd] in *. destruct (IH w1 v1 H1 Hok) as (w2 & R2 & H2).
    destruct (ghistory W v1 os) as (v2, rs). cbn [fst snd] in *.
    exists w2. split; [|exact H2]. erewrite bind_ok by exact R1. erewrite bind_ok by exact R2. reflexivity.
Qed.
End Moves.
