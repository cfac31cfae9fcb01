(** Proofs about the references and iterators of dynamic_bitset. *)
From Coq Require Import List Arith NArith ZArith Bool Lia.
From Verif Require Import Base VecCommon BitsetModel BitsetSpec BitsetProofs BitsetRefModel BitsetRefSpec.
Import ListNotations.
Open Scope nat_scope.

Section Refs.
Variable W : nat.
Hypothesis HW : 0 < W.
Notation shows := (shows W).

Lemma forget_ok (P : bitref -> option nat -> Prop) rs n : length rs = n -> (forall r, P r None) ->
  Forall2 P rs (forget n).
Proof. intros <- H. induction rs as [|r rs IH]; cbn; constructor; auto. Qed.

Lemma f2_length {A B} (P : A -> B -> Prop) l k : Forall2 P l k -> length l = length k.
Proof. intros H. induction H; cbn; auto. Qed.

Lemma account_ok c s : exists s', account c s = Ok tt s' /\ core s' = core s /\
  ((length (buf (core s)) <= capw s /\ s' = s) \/ (capw s < length (buf (core s)) /\ length (buf (core s)) <= capw s')).
Proof.
  unfold account. destruct (Nat.leb_spec (length (buf (core s))) (capw s)) as [L|L].
  - exists s. auto.
  - eexists. split; [reflexivity|]. split; [reflexivity|]. right. cbn. lia.
Qed.

Lemma holds_words s l : holds_bits W s l -> length (buf s) = words_for W (length l).
Proof. intros H. apply H. Qed.

(** A call. *)
Lemma rcall_sim c o s rs is v a l' : shows (User s rs is) v -> bok W (vbits v) o -> bstep W (vbits v) o = (l', a) ->
  exists s', rcall W c o s = Ok a s' /\ shows (User s' rs is) (fst (rstep W v (RCall o c))) .
Proof.
  intros (A & B & C & D & E & F) Hok Hst. cbn [ub_ refs its] in *.
  destruct (bcall_ok W HW (core s) (vbits v) o A Hok) as (b' & R & Hb). rewrite Hst in R, Hb. cbn [fst snd] in R, Hb.
  pose proof (holds_words _ _ Hb) as Lb.
  assert (on_core (bcall W o) s = Ok a (Rbs b' (block s) (capw s))) as R1 by (unfold on_core; now rewrite R).
  unfold rcall. erewrite bind_ok by exact R1.
  assert (length rs = length (vrefs v)) as Lr by (eapply f2_length; eauto).
  assert (forall x, (x = (fun a0 : bans => account c ;;; ret a0) a) -> exists s', x (Rbs b' (block s) (capw s)) = Ok a s' /\
     shows (User s' rs is) (becomes W v l')) as Plain.
  { intros x ->. destruct (account_ok c (Rbs b' (block s) (capw s))) as (s' & R2 & Ec & K). cbn [core capw] in *.
    exists s'. split; [erewrite bind_ok by exact R2; reflexivity|]. unfold becomes.
    destruct (Nat.leb_spec (words_for W (length l')) (vroom v)) as [L|L].
    - destruct K as [[K1 ->]|[K1 K2]]; [|lia]. repeat split; cbn; auto; try apply Hb; lia.
    - repeat split; cbn [ub_ refs its vbits vroom vrefs vits]; auto; rewrite ?Ec; auto; try apply Hb; try lia.
      + destruct K as [[K1 ->]|[K1 K2]]; cbn; lia.
      + apply forget_ok; [exact Lr|]. discriminate. }
  destruct o; cbn [rstep]; rewrite Hst; try (apply Plain; reflexivity).
  (* assign *)
  cbn [fst]. unfold renew. erewrite bind_ok by reflexivity.
  destruct (account_ok c (Rbs b' (S (block s)) (capw s))) as (s' & R2 & Ec & K). cbn [core capw] in *.
  exists s'. split; [erewrite bind_ok by exact R2; reflexivity|].
  repeat split; cbn [ub_ refs its vbits vroom vrefs vits]; auto; rewrite ?Ec; auto; try apply Hb; try lia.
  - destruct K as [[K1 ->]|[K1 K2]]; cbn; lia.
  - apply forget_ok; [exact Lr|]. discriminate.
Qed.

(** The word of a reference which may be used. *)
Lemma ref_use s rs is v k : shows (User s rs is) v -> usable v k ->
  exists r, nth_error rs k = Some r /\ r = Bitref (block s) (the_pos v k / W) (word_mask W (the_pos v k)) /\
    the_pos v k < length (vbits v).
Proof.
  intros (A & B & C & D & E & F) (i & Hi & Li). cbn [ub_ refs its] in *. unfold the_pos. rewrite Hi.
  clear - D Hi Li. revert k Hi. induction D as [|r o rs vr Ho D IH]; intros [|k] Hi; try discriminate.
  - injection Hi as ->. exists r. split; [reflexivity|]. auto.
  - now apply IH.
Qed.

Lemma ref_as_bit s i r : r = Bitref (block s) (i / W) (word_mask W i) ->
  ref_test r s = on_core (test W i) s /\ ref_set r s = on_core (set1 W i) s /\
  ref_reset W r s = on_core (reset1 W i) s /\ ref_flip r s = on_core (flip W i) s.
Proof.
  intros ->. unfold ref_test, ref_set, ref_reset, ref_flip, ref_word, ref_set_word, test, set1, reset1, flip, bind,
    on_core, word, set_word, word_index, ret. cbn [rblock rindex rmask]. rewrite Nat.eqb_refl.
  destruct (nth_error (buf (core s)) (i / W)) eqn:E; [|auto]. cbn [core block capw].
  rewrite Nat.eqb_refl. destruct s as [[b z] bl cp]; cbn in *.
  destruct (i / W <? length b); auto.
Qed.

Lemma on_core_ok {A} (m : M bs A) s a b : m (core s) = Ok a b -> on_core m s = Ok a (Rbs b (block s) (capw s)).
Proof. intros H. unfold on_core. now rewrite H. Qed.
Lemma on_bits_ok {A} (m : M rbs A) u a b : m (ub_ u) = Ok a b -> on_bits m u = Ok a (User b (refs u) (its u)).
Proof. intros H. unfold on_bits. now rewrite H. Qed.

Lemma shows_same s b' rs is v l' : shows (User s rs is) v -> holds_bits W b' l' -> length l' = length (vbits v) ->
  shows (User (Rbs b' (block s) (capw s)) rs is) (with_bits v l').
Proof.
  intros (A & B & C & D & E & F) Hb Hl. repeat split; cbn in *; auto; try apply Hb.
  rewrite (holds_words _ _ Hb), Hl, <- (holds_words _ _ A). exact C.
Qed.

Lemma shows_ref s rs is v i : shows (User s rs is) v ->
  shows (User s (rs ++ [Bitref (block s) (i / W) (word_mask W i)]) is) (add_ref v i).
Proof.
  intros (A & B & C & D & E & F). repeat split; cbn in *; auto; try apply A.
  apply Forall2_app; [exact D|]. constructor; [|constructor]. now intros j [= ->].
Qed.
Lemma shows_it s rs is v i : shows (User s rs is) v -> (N.of_nat i < two64 / 2)%N ->
  shows (User s rs (is ++ [N.of_nat i])) (add_it v i).
Proof.
  intros (A & B & C & D & E & F) Hi. repeat split; cbn in *; auto; try apply A.
  - rewrite map_app, E. reflexivity.
  - apply Forall_app. split; [exact F|]. constructor; [exact Hi|constructor].
Qed.

Lemma the_it_ok s rs is v k : shows (User s rs is) v -> k < length (vits v) ->
  the_it k (User s rs is) = Ok (N.of_nat (it_pos v k)) (User s rs is) /\ (N.of_nat (it_pos v k) < two64 / 2)%N.
Proof.
  intros (A & B & C & D & E & F) Hk. cbn in *. unfold the_it, it_pos. cbn [its]. rewrite E. split.
  - rewrite nth_error_map, (nth_error_nth' _ 0) by exact Hk. reflexivity.
  - rewrite Forall_forall in F. apply F. now apply nth_In.
Qed.

Lemma half : (two64 / 2 = 9223372036854775808)%N. Proof. reflexivity. Qed.
Lemma full : two64 = 18446744073709551616%N. Proof. reflexivity. Qed.

Lemma it_add_pos i z : (0 <= Z.of_N i + z < Z.of_N (two64 / 2))%Z ->
  it_add i z = N.of_nat (Z.to_nat (Z.of_N i + z)).
Proof. rewrite half. intros H. unfold it_add. rewrite full, Z.mod_small by lia. lia. Qed.
Lemma it_sub_pos i z : (0 <= Z.of_N i - z < Z.of_N (two64 / 2))%Z ->
  it_sub i z = N.of_nat (Z.to_nat (Z.of_N i - z)).
Proof. rewrite half. intros H. unfold it_sub. rewrite full, Z.mod_small by lia. lia. Qed.
Lemma it_inc_pos i : (i + 1 < two64 / 2)%N -> it_inc i = (i + 1)%N.
Proof. rewrite half. intros H. unfold it_inc. rewrite full, N.mod_small by lia. reflexivity. Qed.
Lemma it_dec_pos i : (0 < i)%N -> (i < two64 / 2)%N -> it_dec i = (i - 1)%N.
Proof.
  rewrite half. intros H1 H2. unfold it_dec. rewrite full.
  replace (i + (18446744073709551616 - 1))%N with ((i - 1) + 1 * 18446744073709551616)%N by lia.
  rewrite N.mod_add by lia. apply N.mod_small. lia.
Qed.
Lemma it_diff_pos i j : (i < two64 / 2)%N -> (j < two64 / 2)%N -> it_diff i j = Some (Z.of_N i - Z.of_N j)%Z.
Proof.
  intros H1 H2. unfold it_diff, to_diff. rewrite (proj2 (N.ltb_lt _ _) H1), (proj2 (N.ltb_lt _ _) H2).
  rewrite half in *. rewrite (proj2 (Z.leb_le _ _)), (proj2 (Z.ltb_lt _ _)) by lia. reflexivity.
Qed.

Lemma upd_map_nat (l : list nat) k i : upd (map N.of_nat l) k (N.of_nat i) = map N.of_nat (upd l k i).
Proof. revert k. induction l as [|x l IH]; intros [|k]; cbn; auto. now rewrite IH. Qed.
Lemma Forall_upd {A} (P : A -> Prop) l k x : Forall P l -> P x -> Forall P (upd l k x).
Proof. intros H Hx. revert k. induction H; intros [|k]; cbn; constructor; auto. Qed.
Lemma put_it_ok s rs is v k i : shows (User s rs is) v -> (N.of_nat i < two64 / 2)%N ->
  shows (User s rs (upd is k (N.of_nat i))) (View (vbits v) (vroom v) (vrefs v) (upd (vits v) k i)).
Proof.
  intros (A & B & C & D & E & F) Hi. repeat split; cbn in *; auto; try apply A.
  - rewrite E. apply upd_map_nat.
  - now apply Forall_upd.
Qed.

Lemma make_ok_ref s l i : holds_bits W (core s) l -> i < length l ->
  ref_make W i s = Ok (Bitref (block s) (i / W) (word_mask W i)) s.
Proof.
  intros H Hi. unfold ref_make, word, word_index.
  destruct (nth_error (buf (core s)) (i / W)) eqn:E; [reflexivity|]. exfalso.
  apply nth_error_None in E. rewrite (holds_words _ _ H) in E. pose proof (words_for_bound W HW i _ Hi). lia.
Qed.

Lemma rdo_sim o u v : shows u v -> rallowed W v o ->
  exists u', rdo W o u = Ok (snd (rstep W v o)) u' /\ shows u' (fst (rstep W v o)).
Proof.
  destruct u as [s rs is]. intros H Hok. pose proof H as (A & B & C & D & E & F). cbn [ub_ refs its] in *.
  destruct o as [o c|n c|i|k|k|k|k|k b|k b| | |k|k|k z|k z|j k|j k|k|k]; cbn [rdo rallowed] in *.
  - destruct (bstep W (vbits v) o) as (l', a) eqn:Eb.
    destruct (rcall_sim c o s rs is v a l' H Hok Eb) as (s' & R & Hs).
    erewrite bind_ok by (apply on_bits_ok; exact R). eexists. split; [|exact Hs].
    assert (snd (rstep W v (RCall o c)) = RaBits a) as -> by (destruct o; cbn [rstep]; now rewrite Eb). reflexivity.
  - unfold rreserve. cbn [rstep fst snd]. rewrite (word_size_ok W HW n Hok).
    assert (exists s', rreserve W c n s = Ok tt s' /\ core s' = core s /\
      ((words_for W n <= capw s /\ s' = s) \/ (capw s < words_for W n /\ words_for W n <= capw s'))) as (s' & R & Ec & K).
    { unfold rreserve. rewrite (word_size_ok W HW n Hok).
      destruct (Nat.leb_spec (words_for W n) (capw s)); eexists; (split; [reflexivity|]); (split; [reflexivity|]); [auto|].
      right. cbn. lia. }
    unfold rreserve in R. rewrite (word_size_ok W HW n Hok) in R.
    erewrite bind_ok by (apply on_bits_ok; cbn [ub_]; exact R). eexists. split; [reflexivity|]. cbn [refs its].
    destruct (Nat.leb_spec (words_for W n) (vroom v)) as [L|L].
    + destruct K as [[K ->]|[K1 K2]]; [exact H|lia].
    + repeat split; cbn [ub_ refs its vbits vroom vrefs vits]; rewrite ?Ec; auto; try apply A; try lia.
      * destruct K as [[K ->]|[K1 K2]]; lia.
      * apply forget_ok; [eapply f2_length; eauto|discriminate].
  - erewrite bind_ok by (apply on_bits_ok; cbn [ub_]; eapply make_ok_ref; eauto). cbn [refs its].
    eexists. split; [reflexivity|]. cbn [rstep fst ub_ refs its]. now apply shows_ref.
  - destruct (ref_use _ _ _ _ _ H Hok) as (r & Er & Hr & Li). unfold the_ref at 1. unfold bind at 1. cbn [refs]. rewrite Er.
    erewrite bind_ok. 2:{ apply on_bits_ok. cbn [ub_]. rewrite (proj1 (ref_as_bit s _ r Hr)). apply on_core_ok. exact (test_ok W HW _ _ _ A Li). }
    eexists. split; [reflexivity|]. destruct s. exact H.
  - destruct (ref_use _ _ _ _ _ H Hok) as (r & Er & Hr & Li). unfold the_ref at 1. unfold bind at 1. cbn [refs]. rewrite Er.
    destruct (set_to_ok W HW (core s) (vbits v) (the_pos v k) true A Li) as (b' & R & Hb). cbn [set_to] in R.
    erewrite bind_ok. 2:{ apply on_bits_ok. cbn [ub_]. rewrite (proj1 (proj2 (ref_as_bit s _ r Hr))). apply on_core_ok. exact R. }
    eexists. split; [reflexivity|]. cbn [rstep fst refs its]. apply shows_same; auto. now rewrite upd_length.
  - destruct (ref_use _ _ _ _ _ H Hok) as (r & Er & Hr & Li). unfold the_ref at 1. unfold bind at 1. cbn [refs]. rewrite Er.
    destruct (set_to_ok W HW (core s) (vbits v) (the_pos v k) false A Li) as (b' & R & Hb). cbn [set_to] in R.
    erewrite bind_ok. 2:{ apply on_bits_ok. cbn [ub_]. rewrite (proj1 (proj2 (proj2 (ref_as_bit s _ r Hr)))). apply on_core_ok. exact R. }
    eexists. split; [reflexivity|]. cbn [rstep fst refs its]. apply shows_same; auto. now rewrite upd_length.
  - destruct (ref_use _ _ _ _ _ H Hok) as (r & Er & Hr & Li). unfold the_ref at 1. unfold bind at 1. cbn [refs]. rewrite Er.
    destruct (flip_ok W HW (core s) (vbits v) (the_pos v k) A Li) as (b' & R & Hb).
    erewrite bind_ok. 2:{ apply on_bits_ok. cbn [ub_]. rewrite (proj2 (proj2 (proj2 (ref_as_bit s _ r Hr)))). apply on_core_ok. exact R. }
    eexists. split; [reflexivity|]. cbn [rstep fst refs its]. apply shows_same; auto. now rewrite upd_length.
  - destruct (ref_use _ _ _ _ _ H Hok) as (r & Er & Hr & Li). unfold the_ref at 1. unfold bind at 1. cbn [refs]. rewrite Er.
    destruct (set_to_ok W HW (core s) (vbits v) (the_pos v k) b A Li) as (b' & R & Hb).
    assert (ref_set_to W r b s = on_core (set_to W (the_pos v k) b) s) as E2.
    { unfold ref_set_to, set_to. destruct b; apply (ref_as_bit s _ r Hr). }
    erewrite bind_ok. 2:{ apply on_bits_ok. cbn [ub_]. rewrite E2. apply on_core_ok. exact R. }
    eexists. split; [reflexivity|]. cbn [rstep fst refs its]. apply shows_same; auto. now rewrite upd_length.
  - destruct (ref_use _ _ _ _ _ H Hok) as (r & Er & Hr & Li). unfold the_ref at 1. unfold bind at 1. cbn [refs]. rewrite Er.
    destruct (set_to_ok W HW (core s) (vbits v) (the_pos v k) b A Li) as (b' & R & Hb).
    assert (ref_set_to W r b s = on_core (set_to W (the_pos v k) b) s) as E2.
    { unfold ref_set_to, set_to. destruct b; apply (ref_as_bit s _ r Hr). }
    assert (ref_assign W r b s = Ok r (Rbs b' (block s) (capw s))) as E3.
    { unfold ref_assign. erewrite bind_ok; [reflexivity|]. rewrite E2. apply on_core_ok. exact R. }
    erewrite bind_ok by (apply on_bits_ok; exact E3). eexists. split; [reflexivity|]. cbn [rstep fst ub_ refs its].
    rewrite Hr. apply (shows_ref (Rbs b' (block s) (capw s)) rs is (with_bits v _)).
    apply shows_same; auto. now rewrite upd_length.
  - eexists. split; [reflexivity|]. cbn [rstep fst ub_ refs its]. now apply (shows_it s rs is v 0).
  - rewrite bind_get. eexists. split; [reflexivity|]. cbn [rstep fst ub_ refs its]. rewrite (proj1 A).
    apply shows_it; [exact H|]. destruct Hok. rewrite half in *. lia.
  - destruct Hok as (Hk & Hp). destruct (the_it_ok _ _ _ _ _ H Hk) as (R & Lt). erewrite bind_ok by exact R.
    eexists. split; [reflexivity|]. cbn [rstep fst ub_ refs its]. destruct Hp as [Hp1 Hp2].
    rewrite it_inc_pos by (rewrite half in *; lia).
    replace (N.of_nat (it_pos v k) + 1)%N with (N.of_nat (it_pos v k + 1)) by lia. apply put_it_ok; [exact H|].
    rewrite half in *. lia.
  - destruct Hok as (Hk & Hp). destruct (the_it_ok _ _ _ _ _ H Hk) as (R & Lt). erewrite bind_ok by exact R.
    eexists. split; [reflexivity|]. cbn [rstep fst ub_ refs its]. destruct Hp as [Hp1 Hp2].
    rewrite it_dec_pos by (rewrite half in *; lia).
    replace (N.of_nat (it_pos v k) - 1)%N with (N.of_nat (it_pos v k - 1)) by lia. apply put_it_ok; [exact H|].
    rewrite half in *. lia.
  - destruct Hok as (Hk & Hp). destruct (the_it_ok _ _ _ _ _ H Hk) as (R & Lt). erewrite bind_ok by exact R.
    eexists. split; [reflexivity|]. cbn [rstep fst ub_ refs its]. destruct Hp as [Hp1 Hp2].
    rewrite it_add_pos by (rewrite half in *; lia). rewrite nat_N_Z. apply shows_it; [exact H|]. rewrite half in *. lia.
  - destruct Hok as (Hk & Hp). destruct (the_it_ok _ _ _ _ _ H Hk) as (R & Lt). erewrite bind_ok by exact R.
    eexists. split; [reflexivity|]. cbn [rstep fst ub_ refs its]. destruct Hp as [Hp1 Hp2].
    rewrite it_sub_pos by (rewrite half in *; lia). rewrite nat_N_Z. apply shows_it; [exact H|]. rewrite half in *. lia.
  - destruct Hok as (Hj & Hk). destruct (the_it_ok _ _ _ _ _ H Hj) as (R & Lt). destruct (the_it_ok _ _ _ _ _ H Hk) as (R2 & Lt2).
    erewrite bind_ok by exact R. erewrite bind_ok by exact R2. rewrite it_diff_pos by auto.
    eexists. split; [|exact H]. cbn [rstep snd]. now rewrite !nat_N_Z.
  - destruct Hok as (Hj & Hk). destruct (the_it_ok _ _ _ _ _ H Hj) as (R & Lt). destruct (the_it_ok _ _ _ _ _ H Hk) as (R2 & Lt2).
    erewrite bind_ok by exact R. erewrite bind_ok by exact R2.
    eexists. split; [|exact H]. cbn [rstep snd]. unfold ret. do 2 f_equal.
    destruct (Nat.eqb_spec (it_pos v j) (it_pos v k)) as [->|Hn]; [apply N.eqb_refl|]. apply N.eqb_neq. lia.
  - destruct Hok as (Hk & Hp). destruct (the_it_ok _ _ _ _ _ H Hk) as (R & Lt). erewrite bind_ok by exact R.
    rewrite Nat2N.id. erewrite bind_ok by (apply on_bits_ok; cbn [ub_]; apply on_core_ok; exact (test_ok W HW _ _ _ A Hp)).
    eexists. split; [reflexivity|]. cbn [rstep fst ub_ refs its]. destruct s. exact H.
  - destruct Hok as (Hk & Hp). destruct (the_it_ok _ _ _ _ _ H Hk) as (R & Lt). erewrite bind_ok by exact R.
    rewrite Nat2N.id. erewrite bind_ok by (apply on_bits_ok; cbn [ub_]; eapply make_ok_ref; eauto). cbn [refs its].
    eexists. split; [reflexivity|]. cbn [rstep fst ub_ refs its]. now apply shows_ref.
Qed.

Lemma rrun_sim os : forall u v, shows u v -> rallowed_along W v os ->
  exists u', rrun W os u = Ok (snd (rhistory W v os)) u' /\ shows u' (fst (rhistory W v os)).
Proof.
  induction os as [|o os IH]; intros u v H Hok; cbn [rrun rhistory rallowed_along] in *.
  - exists u. split; [reflexivity|exact H].
  - destruct Hok as (Ho & Hok). destruct (rdo_sim o u v H Ho) as (u1 & R1 & H1).
    destruct (rstep W v o) as (v1, a). cbn [fst snd] in *. destruct (IH u1 v1 H1 Hok) as (u2 & R2 & H2).
    destruct (rhistory W v1 os) as (v2, rs). cbn [fst snd] in *.
    exists u2. split; [|exact H2]. erewrite bind_ok by exact R1. erewrite bind_ok by exact R2. reflexivity.
Qed.

(** A vector which needs another block. *)
Lemma dangling l b c s i b0 : holds_bits W (core s) l -> size_ok W (length l + 1) -> length (buf (core s)) = capw s ->
  length l mod W = 0 -> exists a s', rcall W c (BPushBack b) s = Ok a s' /\
  let r := Bitref (block s) (i / W) (word_mask W i) in
  ref_test r s' = UB /\ ref_set r s' = UB /\ ref_reset W r s' = UB /\ ref_flip r s' = UB /\ ref_set_to W r b0 s' = UB.
Proof.
  intros H Hsz Hc Hm. destruct (bcall_ok W HW (core s) l (BPushBack b) H Hsz) as (b' & R & Hb). cbn [bstep fst snd] in *.
  eexists. eexists. split.
  - unfold rcall. erewrite bind_ok by (apply on_core_ok; exact R). unfold account, bind. cbn [core capw block].
    rewrite (proj2 (Nat.leb_gt (length (buf b')) (capw s))). 2:{ rewrite (holds_words _ _ Hb), <- Hc, (holds_words _ _ H).
      rewrite app_length. cbn [length]. rewrite (words_for_exact W HW (length l) Hm).
      pose proof (div_mod_W W HW (length l)) as DM. rewrite Hm in DM.
      unfold words_for. assert (length l + 1 + (W - 1) = (length l / W + 1) * W + 0) as -> by lia.
      rewrite div_unique_W by lia. lia. }
    reflexivity.
  - cbn zeta. assert (forall x, (x =? S x) = false) as N1 by (intros x; apply Nat.eqb_neq; lia).
    unfold ref_set_to. destruct b0; unfold ref_test, ref_set, ref_reset, ref_flip, ref_word, bind; cbn [rblock block];
      rewrite !N1; repeat split.
Qed.
End Refs.
