(** Proofs about copying within one bitset: what the loops write is what they would write when
    copying from an unchanged second bitset. *)
From Coq Require Import List Arith NArith Bool Lia.
From Verif Require Import Base VecCommon BitsetModel BitsetSpec BitsetProofs BitsetSelfModel BitsetSelfSpec.
Import ListNotations.

Section Self.
Variable W : nat.
Hypothesis HW : 0 < W.

(** The bits of the two buffers from [lo] to [hi] are the same. *)
Definition agree (b b0 : list N) (lo hi : nat) : Prop :=
  length b = length b0 /\ words_ok W b /\ words_ok W b0 /\
  forall p, lo <= p < hi -> bit_of W b p = bit_of W b0 p.

Lemma self_bits_sim s0 l0 to hi : holds_bits W s0 l0 -> hi <= length l0 ->
  forall fuel from src s l r s1, holds_bits W s l -> length l = length l0 -> from <= to -> to <= length l ->
  src + (to - from) = hi -> (forall p, src <= p < hi -> nth p l false = nth p l0 false) ->
  copyable from to src ->
  copy_bits W fuel from to src (s, s0) = Ok r (s1, s0) ->
  self_copy_bits W fuel from to src s = Ok r s1 /\
  exists d l1, r = (from + d, src + d) /\ from + d <= to /\ holds_bits W s1 l1 /\ length l1 = length l /\
    forall p, src + d <= p < hi -> nth p l1 false = nth p l0 false.
Proof.
  intros H0 Hhi. induction fuel as [|fuel IH]; intros from src s l r s1 Hs Hl H1 H2 H3 Ha Hc R;
    cbn [copy_bits self_copy_bits] in *.
  - destruct (bit_index W from =? 0); [|destruct (from =? to); [|discriminate]];
      injection R as <- <-; (split; [reflexivity|]); exists 0, l; rewrite !Nat.add_0_r; auto 6.
  - destruct (bit_index W from =? 0).
    { injection R as <- <-. split; [reflexivity|]. exists 0, l. rewrite !Nat.add_0_r. auto 6. }
    destruct (Nat.eqb_spec from to) as [E|E].
    { injection R as <- <-. split; [reflexivity|]. exists 0, l. rewrite !Nat.add_0_r. auto 6. }
    erewrite bind_ok in R by (apply onR_ok; cbn [snd]; apply (test_ok W HW _ _ _ H0); lia). cbn [fst] in R.
    destruct (set_to_ok W HW s l from (nth src l0 false) Hs ltac:(lia)) as (s' & R1 & Hs').
    erewrite bind_ok in R by (apply onL_ok; cbn [fst]; exact R1). cbn [snd] in R.
    erewrite bind_ok by (apply (test_ok W HW _ _ _ Hs); lia). rewrite Ha by lia. erewrite bind_ok by exact R1.
    destruct (IH (from + 1) (src + 1) s' (upd l from (nth src l0 false)) r s1 Hs') as (R2 & d & l1 & P1 & P2 & P3 & P4 & P5);
      rewrite ?upd_length; auto; try lia.
    { intros p Hp. rewrite (nth_upd W HW) by lia. destruct (Nat.eqb_spec p from) as [->|]; [|apply Ha; lia].
      exfalso. destruct Hc; lia. }
    { destruct Hc; [left|right]; lia. }
    split; [exact R2|]. exists (S d), l1. rewrite upd_length in P4.
    split; [rewrite P1; f_equal; lia|]. split; [lia|]. split; [exact P3|]. split; [exact P4|].
    intros p Hp. apply P5. lia.
Qed.

Lemma word_ok_inv k s w s' : word k s = Ok w s' -> nth_error (buf s) k = Some w /\ s' = s.
Proof. unfold word. destruct (nth_error (buf s) k); [|discriminate]. now intros [= <- <-]. Qed.
Lemma agree_word b b0 lo hi k w0 : agree b b0 lo hi -> nth_error b0 k = Some w0 ->
  exists w, nth_error b k = Some w /\ small W w /\ small W w0 /\
    forall j, j < W -> lo <= k * W + j < hi -> N.testbit w (N.of_nat j) = N.testbit w0 (N.of_nat j).
Proof.
  intros (A & B & B0 & C) E. assert (k < length b) as L.
  { rewrite A. apply nth_error_Some. now rewrite E. }
  destruct (nth_error b k) as [w|] eqn:Ew; [|apply nth_error_None in Ew; lia].
  exists w. split; [reflexivity|]. split; [exact (words_ok_nth _ _ _ _ B Ew)|]. split; [exact (words_ok_nth _ _ _ _ B0 E)|].
  intros j Hj Hr. specialize (C _ Hr). unfold bit_of in C. rewrite div_unique_W, mod_unique_W in C by auto.
  now rewrite E, Ew in C.
Qed.
Lemma agree_upd b b0 lo hi k w lo' : agree b b0 lo hi -> k < length b -> lo <= lo' -> small W w ->
  (hi <= k * W \/ k * W + W <= lo') -> agree (upd b k w) b0 lo' hi.
Proof.
  intros (A & B & B0 & C) L H1 Sw Hd. split; [now rewrite upd_length|].
  split; [now apply words_ok_upd|]. split; [exact B0|]. intros p Hp.
  rewrite bit_of_upd by auto. destruct (Nat.eqb_spec (p / W) k) as [E|E]; [|apply C; lia].
  exfalso. apply div_eq_range in E; auto. lia.
Qed.
Lemma n_ext a b : small W a -> small W b -> (forall j, j < W -> N.testbit a (N.of_nat j) = N.testbit b (N.of_nat j)) -> a = b.
Proof.
  intros Sa Sb H. apply N.bits_inj. intros i. rewrite <- (Nnat.N2Nat.id i). set (j := N.to_nat i).
  destruct (Nat.lt_ge_cases j W) as [L|L]; [now apply H|].
  rewrite (proj1 (small_tb W HW a) Sa), (proj1 (small_tb W HW b) Sb) by exact L. reflexivity.
Qed.

Lemma self_words_sim s0 to hi : forall fuel from own sw pad s r s1 , from = own * W -> pad < W ->
  sw * W + pad + (to - from) = hi -> from <= to ->
  agree (buf s) (buf s0) (sw * W + pad) hi -> copyable from to (sw * W + pad) ->
  copy_words W fuel from to own sw pad (s, s0) = Ok r (s1, s0) ->
  self_copy_words W fuel from to own sw pad s = Ok r s1 /\
  exists q, r = (from + q * W, (own + q, sw + q)) /\ from + q * W <= to /\
    agree (buf s1) (buf s0) ((sw + q) * W + pad) hi.
Proof.
  induction fuel as [|fuel IH]; intros from own sw pad s r s1 Hfo Hp H1 H2 Ha Hc R; cbn [copy_words self_copy_words] in *.
  - destruct (W <=? to - from); [discriminate|]. injection R as <- <-. split; [reflexivity|]. exists 0.
    rewrite Nat.mul_0_l, !Nat.add_0_r. auto.
  - destruct (Nat.leb_spec W (to - from)) as [L|L].
    2:{ injection R as <- <-. split; [reflexivity|]. exists 0. rewrite Nat.mul_0_l, !Nat.add_0_r. auto. }
    subst from. unfold bind in R at 1. unfold onR in R at 1. cbn [snd fst] in R. unfold word in R at 1.
    destruct (nth_error (buf s0) sw) as [w0|] eqn:E0; [|discriminate].
    destruct (agree_word _ _ _ _ _ _ Ha E0) as (w & Ew & Sw & Sw0 & Hw).
    erewrite bind_ok by (unfold word; rewrite Ew; reflexivity).
    assert (wshr w pad = wshr w0 pad) as Es.
    { apply n_ext; try now apply small_wshr. intros j Hj. rewrite !(wshr_tb W HW).
      destruct (Nat.lt_ge_cases (j + pad) W) as [L1|L1]; [apply Hw; lia|].
      rewrite (proj1 (small_tb W HW w) Sw), (proj1 (small_tb W HW w0) Sw0) by exact L1. reflexivity. }
    rewrite Es. unfold bind in R at 1. unfold onL in R at 1. cbn [fst snd] in R. unfold bind at 1.
    unfold set_word in R at 1. unfold set_word at 1. destruct (own <? length (buf s)) eqn:Lo; [|discriminate].
    set (sa := with_buf (upd (buf s) own (wshr w0 pad)) s) in *.
    assert (agree (buf sa) (buf s0) (sw * W + W) hi) as Ha1.
    { destruct (Nat.eq_dec pad 0) as [->|Np].
      - apply (agree_upd _ _ _ _ _ _ _ Ha); [now apply Nat.ltb_lt|lia|now apply small_wshr|]. destruct Hc; [right|left]; lia.
      - apply (agree_upd _ _ _ _ _ _ _ Ha); [now apply Nat.ltb_lt|lia|now apply small_wshr|]. destruct Hc as [Hc|Hc]; [|left; lia].
        right. assert (own <= sw); [|nia]. destruct (Nat.le_gt_cases own sw); [assumption|nia]. }
    assert (exists s2, (if pad =? 0 then ret tt
         else
           let* w2 := onR (word (sw + 1)) in
           let* o := onL (word own) in
           onL (set_word own (N.lor o (wshl W w2 (W - pad))))) (sa, s0) = Ok tt (s2, s0) /\
        (if pad =? 0 then ret tt
         else
           let* w2 := word (sw + 1) in
           let* o := word own in
           set_word own (N.lor o (wshl W w2 (W - pad)))) sa = Ok tt s2 /\
        agree (buf s2) (buf s0) ((sw + 1) * W + pad) hi) as (s2 & R2 & R2' & Ha2).
    { destruct (Nat.eqb_spec pad 0) as [->|Np].
      - exists sa. split; [reflexivity|]. split; [reflexivity|].
        replace ((sw + 1) * W + 0) with (sw * W + W) by lia. exact Ha1.
      - unfold bind in R at 1. destruct (Nat.eqb_spec pad 0) as [|_]; [contradiction|].
        unfold bind in R at 1. unfold onR in R at 1. cbn [snd fst] in R. unfold word in R at 1.
        destruct (nth_error (buf s0) (sw + 1)) as [v0|] eqn:F0; [|discriminate].
        assert (agree (buf sa) (buf s0) ((sw + 1) * W) hi) as Ha1'
          by (replace ((sw + 1) * W) with (sw * W + W) by lia; exact Ha1).
        destruct (agree_word _ _ _ _ _ _ Ha1' F0) as (v & Ev & Sv & Sv0 & Hv).
        assert (wshl W v (W - pad) = wshl W v0 (W - pad)) as Ev2.
        { apply n_ext; try apply small_wshl; auto. intros j Hj. rewrite !(wshl_tb W HW).
          destruct (Nat.leb_spec (W - pad) j); [|reflexivity]. rewrite Hv by lia. reflexivity. }
        assert (nth_error (buf sa) own = Some (wshr w0 pad)) as Eo.
        { unfold sa. cbn [buf with_buf]. rewrite nth_error_upd_eq; [reflexivity|]. now apply Nat.ltb_lt. }
        assert (own < length (buf sa)) as Lo2 by (apply nth_error_Some; now rewrite Eo).
        eexists. split; [|split].
        + erewrite bind_ok by (apply onR_ok; cbn [snd]; unfold word; rewrite F0; reflexivity). cbn [fst].
          erewrite bind_ok by (apply onL_ok; cbn [fst]; unfold word; rewrite Eo; reflexivity). cbn [snd].
          apply onL_ok. cbn [fst]. apply (set_word_at W HW). exact Lo2.
        + erewrite bind_ok by (unfold word; rewrite Ev; reflexivity).
          erewrite bind_ok by (unfold word; rewrite Eo; reflexivity). rewrite Ev2. now apply (set_word_at W HW).
        + cbn [buf]. apply (agree_upd _ _ _ _ _ _ _ Ha1'); [exact Lo2|lia| |].
          * apply small_lor; auto; [now apply small_wshr|now apply small_wshl].
          * destruct Hc as [Hc|Hc]; [right|left; lia].
            assert (own <= sw); [|nia]. destruct (Nat.le_gt_cases own sw); [assumption|nia]. }
    erewrite bind_ok in R by exact R2. erewrite bind_ok by exact R2'.
    destruct (IH (own * W + W) (own + 1) (sw + 1) pad s2 r s1) as (R3 & q & Q1 & Q2 & Q3); auto; try lia.
    { destruct Hc; [left|right]; lia. }
    split; [exact R3|]. exists (S q). split; [rewrite Q1; f_equal; [lia|f_equal; lia]|].
    split; [lia|]. replace (sw + S q) with (sw + 1 + q) by lia. exact Q3.
Qed.

Lemma self_copy_sim s l from to src s' : holds_bits W s l -> from <= to -> to <= length l ->
  src + (to - from) <= length l -> copyable from to src ->
  copy W from to src (s, s) = Ok tt (s', s) -> self_copy W from to src s = Ok tt s'.
Proof.
  intros Hs H1 H2 H3 Hc R. unfold copy in R. unfold bind in R at 1.
  destruct (copy_bits W W from to src (s, s)) as [r [s1 o1]| | |] eqn:R1; try discriminate.
  assert (o1 = s) as ->.
  { destruct (copy_bits_ok W HW s l from to src Hs W l s Hs H1 H2 H3) as (d & s2 & l2 & R2 & _).
    { destruct (Nat.eq_dec (from mod W) 0); [now right|left; lia]. }
    rewrite R1 in R2. now injection R2 as _ _ ->. }
  destruct (self_bits_sim s l to (src + (to - from)) Hs H3 W from src s l r s1 Hs eq_refl H1 H2 eq_refl
              (fun _ _ => eq_refl) Hc R1) as (R1' & d & l1 & -> & P2 & P3 & P4 & P5).
  unfold self_copy. erewrite bind_ok by exact R1'. cbn [fst snd] in *. unfold bit_index, word_index in *.
  destruct (Nat.eqb_spec ((from + d) mod W) 0) as [E|E]; cbn [negb] in *; [|now injection R as <-].
  unfold bind in R at 1.
  destruct (copy_words W (to - (from + d)) (from + d) to ((from + d) / W) ((src + d) / W) ((src + d) mod W) (s1, s))
    as [r2 [s2 o2]| | |] eqn:R2; try discriminate.
  pose proof (div_mod_W W HW (from + d)) as D1. pose proof (div_mod_W W HW (src + d)) as D2.
  pose proof (mod_lt_W W HW (src + d)) as M2.
  assert (o2 = s) as ->.
  { destruct (copy_words_ok W HW s (length l) _ to (length l) (has_holds W _ _ Hs) (to - (from + d)) (from + d)
      ((from + d) / W) ((src + d) / W) ((src + d) mod W) s1 (fun p => nth p l1 false))
      as (q & s3 & R3 & _); try lia.
    { rewrite <- P4. now apply has_holds. }
    rewrite R2 in R3. now injection R3 as _ _ ->. }
  destruct (self_words_sim s to (src + (to - from)) (to - (from + d)) (from + d) ((from + d) / W) ((src + d) / W)
              ((src + d) mod W) s1 r2 s2) as (R2' & q & -> & Q2 & Q3); auto; try lia.
  { replace ((src + d) / W * W + (src + d) mod W) with (src + d) by lia.
    destruct P3 as (A1 & A2 & A3 & A4). pose proof Hs as (B1 & B2 & B3 & B4).
    split; [rewrite A2, B2, P4; reflexivity|]. split; [exact A3|]. split; [exact B3|].
    intros p Hp. rewrite (holds_bit W s l p Hs) by lia.
    rewrite (holds_bit W s1 l1 p) by (try lia; repeat split; auto). now apply P5. }
  { replace ((src + d) / W * W + (src + d) mod W) with (src + d) by lia. destruct Hc; [left|right]; lia. }
  erewrite bind_ok by exact R2'. cbn [fst snd] in *.
  destruct (Nat.eqb_spec (from + d + q * W) to) as [E2|E2]; [now injection R as <-|].
  unfold bind in R at 1. unfold onR in R at 1. cbn [snd fst] in R. unfold word in R at 1.
  destruct (nth_error (buf s) ((src + d) / W + q)) as [w0|] eqn:E0; [|discriminate].
  destruct (agree_word _ _ _ _ _ _ Q3 E0) as (w & Ew & Sw & Sw0 & Hw).
  erewrite bind_ok by (unfold word; rewrite Ew; reflexivity).
  unfold bind in R at 1. unfold onL in R at 1. cbn [snd fst] in R. unfold word in R at 1.
  destruct (nth_error (buf s2) ((from + d) / W + q)) as [ow|] eqn:E3; [|discriminate].
  erewrite bind_ok by (unfold word; rewrite E3; reflexivity).
  unfold onL in R. cbn [snd fst] in R.
  match goal with |- set_word _ ?x _ = _ => match type of R with match set_word _ ?y _ with _ => _ end = _ =>
    assert (x = y) as -> end end.
  { f_equal. apply n_ext; try (apply small_land; auto; now apply small_wshr).
    intros j Hj. rewrite !N.land_spec, !(wshr_tb W HW), (low_mask_tb W HW) by (auto; now apply mod_lt_W).
    destruct (Nat.ltb_spec j (to mod W)) as [Lj|Lj]; [|now rewrite !andb_false_r]. rewrite !andb_true_r.
    destruct (Nat.lt_ge_cases (j + (src + d) mod W) W) as [L1|L1].
    - apply Hw; [exact L1|]. split; [lia|].
      pose proof (div_mod_W W HW to) as D3. pose proof (mod_lt_W W HW to) as M3.
      assert (from + d + q * W = ((from + d) / W + q) * W) as E4 by nia.
      assert (to < from + d + q * W + W) as E5.
      { (* the loop ended *)
        destruct (copy_words_ok W HW s (length l) _ to (length l) (has_holds W _ _ Hs) (to - (from + d)) (from + d)
          ((from + d) / W) ((src + d) / W) ((src + d) mod W) s1 (fun p => nth p l1 false))
          as (q' & s3 & R3 & G1 & G2 & _); try lia.
        { rewrite <- P4. now apply has_holds. }
        rewrite R2 in R3. injection R3 as X _ _ _. lia. }
      assert (to / W = (from + d) / W + q) as E6 by (apply div_eq_range; auto; lia).
      rewrite E6 in D3. nia.
    - rewrite (proj1 (small_tb W HW w) Sw), (proj1 (small_tb W HW w0) Sw0) by exact L1. reflexivity. }
  destruct (set_word _ _ s2) as [u s3| | |]; try discriminate. destruct u. now injection R as <-.
Qed.

Lemma self_copy_right s l from to src : holds_bits W s l -> from <= to -> to <= length l ->
  src + (to - from) <= length l -> copyable from to src ->
  first_boundary W from to = to \/ source_offset W from to src + to mod W <= W ->
  exists s', self_copy W from to src s = Ok tt s' /\ holds_bits W s' (copied l l from to src).
Proof.
  intros Hs H1 H2 H3 Hc Ht. destruct (copy_right W HW s l s l from to src Hs Hs H1 H2 H3 Ht) as (s' & R & Hh).
  exists s'. split; [|exact Hh]. eapply self_copy_sim; eauto.
Qed.
End Self.
