(** Proofs about dynamic_bitset. *)
From Coq Require Import List Arith NArith ZArith Lia Bool.
From Verif Require Import Base VecCommon BitsetModel BitsetSpec.
Import ListNotations.

Section Proofs.
Variable W : nat.
Hypothesis HW : 0 < W.

Notation tb w i := (N.testbit w (N.of_nat i)).

(** * Bits of words *)

Lemma div_mod_W p : p = W * (p / W) + p mod W.
Proof. apply Nat.div_mod. lia. Qed.
Lemma mod_lt_W p : p mod W < W.
Proof. apply Nat.mod_upper_bound. lia. Qed.

Lemma div_mod_eq p q : p / W = q / W -> p mod W = q mod W -> p = q.
Proof. intros A B. rewrite (div_mod_W p), (div_mod_W q). congruence. Qed.

Lemma div_unique_W k j : j < W -> (k * W + j) / W = k.
Proof. intros H. rewrite Nat.div_add_l by lia. rewrite Nat.div_small by lia. lia. Qed.
Lemma mod_unique_W k j : j < W -> (k * W + j) mod W = j.
Proof. intros H. rewrite Nat.add_comm, Nat.mod_add by lia. now apply Nat.mod_small. Qed.

Lemma div_eq_range p k : p / W = k <-> k * W <= p < k * W + W.
Proof.
  pose proof (div_mod_W p). pose proof (mod_lt_W p). split; [intros <-; nia|].
  intros R. assert (p = k * W + (p - k * W)) as -> by lia. apply div_unique_W. lia.
Qed.
Lemma mod_of_div p k : p / W = k -> p mod W = p - k * W.
Proof. intros <-. pose proof (div_mod_W p). lia. Qed.

Lemma wtrunc_tb x j : tb (wtrunc W x) j = (j <? W) && tb x j.
Proof.
  unfold wtrunc. rewrite N.land_spec. destruct (j <? W) eqn:E.
  - apply Nat.ltb_lt in E. rewrite N.ones_spec_low by lia. now rewrite andb_true_r.
  - apply Nat.ltb_ge in E. rewrite N.ones_spec_high by lia. now rewrite andb_false_r.
Qed.

Lemma wshl_tb x k j : tb (wshl W x k) j = (j <? W) && ((k <=? j) && tb x (j - k)).
Proof.
  unfold wshl. rewrite wtrunc_tb. f_equal. destruct (k <=? j) eqn:E.
  - apply Nat.leb_le in E. rewrite N.shiftl_spec_high' by lia. cbn [andb]. f_equal. lia.
  - apply Nat.leb_gt in E. rewrite N.shiftl_spec_low by lia. reflexivity.
Qed.

Lemma wshr_tb x k j : tb (wshr x k) j = tb x (j + k).
Proof. unfold wshr. rewrite N.shiftr_spec'. f_equal. lia. Qed.

Lemma mask_tb i j : tb (word_mask W i) j = (j =? i mod W).
Proof.
  unfold word_mask, bit_index. rewrite wshl_tb. pose proof (mod_lt_W i).
  destruct (j =? i mod W) eqn:E.
  - apply Nat.eqb_eq in E. subst j. rewrite Nat.sub_diag.
    rewrite (proj2 (Nat.ltb_lt _ _)) by lia. rewrite Nat.leb_refl. reflexivity.
  - apply Nat.eqb_neq in E. destruct (j <? W); [|reflexivity].
    destruct (i mod W <=? j) eqn:L; [|reflexivity]. apply Nat.leb_le in L. cbn [andb].
    destruct (j - i mod W) as [|d] eqn:D; [lia|].
    reflexivity.
Qed.

Lemma wnot_tb x j : tb (wnot W x) j = xorb (tb x j) (j <? W).
Proof.
  unfold wnot. destruct (j <? W) eqn:E.
  - apply Nat.ltb_lt in E. rewrite N.lnot_spec_low by lia. now rewrite xorb_true_r.
  - apply Nat.ltb_ge in E. rewrite N.lnot_spec_high by lia. now rewrite xorb_false_r.
Qed.

Lemma low_mask_tb pad j : pad < W -> tb (wtrunc W (word_mask W pad - 1)) j = (j <? pad).
Proof.
  intros H. rewrite wtrunc_tb.
  assert ((word_mask W pad - 1)%N = N.ones (N.of_nat pad)) as ->.
  { assert (word_mask W pad = 2 ^ N.of_nat pad)%N as ->.
    { apply N.bits_inj. intros k. rewrite <- (N2Nat.id k), mask_tb.
      rewrite Nat.mod_small by lia. destruct (N.to_nat k =? pad) eqn:E.
      - apply Nat.eqb_eq in E. rewrite E. now rewrite N.pow2_bits_true.
      - apply Nat.eqb_neq in E. rewrite N.pow2_bits_false by lia. reflexivity. }
    rewrite N.ones_equiv. lia. }
  destruct (j <? pad) eqn:E.
  - apply Nat.ltb_lt in E. rewrite N.ones_spec_low by lia.
    now rewrite (proj2 (Nat.ltb_lt _ _)) by lia.
  - apply Nat.ltb_ge in E. rewrite N.ones_spec_high by lia. apply andb_false_r.
Qed.

Definition small (w : N) : Prop := (w < 2 ^ N.of_nat W)%N.

Lemma small_tb w : small w <-> forall j, W <= j -> tb w j = false.
Proof.
  unfold small. split.
  - intros H j Hj. apply N.bits_above_log2. destruct (N.eq_dec w 0) as [->|N0].
    + cbn. lia.
    + apply N.log2_lt_pow2; [lia|]. eapply N.lt_le_trans; [exact H|].
      apply N.pow_le_mono_r; lia.
  - intros H. destruct (N.eq_dec w 0) as [->|N0].
    + apply N.neq_0_lt_0. apply N.pow_nonzero. lia.
    + apply N.log2_lt_pow2; [lia|]. apply N.nle_gt. intros L.
      specialize (H (N.to_nat (N.log2 w)) ltac:(lia)). rewrite N2Nat.id in H.
      rewrite N.bit_log2 in H by exact N0. discriminate.
Qed.

Lemma small_zero_tb w : small w -> (w = 0)%N <-> (forall j, j < W -> tb w j = false).
Proof.
  intros Sm. split; [intros -> j _; apply N.bits_0|]. intros H. apply N.bits_inj. intros k.
  rewrite N.bits_0, <- (N2Nat.id k). destruct (Nat.lt_ge_cases (N.to_nat k) W) as [L|L].
  - now apply H.
  - rewrite small_tb in Sm. now apply Sm.
Qed.

Lemma land_mask w i : (N.land w (word_mask W i) =? 0)%N = negb (tb w (i mod W)).
Proof.
  destruct (tb w (i mod W)) eqn:E; cbn [negb].
  - apply N.eqb_neq. intros Z. assert (tb (N.land w (word_mask W i)) (i mod W) = true) as H.
    { rewrite N.land_spec, E, mask_tb, Nat.eqb_refl. reflexivity. }
    rewrite Z, N.bits_0 in H. discriminate.
  - apply N.eqb_eq. apply N.bits_inj. intros k. rewrite N.bits_0, <- (N2Nat.id k).
    rewrite N.land_spec, mask_tb. destruct (N.to_nat k =? i mod W) eqn:Q.
    + apply Nat.eqb_eq in Q. rewrite Q, E. reflexivity.
    + apply andb_false_r.
Qed.

Lemma small_0 : small 0.
Proof. apply small_tb. intros. apply N.bits_0. Qed.
Lemma small_wshl x k : small (wshl W x k).
Proof. apply small_tb. intros j H. rewrite wshl_tb. now rewrite (proj2 (Nat.ltb_ge _ _)) by lia. Qed.
Lemma small_wshr x k : small x -> small (wshr x k).
Proof. rewrite !small_tb. intros H j Hj. rewrite wshr_tb. apply H. lia. Qed.
Lemma small_mask i : small (word_mask W i).
Proof. apply small_wshl. Qed.
Lemma small_lor a b : small a -> small b -> small (N.lor a b).
Proof. rewrite !small_tb. intros A B j Hj. now rewrite N.lor_spec, A, B. Qed.
Lemma small_land a b : small a -> small (N.land a b).
Proof. rewrite !small_tb. intros A j Hj. now rewrite N.land_spec, A. Qed.
Lemma small_lxor a b : small a -> small b -> small (N.lxor a b).
Proof. rewrite !small_tb. intros A B j Hj. now rewrite N.lxor_spec, A, B. Qed.

(** * Buffers *)

Lemma bit_of_none b p : length b * W <= p -> bit_of W b p = false.
Proof.
  intros H. unfold bit_of. rewrite (proj2 (nth_error_None _ _)); auto.
  apply Nat.div_le_lower_bound; lia.
Qed.

Lemma bit_of_word b k w p :
  nth_error b k = Some w -> p / W = k -> bit_of W b p = tb w (p mod W).
Proof. intros E <-. unfold bit_of. now rewrite E. Qed.

Lemma bit_of_upd b k w p : k < length b ->
  bit_of W (upd b k w) p = if p / W =? k then tb w (p mod W) else bit_of W b p.
Proof.
  intros H. unfold bit_of. destruct (p / W =? k) eqn:E.
  - apply Nat.eqb_eq in E. rewrite E, nth_error_upd_eq; auto.
  - apply Nat.eqb_neq in E. rewrite nth_error_upd_neq; auto.
Qed.

Lemma words_ok_upd b k w : words_ok W b -> small w -> words_ok W (upd b k w).
Proof.
  intros H Sm x Hin. apply In_nth_error in Hin as (i & E).
  destruct (Nat.eq_dec i k) as [->|D].
  - destruct (Nat.lt_ge_cases k (length b)) as [L|L].
    + rewrite nth_error_upd_eq in E by lia. injection E as <-. exact Sm.
    + rewrite upd_out in E by lia. apply H. eapply nth_error_In; eauto.
  - rewrite nth_error_upd_neq in E by auto. apply H. eapply nth_error_In; eauto.
Qed.

Lemma words_ok_nth b k w : words_ok W b -> nth_error b k = Some w -> small w.
Proof. intros H E. apply H. eapply nth_error_In; eauto. Qed.

Lemma words_ok_app a b : words_ok W a -> words_ok W b -> words_ok W (a ++ b).
Proof. intros A B w H. apply in_app_or in H as [H|H]; auto. Qed.

Lemma words_ok_firstn n b : words_ok W b -> words_ok W (firstn n b).
Proof.
  intros H w I. apply H. rewrite <- (firstn_skipn n b). apply in_or_app. now left.
Qed.

Lemma words_ok_repeat w n : small w -> words_ok W (repeat w n).
Proof. intros H x I. apply repeat_spec in I. now subst. Qed.

Lemma word_at s k : k < length (buf s) ->
  exists w, nth_error (buf s) k = Some w /\ word k s = Ok w s.
Proof.
  intros H. destruct (nth_error (buf s) k) as [w|] eqn:E.
  - exists w. unfold word. now rewrite E.
  - apply nth_error_None in E. lia.
Qed.

Lemma set_word_at s k w : k < length (buf s) ->
  set_word k w s = Ok tt (mkBs (upd (buf s) k w) (bsize s)).
Proof. intros H. unfold set_word. now rewrite (proj2 (Nat.ltb_lt _ _)) by lia. Qed.

Lemma words_for_bound i n : i < n -> i / W < words_for W n.
Proof.
  intros H. unfold words_for. apply Nat.div_lt_upper_bound; [lia|].
  pose proof (div_mod_W (n + (W - 1))). pose proof (mod_lt_W (n + (W - 1))). nia.
Qed.
Lemma words_for_cover n : n <= words_for W n * W.
Proof.
  unfold words_for. pose proof (div_mod_W (n + (W - 1))). pose proof (mod_lt_W (n + (W - 1))). nia.
Qed.
Lemma words_for_pad n : n mod W <> 0 -> words_for W n = n / W + 1.
Proof.
  intros H. unfold words_for. pose proof (div_mod_W n). pose proof (mod_lt_W n).
  assert (n + (W - 1) = (n / W + 1) * W + (n mod W - 1)) as -> by nia.
  apply div_unique_W. lia.
Qed.
Lemma words_for_exact n : n mod W = 0 -> words_for W n = n / W.
Proof.
  intros H. unfold words_for. pose proof (div_mod_W n).
  assert (n + (W - 1) = n / W * W + (W - 1)) as -> by lia. apply div_unique_W. lia.
Qed.

Lemma word_size_ok n : size_ok W n -> word_size W n = words_for W n.
Proof.
  unfold size_ok, word_size, words_for. intros H. rewrite N.mod_small by exact H.
  assert (N.of_nat n + N.of_nat W - 1 = N.of_nat (n + (W - 1)))%N as -> by lia.
  rewrite <- Nat2N.inj_div. apply Nat2N.id.
Qed.

(** The relation in terms of [nth] with a default. *)
Lemma holds_intro s l :
  bsize s = length l -> length (buf s) = words_for W (length l) -> words_ok W (buf s) ->
  (forall i, i < length l -> bit_of W (buf s) i = nth i l false) -> holds_bits W s l.
Proof.
  intros A B C D. repeat split; auto. intros i Hi. rewrite (D i Hi).
  now apply nth_error_nth'.
Qed.
Lemma holds_bit s l i : holds_bits W s l -> i < length l -> bit_of W (buf s) i = nth i l false.
Proof.
  intros (_ & _ & _ & H) Hi. specialize (H i Hi). symmetry.
  now apply nth_error_nth.
Qed.

(** * Single bits *)

Lemma nth_upd {A} (l : list A) i x j d : i < length l ->
  nth j (upd l i x) d = if j =? i then x else nth j l d.
Proof.
  intros H. destruct (j =? i) eqn:E.
  - apply Nat.eqb_eq in E. subst j. apply nth_error_nth. now apply nth_error_upd_eq.
  - apply Nat.eqb_neq in E. revert i j H E. induction l as [|y l IH]; intros [|i] [|j] H E; cbn in *; try lia; auto.
    apply IH; lia.
Qed.

Lemma test_ok s l i : holds_bits W s l -> i < length l -> test W i s = Ok (nth i l false) s.
Proof.
  intros H Hi. pose proof (holds_bit _ _ _ H Hi) as HB. destruct H as (H1 & H2 & H3 & H4).
  destruct (word_at s (i / W)) as (w & E & R).
  { rewrite H2. now apply words_for_bound. }
  unfold test, word_index. erewrite bind_ok by exact R. unfold ret.
  rewrite land_mask, negb_involutive. rewrite <- HB.
  rewrite (bit_of_word _ _ _ _ E eq_refl). reflexivity.
Qed.

(** A word of the buffer changed at one bit. *)
Lemma point_update s l i w w' (b : bool) :
  holds_bits W s l -> i < length l -> nth_error (buf s) (i / W) = Some w -> small w' ->
  (forall j, j < W -> tb w' j = if j =? i mod W then b else tb w j) ->
  set_word (i / W) w' s = Ok tt (mkBs (upd (buf s) (i / W) w') (bsize s)) /\
  holds_bits W (mkBs (upd (buf s) (i / W) w') (bsize s)) (upd l i b).
Proof.
  intros H Hi E Sm Hb. pose proof (holds_bit s l) as HB.
  pose proof H as (H1 & H2 & H3 & H4).
  assert (i / W < length (buf s)) by (rewrite H2; now apply words_for_bound).
  split; [now apply set_word_at|].
  apply holds_intro; cbn [buf bsize]; rewrite ?upd_length; auto.
  - now apply words_ok_upd.
  - intros p Hp. rewrite bit_of_upd by auto. rewrite nth_upd by auto.
    destruct (p / W =? i / W) eqn:Q.
    + apply Nat.eqb_eq in Q. rewrite Hb by apply mod_lt_W.
      destruct (p mod W =? i mod W) eqn:Q2.
      * apply Nat.eqb_eq in Q2. rewrite (div_mod_eq p i) by auto. now rewrite Nat.eqb_refl.
      * apply Nat.eqb_neq in Q2. rewrite (proj2 (Nat.eqb_neq _ _)) by (intros ->; auto).
        rewrite <- (HB p H Hp). symmetry. now apply bit_of_word with (k := i / W).
    + apply Nat.eqb_neq in Q. rewrite (proj2 (Nat.eqb_neq _ _)) by (intros ->; auto).
      now apply HB.
Qed.

Lemma set_to_ok s l i b : holds_bits W s l -> i < length l ->
  exists s', set_to W i b s = Ok tt s' /\ holds_bits W s' (upd l i b).
Proof.
  intros H Hi. pose proof H as (H1 & H2 & H3 & H4).
  destruct (word_at s (i / W)) as (w & E & R).
  { rewrite H2. now apply words_for_bound. }
  pose proof (words_ok_nth _ _ _ H3 E) as Sw.
  unfold set_to, set1, reset1, word_index. destruct b; erewrite bind_ok by exact R.
  - edestruct (point_update s l i w (N.lor w (word_mask W i)) true) as (A & B); eauto.
    + apply small_lor; auto. apply small_mask.
    + intros j Hj. rewrite N.lor_spec, mask_tb. destruct (j =? i mod W); [apply orb_true_r|apply orb_false_r].
  - edestruct (point_update s l i w (N.land w (wnot W (word_mask W i))) false) as (A & B); eauto.
    + now apply small_land.
    + intros j Hj. rewrite N.land_spec, wnot_tb, mask_tb.
      rewrite (proj2 (Nat.ltb_lt _ _)) by lia.
      destruct (j =? i mod W); [apply andb_false_r|apply andb_true_r].
Qed.

Lemma flip_ok s l i : holds_bits W s l -> i < length l ->
  exists s', flip W i s = Ok tt s' /\ holds_bits W s' (upd l i (negb (nth i l false))).
Proof.
  intros H Hi. pose proof (holds_bit _ _ _ H Hi) as HB. pose proof H as (H1 & H2 & H3 & H4).
  destruct (word_at s (i / W)) as (w & E & R).
  { rewrite H2. now apply words_for_bound. }
  pose proof (words_ok_nth _ _ _ H3 E) as Sw.
  unfold flip, word_index. erewrite bind_ok by exact R.
  edestruct (point_update s l i w (N.lxor w (word_mask W i)) (negb (nth i l false))) as (A & B); eauto.
  - apply small_lxor; auto. apply small_mask.
  - intros j Hj. rewrite N.lxor_spec, mask_tb. destruct (j =? i mod W) eqn:Q.
    + apply Nat.eqb_eq in Q. subst j. rewrite <- HB, (bit_of_word _ _ _ _ E eq_refl).
      now rewrite xorb_true_r.
    + now rewrite xorb_false_r.
Qed.

(** * resize *)

Lemma resize_bits_length l n : length (resize_bits l n) = n.
Proof. unfold resize_bits. len. Qed.

Lemma nth_resize_bits l n i : i < n -> nth i (resize_bits l n) false = nth i l false.
Proof.
  intros H. unfold resize_bits. destruct (Nat.lt_ge_cases i (length l)) as [L|L].
  - rewrite app_nth1 by len. rewrite <- (firstn_skipn n l) at 2.
    rewrite app_nth1 by len. reflexivity.
  - rewrite (nth_overflow l) by lia. destruct (nth_in_or_default i (firstn n l ++ repeat false (n - length l)) false) as [Hin|E]; auto.
    rewrite app_nth2 by len. apply nth_repeat.
Qed.

Lemma bit_of_app_zero b n k p :
  bit_of W (firstn n b ++ repeat 0%N k) p = if p / W <? n then bit_of W b p else
    bit_of W (firstn n b ++ repeat 0%N k) p.
Proof.
  destruct (p / W <? n) eqn:E; auto. apply Nat.ltb_lt in E. unfold bit_of.
  destruct (Nat.lt_ge_cases (p / W) (length b)) as [L|L].
  - rewrite nth_error_app1 by len. rewrite nth_error_firstn.
    now rewrite (proj2 (Nat.ltb_lt _ _)) by lia.
  - rewrite (proj2 (nth_error_None b _)) by lia.
    destruct (nth_error (firstn n b ++ repeat 0%N k) (p / W)) as [w|] eqn:Q; auto.
    rewrite nth_error_app2 in Q by len. apply nth_error_In, repeat_spec in Q. subst w.
    apply N.bits_0.
Qed.

(** The state after resize: all bits from the old size on are false. *)
Lemma resize_ok s l n : holds_bits W s l -> size_ok W n ->
  exists s', resize W n s = Ok tt s' /\ holds_bits W s' (resize_bits l n) /\
    forall p, length l <= p -> bit_of W (buf s') p = false.
Proof.
  intros H Hn. pose proof H as (H1 & H2 & H3 & H4).
  (* after the mask *)
  assert (exists s1, (if bsize s mod W =? 0 then ret tt
     else
       let* back := word (length (buf s) - 1) in
       set_word (length (buf s) - 1) (N.land back (wtrunc W (word_mask W (bsize s mod W) - 1)))) s = Ok tt s1
     /\ length (buf s1) = length (buf s) /\ words_ok W (buf s1)
     /\ (forall p, p < length l -> bit_of W (buf s1) p = nth p l false)
     /\ (forall p, length l <= p -> bit_of W (buf s1) p = false)) as (s1 & R1 & L1 & K1 & B1 & Z1).
  { rewrite H1. destruct (length l mod W =? 0) eqn:E.
    - apply Nat.eqb_eq in E. exists s. repeat split; auto.
      + intros p Hp. now apply holds_bit.
      + intros p Hp. apply bit_of_none. rewrite H2, words_for_exact by auto.
        pose proof (div_mod_W (length l)). lia.
    - apply Nat.eqb_neq in E. pose proof (words_for_pad _ E) as WF.
      pose proof (div_mod_W (length l)) as DM.
      destruct (word_at s (length (buf s) - 1)) as (w & Ew & R); [lia|].
      erewrite bind_ok by exact R. rewrite set_word_at by lia.
      eexists. split; [reflexivity|]. cbn [buf bsize]. rewrite upd_length.
      split; auto. split.
      { apply words_ok_upd; auto. apply small_land. eapply words_ok_nth; eauto. }
      split.
      + intros p Hp. rewrite bit_of_upd by lia.
        destruct (p / W =? length (buf s) - 1) eqn:Q; [|now apply holds_bit].
        apply Nat.eqb_eq in Q. rewrite N.land_spec, low_mask_tb by apply mod_lt_W.
        pose proof (div_mod_W p). rewrite (proj2 (Nat.ltb_lt _ _)) by nia.
        rewrite andb_true_r. rewrite <- (holds_bit s l p H Hp). symmetry.
        eapply bit_of_word; eauto.
      + intros p Hp. rewrite bit_of_upd by lia.
        destruct (p / W =? length (buf s) - 1) eqn:Q.
        * apply Nat.eqb_eq in Q. rewrite N.land_spec, low_mask_tb by apply mod_lt_W.
          pose proof (div_mod_W p). rewrite (proj2 (Nat.ltb_ge _ _)) by nia. apply andb_false_r.
        * apply Nat.eqb_neq in Q. apply bit_of_none. pose proof (div_mod_W p).
          pose proof (mod_lt_W p). pose proof (mod_lt_W (length l)).
          assert (length (buf s) - 1 < p / W); [|nia].
          assert (length l / W <= p / W) by (apply Nat.div_le_mono; lia). lia. }
  eexists. split; [|split].
  - unfold resize. rewrite bind_get. cbv zeta. erewrite bind_ok by exact R1.
    unfold set_size, vec_resize, bind, with_buf. cbn [buf bsize]. reflexivity.
  - apply holds_intro; cbn [buf bsize]; rewrite ?resize_bits_length; auto.
    + rewrite word_size_ok by auto. len.
    + apply words_ok_app; [now apply words_ok_firstn|]. apply words_ok_repeat, small_0.
    + intros p Hp. rewrite word_size_ok by auto. rewrite bit_of_app_zero.
      rewrite (proj2 (Nat.ltb_lt _ _)) by now apply words_for_bound.
      rewrite nth_resize_bits by auto. destruct (Nat.lt_ge_cases p (length l)) as [L|L]; auto.
      rewrite nth_overflow by lia. now apply Z1.
  - intros p Hp. cbn [buf]. rewrite bit_of_app_zero.
    destruct (p / W <? word_size W n) eqn:Q; [now apply Z1|].
    apply Nat.ltb_ge in Q. unfold bit_of.
    destruct (nth_error (firstn (word_size W n) (buf s1) ++ repeat 0%N (word_size W n - length (buf s1))) (p / W)) as [w|] eqn:E; auto.
    destruct (Nat.lt_ge_cases (p / W) (length (firstn (word_size W n) (buf s1)))) as [L|L].
    { rewrite firstn_length in L. lia. }
    rewrite nth_error_app2 in E by auto. apply nth_error_In, repeat_spec in E. subst w. apply N.bits_0.
Qed.

Lemma push_back_ok s l b : holds_bits W s l -> size_ok W (length l + 1) ->
  exists s', push_back W b s = Ok tt s' /\ holds_bits W s' (l ++ [b]).
Proof.
  intros H Hs. destruct (resize_ok s l (length l + 1) H Hs) as (s1 & R & H' & _).
  assert (resize_bits l (length l + 1) = l ++ [false]) as E.
  { unfold resize_bits. rewrite firstn_all2 by lia. replace (length l + 1 - length l) with 1 by lia. reflexivity. }
  rewrite E in H'. destruct (set_to_ok s1 (l ++ [false]) (length l) b H') as (s2 & R2 & H2); [len|].
  exists s2. split.
  - unfold push_back. rewrite bind_get. rewrite (proj1 H). erewrite bind_ok by exact R.
    rewrite bind_get. rewrite (proj1 H'). rewrite app_length. cbn [length].
    replace (length l + 1 - 1) with (length l) by lia. exact R2.
  - rewrite upd_app_mid in H2 by auto. exact H2.
Qed.

(** * assign, construction *)

Lemma bits_of_words_length ws : length (bits_of_words W ws) = length ws * W.
Proof.
  unfold bits_of_words. induction ws as [|w ws IH]; [reflexivity|].
  cbn [flat_map]. rewrite app_length, IH, map_length, seq_length. cbn [length]. lia.
Qed.

Lemma nth_bits_of_words ws i : i < length ws * W ->
  nth i (bits_of_words W ws) false = bit_of W ws i.
Proof.
  revert i. induction ws as [|w ws IH]; intros i H; [cbn in H; lia|].
  unfold bits_of_words. cbn [flat_map]. fold (bits_of_words W ws).
  destruct (Nat.lt_ge_cases i W) as [L|L].
  - rewrite app_nth1 by (rewrite map_length, seq_length; lia).
    rewrite (nth_indep _ false (N.testbit w (N.of_nat 0))) by (rewrite map_length, seq_length; lia).
    rewrite (map_nth (fun i => N.testbit w (N.of_nat i))). rewrite seq_nth by lia.
    unfold bit_of. rewrite Nat.div_small, Nat.mod_small by lia. reflexivity.
  - rewrite app_nth2 by (rewrite map_length, seq_length; lia).
    rewrite map_length, seq_length. rewrite IH by (cbn [length] in H; lia).
    unfold bit_of.
    assert (i / W = S ((i - W) / W)) as E1.
    { replace i with ((i - W) + 1 * W) at 1 by lia. rewrite Nat.div_add by lia. lia. }
    assert (i mod W = (i - W) mod W) as E2.
    { replace i with ((i - W) + 1 * W) at 1 by lia. now rewrite Nat.mod_add by lia. }
    rewrite E1, E2. reflexivity.
Qed.

Lemma assign_ok s ws : words_ok W ws ->
  exists s', assign W ws s = Ok tt s' /\ holds_bits W s' (bits_of_words W ws).
Proof.
  intros H. eexists. split; [reflexivity|]. apply holds_intro; cbn [buf bsize]; auto; rewrite bits_of_words_length.
  - reflexivity.
  - unfold words_for. symmetry. apply div_unique_W. lia.
  - intros i Hi. symmetry. now apply nth_bits_of_words.
Qed.

Lemma make_ok n v : size_ok W n -> small v -> holds_bits W (bs_make W n v) (repeat_word W n v).
Proof.
  intros Hn Sv. unfold repeat_word.
  apply holds_intro; cbn [buf bsize bs_make]; rewrite ?map_length, ?seq_length; auto.
  - rewrite repeat_length. now apply word_size_ok.
  - now apply words_ok_repeat.
  - intros i Hi. rewrite (nth_indep _ false (N.testbit v (N.of_nat (0 mod W)))) by (rewrite map_length, seq_length; lia).
    rewrite (map_nth (fun i => N.testbit v (N.of_nat (i mod W)))). rewrite seq_nth by lia.
    unfold bit_of. rewrite nth_error_repeat_lt; [reflexivity|].
    rewrite word_size_ok by auto. now apply words_for_bound.
Qed.

(** * append *)

Lemma append_loop_ok other pad : 0 < pad < W -> words_ok W other -> forall myi s,
  myi < length (buf s) -> words_ok W (buf s) ->
  (forall p, p / W = myi -> pad <= p mod W -> bit_of W (buf s) p = false) ->
  exists s', append_loop W other pad myi s = Ok tt s' /\
    bsize s' = bsize s /\ length (buf s') = length (buf s) /\ words_ok W (buf s') /\
    (forall p, p < myi * W + pad -> bit_of W (buf s') p = bit_of W (buf s) p) /\
    (forall p, myi * W + pad <= p -> p < length (buf s) * W ->
       p - (myi * W + pad) < length other * W ->
       bit_of W (buf s') p = bit_of W other (p - (myi * W + pad))).
Proof.
  intros Hp. induction other as [|cur rest IH]; intros Ho myi s Hm Hs Hz.
  - eexists. split; [reflexivity|]. repeat split; auto. cbn [length]. lia.
  - assert (small cur) as Sc by (apply Ho; now left).
    assert (words_ok W rest) as Hr by (intros w Hw; apply Ho; now right).
    destruct (word_at s myi Hm) as (w & Ew & Rw). pose proof (words_ok_nth _ _ _ Hs Ew) as Sw.
    cbn [append_loop]. erewrite bind_ok by exact Rw.
    erewrite bind_ok by (apply set_word_at; exact Hm). rewrite bind_get. cbn [buf bsize]. rewrite upd_length.
    set (b1 := upd (buf s) myi (N.lor w (wshl W cur pad))).
    assert (length b1 = length (buf s)) as L1 by (unfold b1; apply upd_length).
    assert (words_ok W b1) as K1.
    { apply words_ok_upd; auto. apply small_lor; auto. apply small_wshl. }
    (* bits of the first word *)
    assert (forall p, p < myi * W + pad -> bit_of W b1 p = bit_of W (buf s) p) as A1.
    { intros p Hlt. unfold b1. rewrite bit_of_upd by auto. destruct (p / W =? myi) eqn:Q; auto.
      apply Nat.eqb_eq in Q. pose proof (mod_of_div _ _ Q) as MD. pose proof (div_eq_range p myi) as DR.
      rewrite N.lor_spec, wshl_tb. rewrite (proj2 (Nat.leb_gt _ _)) by lia.
      rewrite andb_false_r, orb_false_r. symmetry. eapply bit_of_word; eauto. }
    assert (forall p, p / W = myi -> pad <= p mod W -> bit_of W b1 p = tb cur (p mod W - pad)) as A2.
    { intros p Q Hge. unfold b1. rewrite bit_of_upd by auto. rewrite (proj2 (Nat.eqb_eq _ _) Q).
      rewrite N.lor_spec, wshl_tb. rewrite (proj2 (Nat.ltb_lt _ _) (mod_lt_W p)).
      rewrite (proj2 (Nat.leb_le _ _) Hge). cbn [andb].
      rewrite <- (bit_of_word _ _ _ _ Ew Q), Hz by auto. reflexivity. }
    assert (forall k, k < W -> bit_of W (cur :: rest) k = tb cur k) as CB.
    { intros k Hk. unfold bit_of. rewrite Nat.div_small, Nat.mod_small by lia. reflexivity. }
    destruct (S myi =? length (buf s)) eqn:Q.
    + apply Nat.eqb_eq in Q. eexists. split; [reflexivity|]. cbn [buf bsize].
      repeat split; auto. intros p Hge Hlt _.
      assert (p / W = myi) as Qp by (apply div_eq_range; nia).
      pose proof (mod_of_div _ _ Qp). rewrite A2 by lia. rewrite CB by (pose proof (mod_lt_W p); lia).
      f_equal. lia.
    + apply Nat.eqb_neq in Q.
      erewrite bind_ok by (apply set_word_at; cbn [buf]; lia). cbn [buf bsize].
      set (b2 := upd b1 (S myi) (wshr cur (W - pad))).
      assert (length b2 = length (buf s)) as L2 by (unfold b2; rewrite upd_length; lia).
      edestruct (IH Hr (S myi) (mkBs b2 (bsize s))) as (s' & R & P1 & P2 & P3 & P4 & P5).
      * cbn [buf]. lia.
      * cbn [buf]. apply words_ok_upd; auto. now apply small_wshr.
      * cbn [buf]. intros p Qp Hge. unfold b2. rewrite bit_of_upd by lia.
        rewrite (proj2 (Nat.eqb_eq _ _) Qp). rewrite wshr_tb. rewrite small_tb in Sc. apply Sc. lia.
      * cbn [buf bsize] in *. exists s'. split; [exact R|]. split; [lia|]. split; [lia|]. split; [exact P3|].
        split.
        { intros p Hlt. rewrite P4 by nia. unfold b2. rewrite bit_of_upd by lia.
          rewrite (proj2 (Nat.eqb_neq _ _)); auto. intros Qp. apply div_eq_range in Qp. nia. }
        intros p Hge Hlt Hlen.
        destruct (Nat.lt_ge_cases p (S myi * W + pad)) as [L|L].
        -- rewrite P4 by exact L. unfold b2. rewrite bit_of_upd by lia.
           destruct (p / W =? S myi) eqn:Qp.
           ++ apply Nat.eqb_eq in Qp. pose proof (mod_of_div _ _ Qp). apply div_eq_range in Qp.
              rewrite wshr_tb, CB by nia. f_equal. nia.
           ++ apply Nat.eqb_neq in Qp.
              assert (p / W = myi) as Qm.
              { apply div_eq_range. split; [lia|]. destruct (Nat.lt_ge_cases p (S myi * W)) as [?|G]; [nia|].
                exfalso. apply Qp. apply div_eq_range. nia. }
              pose proof (mod_of_div _ _ Qm). pose proof (mod_lt_W p).
              rewrite A2 by lia. rewrite CB by lia. f_equal. lia.
        -- rewrite P5 by (try lia; cbn [length] in Hlen; nia).
           unfold bit_of. assert (p - (myi * W + pad) = (p - (S myi * W + pad)) + 1 * W) as -> by nia.
           rewrite Nat.div_add, Nat.mod_add by lia. rewrite (Nat.add_comm _ 1). reflexivity.
Qed.

Lemma holds_empty s l : holds_bits W s l -> is_empty s = true <-> l = [].
Proof.
  intros (A & B & _). unfold is_empty. destruct (buf s) as [|w b] eqn:E; split; try discriminate; auto.
  - intros _. cbn in B. destruct l as [|x l]; auto. exfalso.
    pose proof (words_for_bound 0 (length (x :: l))). cbn [length] in *. lia.
  - intros ->. cbn in B. unfold words_for in B. rewrite Nat.div_small in B by lia. discriminate.
Qed.

Lemma app_holds s l b2 sz l2 :
  bsize s = length l -> length b2 = words_for W (length l + length l2) -> words_ok W b2 ->
  sz = length l + length l2 ->
  (forall p, p < length l -> bit_of W b2 p = nth p l false) ->
  (forall p, p < length l2 -> bit_of W b2 (length l + p) = nth p l2 false) ->
  holds_bits W (mkBs b2 sz) (l ++ l2).
Proof.
  intros A B C D E F. apply holds_intro; cbn [buf bsize]; rewrite ?app_length; auto.
  intros i Hi. destruct (Nat.lt_ge_cases i (length l)) as [L|L].
  - rewrite app_nth1 by auto. now apply E.
  - rewrite app_nth2 by auto. rewrite <- F by lia. f_equal. lia.
Qed.

Lemma append_ok s l o k : holds_bits W s l -> holds_bits W o k ->
  size_ok W (length l + length k) ->
  exists s', append W o s = Ok tt s' /\ holds_bits W s' (l ++ k).
Proof.
  intros Hs Ho Hn. unfold append. destruct (is_empty o) eqn:EO.
  { apply (holds_empty _ _ Ho) in EO. subst k. rewrite app_nil_r. eauto. }
  rewrite bind_get. cbv zeta. pose proof Hs as (S1 & S2 & S3 & S4). pose proof Ho as (O1 & O2 & O3 & O4).
  rewrite S1, O1. pose proof (div_mod_W (length l)) as DM. destruct (length l mod W =? 0) eqn:E.
  - apply Nat.eqb_eq in E. eexists. split; [reflexivity|].
    assert (length (buf s) = length l / W) as LB by (rewrite S2; now apply words_for_exact).
    eapply app_holds; eauto.
    + rewrite app_length, LB, O2. unfold words_for.
      rewrite DM at 2. rewrite E. replace (W * (length l / W) + 0 + length k + (W - 1)) with (length l / W * W + (length k + (W - 1))) by lia.
      now rewrite Nat.div_add_l by lia.
    + now apply words_ok_app.
    + intros p Hp. rewrite <- (holds_bit _ _ _ Hs Hp). unfold bit_of. rewrite nth_error_app1; auto.
      rewrite S2. now apply words_for_bound.
    + intros p Hp. rewrite <- (holds_bit _ _ _ Ho Hp). unfold bit_of.
      assert (length l + p = p + (length l / W) * W) as -> by lia.
      rewrite Nat.div_add, Nat.mod_add by lia. rewrite nth_error_app2 by lia.
      rewrite LB. now replace (p / W + length l / W - length l / W) with (p / W) by lia.
  - apply Nat.eqb_neq in E.
    destruct (resize_ok s l (length l + length k) Hs Hn) as (s1 & R1 & H1 & Z1).
    pose proof H1 as (T1 & T2 & T3 & T4). rewrite resize_bits_length in T1, T2.
    assert (length (buf s) - 1 = length l / W) as LB by (rewrite S2, (words_for_pad _ E); lia).
    rewrite LB. erewrite bind_ok by exact R1.
    assert (Hk0 : k <> []) by (intros C; apply (holds_empty _ _ Ho) in C; congruence).
    assert (0 < length k) as Hk by (destruct k; [congruence|cbn [length]; lia]).
    destruct (append_loop_ok (buf o) (length l mod W) ltac:(pose proof (mod_lt_W (length l)); lia) O3 (length l / W) s1)
      as (s' & R & P1 & P2 & P3 & P4 & P5).
    + rewrite T2. apply words_for_bound. lia.
    + exact T3.
    + intros p Qp Hge. apply Z1. pose proof (mod_of_div _ _ Qp). lia.
    + exists s'. split; [exact R|]. destruct s' as [b2 sz]. cbn [buf bsize] in *.
      assert (length l / W * W + length l mod W = length l) as EL by lia. rewrite EL in *.
      pose proof (words_for_cover (length l + length k)). pose proof (words_for_cover (length k)).
      eapply app_holds; eauto; try lia.
      * intros p Hp. rewrite P4 by lia. rewrite <- (nth_resize_bits l (length l + length k) p) by lia.
        apply holds_bit; auto. rewrite resize_bits_length. lia.
      * intros p Hp. rewrite P5 by lia. replace (length l + p - length l) with p by lia.
        now apply holds_bit.
Qed.

(** A bitset appended to itself, its last word not full. *)
Lemma self_append_loop_ok l (n := length l) back pad L : n = back * W + pad -> 0 < pad < W ->
  L * W >= 2 * n -> back < L ->
  forall fuel i s,
  length (buf s) = L -> L <= i + fuel -> back + i < L -> words_ok W (buf s) ->
  (forall p, p < n -> bit_of W (buf s) p = nth p l false) ->
  (forall p, n <= p -> p < 2 * n -> p < n + i * W -> bit_of W (buf s) p = nth (p - n) l false) ->
  (forall p, n + i * W <= p -> p < (back + i + 1) * W -> bit_of W (buf s) p = false) ->
  exists s', self_append_loop W fuel i pad (back + i) s = Ok tt s' /\
    bsize s' = bsize s /\ length (buf s') = L /\ words_ok W (buf s') /\
    (forall p, p < n -> bit_of W (buf s') p = nth p l false) /\
    (forall p, n <= p -> p < 2 * n -> bit_of W (buf s') p = nth (p - n) l false).
Proof.
  intros Hn Hp HL HbL. induction fuel as [|fuel IH]; intros i s HLs Hf Hi Hok A B C; [lia|].
  cbn [self_append_loop]. rewrite bind_get. rewrite (proj2 (Nat.leb_gt _ _)) by lia.
  destruct (word_at s i) as (cur & Ec & Rc); [lia|]. erewrite bind_ok by exact Rc.
  destruct (word_at s (back + i)) as (w & Ew & Rw); [lia|]. erewrite bind_ok by exact Rw.
  pose proof (words_ok_nth _ _ _ Hok Ew) as Sw. pose proof (words_ok_nth _ _ _ Hok Ec) as Sc.
  erewrite bind_ok by (apply set_word_at; lia). cbn [buf bsize].
  set (b1 := upd (buf s) (back + i) (N.lor w (wshl W cur pad))).
  assert (length b1 = L) as L1 by (unfold b1; rewrite upd_length; lia).
  assert (words_ok W b1) as K1 by (apply words_ok_upd; auto; apply small_lor; auto; apply small_wshl).
  assert (forall p, p < n + i * W -> bit_of W b1 p = bit_of W (buf s) p) as A1.
  { intros p Hlt. unfold b1. rewrite bit_of_upd by lia. destruct (p / W =? back + i) eqn:Q; auto.
    apply Nat.eqb_eq in Q. pose proof (mod_of_div _ _ Q) as MD. apply (div_eq_range p) in Q as DR.
    rewrite N.lor_spec, wshl_tb. rewrite (proj2 (Nat.leb_gt _ _)) by nia.
    rewrite andb_false_r, orb_false_r. symmetry. eapply bit_of_word; eauto. }
  assert (forall p, n + i * W <= p -> p < (back + i + 1) * W -> bit_of W b1 p = bit_of W (buf s) (p - n)) as A2.
  { intros p Hge Hlt. assert (p / W = back + i) as Q by (apply div_eq_range; nia).
    pose proof (mod_of_div _ _ Q) as MD.
    unfold b1. rewrite bit_of_upd by lia. rewrite (proj2 (Nat.eqb_eq _ _) Q).
    rewrite N.lor_spec, wshl_tb. rewrite (proj2 (Nat.ltb_lt _ _) (mod_lt_W p)).
    rewrite (proj2 (Nat.leb_le pad _)) by nia. cbn [andb].
    rewrite <- (bit_of_word _ _ _ _ Ew Q), C by auto. cbn [orb].
    assert ((p - n) / W = i) as Qi by (apply div_eq_range; nia).
    rewrite (bit_of_word _ _ _ _ Ec Qi). f_equal. rewrite (mod_of_div _ _ Qi). nia. }
  rewrite HLs. destruct (S (back + i) =? L) eqn:Q.
  - apply Nat.eqb_eq in Q. eexists. split; [reflexivity|]. cbn [buf bsize].
    repeat split; auto.
    + intros p Hlt. rewrite A1 by lia. auto.
    + intros p Hge Hlt. destruct (Nat.lt_ge_cases p (n + i * W)) as [G|G].
      * rewrite A1 by lia. auto.
      * rewrite A2 by nia. apply A. lia.
  - apply Nat.eqb_neq in Q. erewrite bind_ok by (apply set_word_at; cbn [buf]; lia). cbn [buf bsize].
    set (b2 := upd b1 (S (back + i)) (wshr cur (W - pad))).
    assert (forall p, p < (back + i + 1) * W -> bit_of W b2 p = bit_of W b1 p) as A3.
    { intros p Hlt. unfold b2. rewrite bit_of_upd by lia. rewrite (proj2 (Nat.eqb_neq _ _)); auto.
      intros Qp. apply div_eq_range in Qp. nia. }
    assert (forall p, p / W = S (back + i) -> bit_of W b2 p = tb cur (p mod W + (W - pad))) as A4.
    { intros p Qp. unfold b2. rewrite bit_of_upd by lia. rewrite (proj2 (Nat.eqb_eq _ _) Qp). apply wshr_tb. }
    replace (S (back + i)) with (back + S i) in * by lia.
    edestruct (IH (S i) (mkBs b2 (bsize s))) as (s' & R & P1 & P2 & P3 & P4 & P5); cbn [buf bsize].
    + unfold b2. rewrite upd_length. exact L1.
    + lia.
    + lia.
    + apply words_ok_upd; auto. now apply small_wshr.
    + intros p Hlt. rewrite A3 by nia. rewrite A1 by lia. auto.
    + intros p Hge Hlt Hx. destruct (Nat.lt_ge_cases p ((back + i + 1) * W)) as [G|G].
      * rewrite A3 by exact G. destruct (Nat.lt_ge_cases p (n + i * W)) as [G2|G2].
        -- rewrite A1 by exact G2. auto.
        -- rewrite A2 by lia. apply A. lia.
      * assert (p / W = back + S i) as Qp by (apply div_eq_range; nia).
        rewrite A4 by exact Qp. rewrite (mod_of_div _ _ Qp).
        assert ((p - n) / W = i) as Qi by (apply div_eq_range; nia).
        rewrite <- A by lia. rewrite (bit_of_word _ _ _ _ Ec Qi). f_equal.
        rewrite (mod_of_div _ _ Qi). nia.
    + intros p Hge Hlt. assert (p / W = back + S i) as Qp by (apply div_eq_range; nia).
      rewrite A4 by exact Qp. rewrite (mod_of_div _ _ Qp). rewrite small_tb in Sc. apply Sc. nia.
    + cbn [bsize] in P1. exists s'. repeat split; auto.
Qed.

Lemma self_append_ok s l : holds_bits W s l -> size_ok W (length l + length l) ->
  l = [] \/ length l mod W <> 0 ->
  exists s', self_append W s = Ok tt s' /\ holds_bits W s' (l ++ l).
Proof.
  intros Hs Hn Hc. unfold self_append. rewrite bind_get. destruct (is_empty s) eqn:EO.
  { apply (holds_empty _ _ Hs) in EO. subst l. eauto. }
  destruct Hc as [->|E].
  - rewrite (proj2 (holds_empty _ _ Hs) eq_refl) in EO. discriminate.
  - pose proof Hs as (S1 & S2 & S3 & S4). cbv zeta. rewrite S1.
    rewrite (proj2 (Nat.eqb_neq _ _) E).
    destruct (resize_ok s l (length l + length l) Hs Hn) as (s1 & R1 & H1 & Z1).
    pose proof H1 as (T1 & T2 & T3 & T4). rewrite resize_bits_length in T1, T2.
    assert (length (buf s) - 1 = length l / W) as LB by (rewrite S2, (words_for_pad _ E); lia).
    rewrite LB. erewrite bind_ok by exact R1. rewrite bind_get.
    pose proof (div_mod_W (length l)) as DM. pose proof (mod_lt_W (length l)) as ML.
    pose proof (words_for_cover (length l + length l)) as WC.
    destruct (self_append_loop_ok l (length l / W) (length l mod W) (length (buf s1)) ltac:(lia) ltac:(lia) ltac:(lia))
      with (fuel := length (buf s1)) (i := 0) (s := s1) as (s' & R & P1 & P2 & P3 & P4 & P5); auto; try lia.
    + rewrite T2. apply words_for_bound. lia.
    + rewrite Nat.add_0_r, T2. apply words_for_bound. lia.
    + intros p Hp. rewrite <- (nth_resize_bits l (length l + length l) p) by lia.
      apply holds_bit; auto. rewrite resize_bits_length. lia.
    + intros p Hge _. apply Z1. lia.
    + rewrite Nat.add_0_r in R. exists s'. split; [exact R|]. destruct s' as [b2 sz]. cbn [buf bsize] in *.
      eapply app_holds; eauto; try lia.
      intros p Hp. rewrite P5 by lia. f_equal. lia.
Qed.

(** * Iteration *)

Lemma iterate_ok s l : holds_bits W s l -> forall fuel i,
  i <= length l -> length l <= i + fuel -> iterate W fuel i s = Ok (skipn i l) s.
Proof.
  intros H. induction fuel as [|fuel IH]; intros i Hi Hf; cbn [iterate]; rewrite bind_get, (proj1 H).
  - rewrite (proj2 (Nat.eqb_eq _ _)) by lia. rewrite skipn_all2 by lia. reflexivity.
  - destruct (i =? length l) eqn:E.
    + apply Nat.eqb_eq in E. rewrite skipn_all2 by lia. reflexivity.
    + apply Nat.eqb_neq in E. erewrite bind_ok by (apply test_ok; [exact H|lia]).
      erewrite bind_ok by (apply IH; lia). unfold ret. f_equal.
      rewrite Nat.add_1_r. symmetry. apply skipn_S_nth. apply nth_error_nth'. lia.
Qed.

(** * all, any, none *)

Lemma any_loop_ok s : words_ok W (buf s) -> forall k i, i + k <= length (buf s) ->
  exists b, any_loop i k s = Ok b s /\
    (b = true <-> exists p, i * W <= p < (i + k) * W /\ bit_of W (buf s) p = true).
Proof.
  intros Hok. induction k as [|k IH]; intros i Hi; cbn [any_loop].
  - exists false. split; [reflexivity|]. split; [discriminate|]. intros (p & P & _). nia.
  - destruct (word_at s i) as (w & E & R); [lia|]. erewrite bind_ok by exact R.
    pose proof (words_ok_nth _ _ _ Hok E) as Sw. destruct (w =? 0)%N eqn:Z.
    + apply N.eqb_eq in Z. destruct (IH (S i) ltac:(lia)) as (b & Rb & Hb).
      exists b. split; [exact Rb|]. rewrite Hb. split; intros (p & P & B).
      * exists p. split; [nia|exact B].
      * exists p. split; [|exact B]. split; [|nia].
        destruct (Nat.lt_ge_cases p (S i * W)) as [G|G]; [|exact G].
        rewrite (bit_of_word _ i w p E) in B by (apply div_eq_range; nia).
        subst w. rewrite N.bits_0 in B. discriminate.
    + exists true. split; [reflexivity|]. split; [|reflexivity]. intros _.
      apply N.eqb_neq in Z.
      assert (exists j, j < W /\ tb w j = true) as (j & Hj & B).
      { destruct (existsb (fun j => tb w j) (seq 0 W)) eqn:X.
        - apply existsb_exists in X as (j & I & B). apply in_seq in I. exists j. split; [lia|exact B].
        - exfalso. apply Z. apply small_zero_tb; auto. intros j Hj.
          destruct (tb w j) eqn:Y; auto. rewrite <- X. symmetry. apply existsb_exists.
          exists j. split; [apply in_seq; lia|exact Y]. }
      exists (i * W + j). split; [nia|].
      rewrite (bit_of_word _ i w _ E) by (now apply div_unique_W). now rewrite mod_unique_W.
Qed.

Lemma existsb_nth l : existsb (fun b => b) l = true <-> exists p, p < length l /\ nth p l false = true.
Proof.
  rewrite existsb_exists. split.
  - intros (b & I & ->). apply In_nth with (d := false) in I as (p & H & E). eauto.
  - intros (p & H & E). exists true. split; auto. rewrite <- E. now apply nth_In.
Qed.

Lemma bool_iff_eq a b : (a = true <-> b = true) -> a = b.
Proof. destruct a, b; intuition congruence. Qed.

(** The last word, when it is not full. *)
Lemma tail_shape s l : holds_bits W s l -> is_empty s = false ->
  length (buf s) = length l / W /\ length l mod W = 0 \/
  length (buf s) = length l / W + 1 /\ 0 < length l mod W /\
    exists w, nth_error (buf s) (length (buf s) - 1) = Some w /\
      word (length (buf s) - 1) s = Ok w s.
Proof.
  intros (A & B & _) _. destruct (Nat.eq_dec (length l mod W) 0) as [E|E].
  - left. rewrite B. split; auto. now apply words_for_exact.
  - right. rewrite B, words_for_pad by auto. split; auto. split; [lia|].
    rewrite <- (words_for_pad _ E), <- B. apply word_at. rewrite B, words_for_pad; auto. lia.
Qed.

Lemma any_ok s l : holds_bits W s l -> any_ W s = Ok (existsb (fun b => b) l) s.
Proof.
  intros H. pose proof H as (A & B & C & D). unfold any_. rewrite bind_get.
  destruct (is_empty s) eqn:EO.
  { apply (holds_empty _ _ H) in EO. subst l. reflexivity. }
  rewrite A. pose proof (div_mod_W (length l)) as DM.
  pose proof (tail_shape _ _ H EO) as TS.
  destruct (any_loop_ok s C (length l / W) 0) as (b & R & Hb).
  { destruct TS as [(X & _)|(X & _)]; lia. }
  erewrite bind_ok by exact R. cbn [Nat.add] in Hb. destruct b.
  - unfold ret. f_equal. symmetry. apply existsb_nth.
    destruct (proj1 Hb eq_refl) as (p & P & Bp). exists p. split; [lia|].
    rewrite <- (holds_bit _ _ _ H); auto. lia.
  - destruct TS as [(X & Y)|(X & Y & w & Ew & Rw)].
    + rewrite X, Nat.eqb_refl. unfold ret. f_equal. apply bool_iff_eq. split; [discriminate|].
      intros E. apply existsb_nth in E as (p & P & Ep). apply Hb. exists p. split; [lia|].
      rewrite (holds_bit _ _ _ H); auto.
    + rewrite (proj2 (Nat.eqb_neq _ _)) by lia. erewrite bind_ok by exact Rw. unfold ret. f_equal.
      apply bool_iff_eq. rewrite existsb_nth. rewrite negb_true_iff, N.eqb_neq.
      set (m := wtrunc W (word_mask W (length l mod W) - 1)).
      assert (forall j, tb m j = (j <? length l mod W)) as Hm.
      { intros j. apply low_mask_tb. apply mod_lt_W. }
      pose proof (words_ok_nth _ _ _ C Ew) as Sw.
      assert (forall p, p / W = length l / W -> bit_of W (buf s) p = tb w (p mod W)) as Hw.
      { intros p Q. eapply bit_of_word; [exact Ew|]. lia. }
      split.
      * intros NZ.
        assert (exists j, j < W /\ tb (N.land w m) j = true) as (j & Hj & Bj).
        { destruct (existsb (fun j => tb (N.land w m) j) (seq 0 W)) eqn:Xe.
          - apply existsb_exists in Xe as (j & I & Q). apply in_seq in I. exists j. split; [lia|exact Q].
          - exfalso. apply NZ. apply small_zero_tb; [now apply small_land|]. intros j Hj.
            destruct (tb (N.land w m) j) eqn:Ye; auto. rewrite <- Xe. symmetry. apply existsb_exists.
            exists j. split; [apply in_seq; lia|exact Ye]. }
        rewrite N.land_spec, Hm in Bj. apply andb_true_iff in Bj as (B1 & B2). apply Nat.ltb_lt in B2.
        exists (length l / W * W + j). split; [lia|].
        rewrite <- (holds_bit _ _ _ H) by lia. rewrite Hw by now apply div_unique_W.
        now rewrite mod_unique_W.
      * intros (p & P & Bp) Z. rewrite <- (holds_bit _ _ _ H) in Bp by auto.
        assert (p / W = length l / W) as Qp.
        { apply div_eq_range. split; [|pose proof (mod_lt_W (length l)); lia].
          destruct (Nat.lt_ge_cases p (length l / W * W)) as [G|G]; auto. exfalso.
          assert (false = true); [|discriminate]. apply Hb. exists p. split; [lia|exact Bp]. }
        rewrite Hw in Bp by auto.
        assert (tb (N.land w m) (p mod W) = true) as T.
        { rewrite N.land_spec, Bp, Hm. apply Nat.ltb_lt. rewrite (mod_of_div _ _ Qp). lia. }
        rewrite Z, N.bits_0 in T. discriminate.
Qed.

Lemma none_ok s l : holds_bits W s l -> none_ W s = Ok (negb (existsb (fun b => b) l)) s.
Proof. intros H. unfold none_. erewrite bind_ok by (apply any_ok; exact H). reflexivity. Qed.

Lemma ones_small w : small w -> w = N.ones (N.of_nat W) <-> forall j, j < W -> tb w j = true.
Proof.
  intros Sm. split.
  - intros -> j Hj. apply N.ones_spec_low. lia.
  - intros H. apply N.bits_inj. intros k. rewrite <- (N2Nat.id k).
    destruct (Nat.lt_ge_cases (N.to_nat k) W) as [L|L].
    + rewrite H by auto. symmetry. apply N.ones_spec_low. lia.
    + rewrite small_tb in Sm. rewrite Sm by auto. symmetry. apply N.ones_spec_high. lia.
Qed.

Lemma all_loop_ok s : words_ok W (buf s) -> forall k i, i + k <= length (buf s) -> 32 <= W \/ k = 0 ->
  exists b, all_loop W i k s = Ok b s /\
    (b = true <-> forall p, i * W <= p < (i + k) * W -> bit_of W (buf s) p = true).
Proof.
  intros Hok. induction k as [|k IH]; intros i Hi H32; cbn [all_loop].
  - exists true. split; [reflexivity|]. split; [|reflexivity]. intros _ p P. nia.
  - destruct H32 as [H32|?]; [|lia].
    destruct (word_at s i) as (w & E & R); [lia|]. erewrite bind_ok by exact R.
    pose proof (words_ok_nth _ _ _ Hok E) as Sw. unfold is_all_ones.
    rewrite (proj2 (Nat.ltb_ge W 32)) by lia. destruct (w =? N.ones (N.of_nat W))%N eqn:Z.
    + apply N.eqb_eq in Z. destruct (IH (S i) ltac:(lia) ltac:(lia)) as (b & Rb & Hb).
      exists b. split; [exact Rb|]. rewrite Hb. rewrite (ones_small _ Sw) in Z. split; intros P p Hp.
      * destruct (Nat.lt_ge_cases p (S i * W)) as [G|G]; [|apply P; nia].
        rewrite (bit_of_word _ i w p E) by (apply div_eq_range; nia). apply Z, mod_lt_W.
      * apply P. nia.
    + exists false. split; [reflexivity|]. split; [discriminate|]. intros P. exfalso.
      apply N.eqb_neq in Z. apply Z. apply ones_small; auto. intros j Hj.
      rewrite <- (P (i * W + j)) by nia.
      rewrite (bit_of_word _ i w _ E) by (now apply div_unique_W). now rewrite mod_unique_W.
Qed.

Lemma forallb_nth l : forallb (fun b => b) l = true <-> forall p, p < length l -> nth p l false = true.
Proof.
  rewrite forallb_forall. split.
  - intros H p Hp. apply H. now apply nth_In.
  - intros H b I. apply In_nth with (d := false) in I as (p & Hp & <-). auto.
Qed.

Lemma all_ok s l : holds_bits W s l -> 32 <= W \/ length l < W ->
  all_ W s = Ok (negb (length l =? 0) && forallb (fun b => b) l) s.
Proof.
  intros H H32. pose proof H as (A & B & C & D). unfold all_. rewrite bind_get.
  destruct (is_empty s) eqn:EO.
  { apply (holds_empty _ _ H) in EO. subst l. reflexivity. }
  assert (length l <> 0) as NE.
  { intros E. destruct l; [|discriminate]. rewrite (proj2 (holds_empty _ _ H) eq_refl) in EO. discriminate. }
  rewrite (proj2 (Nat.eqb_neq _ _) NE). cbn [negb andb].
  rewrite A. pose proof (div_mod_W (length l)) as DM.
  pose proof (tail_shape _ _ H EO) as TS.
  destruct (all_loop_ok s C (length l / W) 0) as (b & R & Hb).
  { destruct TS as [(X & _)|(X & _)]; lia. }
  { destruct H32 as [?|L]; [auto|right; now apply Nat.div_small]. }
  erewrite bind_ok by exact R. cbn [Nat.add] in Hb. destruct b; cbn [negb].
  - destruct TS as [(X & Y)|(X & Y & w & Ew & Rw)].
    + rewrite X, Nat.eqb_refl. unfold ret. f_equal. symmetry. apply forallb_nth. intros p Hp.
      rewrite <- (holds_bit _ _ _ H) by auto. apply (proj1 Hb); auto. lia.
    + rewrite (proj2 (Nat.eqb_neq _ _)) by lia. erewrite bind_ok by exact Rw. unfold ret. f_equal.
      apply bool_iff_eq. rewrite forallb_nth. rewrite N.eqb_eq.
      set (m := wtrunc W (word_mask W (length l mod W) - 1)).
      assert (forall j, tb m j = (j <? length l mod W)) as Hm.
      { intros j. apply low_mask_tb. apply mod_lt_W. }
      assert (forall p, p / W = length l / W -> bit_of W (buf s) p = tb w (p mod W)) as Hw.
      { intros p Q. eapply bit_of_word; [exact Ew|]. lia. }
      split.
      * intros E p Hp. rewrite <- (holds_bit _ _ _ H) by auto.
        destruct (Nat.lt_ge_cases p (length l / W * W)) as [G|G].
        { apply (proj1 Hb); auto. lia. }
        assert (p / W = length l / W) as Qp.
        { apply div_eq_range. pose proof (mod_lt_W (length l)). lia. }
        rewrite Hw by auto. assert (tb m (p mod W) = true) as T.
        { rewrite Hm. apply Nat.ltb_lt. rewrite (mod_of_div _ _ Qp). lia. }
        rewrite <- E, N.land_spec in T. now apply andb_true_iff in T as (T & _).
      * intros P. apply N.bits_inj. intros k. rewrite <- (N2Nat.id k). rewrite N.land_spec, Hm.
        destruct (N.to_nat k <? length l mod W) eqn:Q; [|apply andb_false_r].
        apply Nat.ltb_lt in Q. rewrite andb_true_r. pose proof (mod_lt_W (length l)).
        specialize (P (length l / W * W + N.to_nat k) ltac:(lia)).
        rewrite <- (holds_bit _ _ _ H) in P by lia. rewrite Hw in P by (apply div_unique_W; lia).
        rewrite mod_unique_W in P by lia. exact P.
  - unfold ret. f_equal. apply bool_iff_eq. split; [discriminate|]. intros E. apply Hb.
    intros p Hp. rewrite forallb_nth in E. rewrite (holds_bit _ _ _ H) by lia. apply E. lia.
Qed.

(** Narrow words: a full word never compares equal to ~word_type(0). *)
Lemma all_narrow s l : holds_bits W s l -> W < 32 -> W <= length l -> all_ W s = Ok false s.
Proof.
  intros H H32 HL. pose proof H as (A & B & C & D). unfold all_. rewrite bind_get.
  destruct (is_empty s) eqn:EO; [reflexivity|]. rewrite A.
  assert (exists k, length l / W = S k) as (k & K).
  { destruct (length l / W) as [|k] eqn:E; [|eauto]. apply div_eq_range in E. lia. }
  rewrite K. assert (all_loop W 0 (S k) s = Ok false s) as R.
  { cbn [all_loop]. destruct (word_at s 0) as (w & E & R).
    { rewrite B. pose proof (words_for_bound 0 (length l)). lia. }
    erewrite bind_ok by exact R. unfold is_all_ones. rewrite (proj2 (Nat.ltb_lt W 32)) by lia.
    rewrite (proj2 (Z.eqb_neq _ _)) by lia. reflexivity. }
  erewrite bind_ok by exact R. reflexivity.
Qed.

(** * copy *)

Lemma onL_ok {S A} (m : M S A) st a s' : m (fst st) = Ok a s' -> onL m st = Ok a (s', snd st).
Proof. intros H. unfold onL. now rewrite H. Qed.
Lemma onR_ok {S A} (m : M S A) st a s' : m (snd st) = Ok a s' -> onR m st = Ok a (fst st, s').
Proof. intros H. unfold onR. now rewrite H. Qed.

(** What copying the bits [from, to) of [k] from [src] on makes of [l]. *)
Definition mix (l k : list bool) (from to src : nat) (p : nat) : bool :=
  if (from <=? p) && (p <? to) then nth (src + (p - from)) k false else nth p l false.

Definition has (s : bs) (n : nat) (f : nat -> bool) : Prop :=
  bsize s = n /\ length (buf s) = words_for W n /\ words_ok W (buf s) /\
  forall p, p < n -> bit_of W (buf s) p = f p.

Lemma copy_bits_ok o k from to src (n := length k) : holds_bits W o k ->
  forall fuel l s, holds_bits W s l -> from <= to -> to <= length l -> src + (to - from) <= n ->
  W <= from mod W + fuel \/ from mod W = 0 ->
  exists d s' l', copy_bits W fuel from to src (s, o) = Ok (from + d, src + d) (s', o) /\
    from + d <= to /\ (from + d < to -> (from + d) mod W = 0) /\
    holds_bits W s' l' /\ length l' = length l /\
    (forall p, nth p l' false = mix l k from (from + d) src p).
Proof.
  intros Ho fuel. revert from src. induction fuel as [|fuel IH]; intros from src l s Hs H1 H2 H3 Hf.
  - assert (from mod W = 0) as E by (pose proof (mod_lt_W from); lia).
    exists 0, s, l. cbn [copy_bits]. unfold bit_index. rewrite E, !Nat.add_0_r. cbn [Nat.eqb].
    repeat split; auto; try apply Hs. intros p. unfold mix.
    destruct (from <=? p) eqn:X, (p <? from) eqn:Y; auto. apply Nat.leb_le in X. apply Nat.ltb_lt in Y. lia.
  - cbn [copy_bits]. unfold bit_index. destruct (from mod W =? 0) eqn:E.
    + apply Nat.eqb_eq in E. exists 0, s, l. rewrite !Nat.add_0_r.
      repeat split; auto; try apply Hs. intros p. unfold mix.
      destruct (from <=? p) eqn:X, (p <? from) eqn:Y; auto. apply Nat.leb_le in X. apply Nat.ltb_lt in Y. lia.
    + apply Nat.eqb_neq in E. destruct (from =? to) eqn:T.
      * apply Nat.eqb_eq in T. exists 0, s, l. rewrite !Nat.add_0_r. repeat split; auto; try apply Hs; try lia.
        intros p. unfold mix.
        destruct (from <=? p) eqn:X, (p <? from) eqn:Y; auto. apply Nat.leb_le in X. apply Nat.ltb_lt in Y. lia.
      * apply Nat.eqb_neq in T.
        erewrite bind_ok by (apply onR_ok; cbn [snd]; apply test_ok; [exact Ho|lia]). cbn [fst].
        destruct (set_to_ok s l from (nth src k false) Hs ltac:(lia)) as (s1 & R1 & Hs1).
        erewrite bind_ok by (apply onL_ok; cbn [fst]; exact R1). cbn [snd].
        destruct (IH (from + 1) (src + 1) _ s1 Hs1) as (d & s' & l' & R & P1 & P2 & P3 & P4 & P5); try lia.
        { len. }
        { destruct Hf as [Hf|?]; [|lia].
          destruct (Nat.eq_dec (from mod W) (W - 1)) as [X|X].
          - right. pose proof (div_mod_W from). assert (from + 1 = (from / W + 1) * W + 0) as -> by nia.
            apply mod_unique_W. lia.
          - left. pose proof (div_mod_W from). pose proof (mod_lt_W from).
            assert (from + 1 = from / W * W + (from mod W + 1)) as -> by lia.
            rewrite mod_unique_W by lia. lia. }
        exists (S d), s', l'. split; [|split; [|split; [|split; [|split]]]].
        -- replace (from + S d) with (from + 1 + d) by lia. replace (src + S d) with (src + 1 + d) by lia. exact R.
        -- lia.
        -- intros HH. replace (from + S d) with (from + 1 + d) by lia. apply P2. lia.
        -- exact P3.
        -- rewrite P4. len.
        -- intros p. rewrite P5. unfold mix. rewrite nth_upd by lia.
           destruct (p =? from) eqn:Q.
           ++ apply Nat.eqb_eq in Q. subst p. rewrite (proj2 (Nat.leb_gt _ _)) by lia. cbn [andb].
              rewrite Nat.leb_refl, (proj2 (Nat.ltb_lt _ _)) by lia. cbn [andb].
              rewrite Nat.sub_diag. f_equal. lia.
           ++ apply Nat.eqb_neq in Q. destruct (from + 1 <=? p) eqn:X.
              ** apply Nat.leb_le in X. rewrite (proj2 (Nat.leb_le from p)) by lia. cbn [andb].
                 replace (from + S d) with (from + 1 + d) by lia. destruct (p <? from + 1 + d); auto. f_equal. lia.
              ** apply Nat.leb_gt in X. rewrite (proj2 (Nat.leb_gt from p)) by lia. reflexivity.
Qed.

Lemma has_holds s l : holds_bits W s l -> has s (length l) (fun p => nth p l false).
Proof.
  intros H. pose proof H as (A & B & C & D). repeat split; auto. intros p Hp. now apply holds_bit.
Qed.
Lemma holds_has s l f : has s (length l) f -> (forall p, p < length l -> f p = nth p l false) ->
  holds_bits W s l.
Proof.
  intros (A & B & C & D) E. apply holds_intro; auto. intros i Hi. rewrite D by auto. auto.
Qed.

(** One whole word replaced. *)
Lemma word_update s n f k w : has s n f -> k < length (buf s) -> small w ->
  has (mkBs (upd (buf s) k w) (bsize s)) n (fun p => if p / W =? k then tb w (p mod W) else f p).
Proof.
  intros (A & B & C & D) Hk Sw. repeat split; cbn [buf bsize]; rewrite ?upd_length; auto.
  - now apply words_ok_upd.
  - intros p Hp. rewrite bit_of_upd by auto. destruct (p / W =? k); auto.
Qed.

Lemma has_ext s n f g : has s n f -> (forall p, p < n -> f p = g p) -> has s n g.
Proof. intros (A & B & C & D) E. repeat split; auto. intros p Hp. rewrite D by auto. auto. Qed.

Lemma word_index_ok s n f p : has s n f -> p < n -> p / W < length (buf s).
Proof. intros (A & B & _) H. rewrite B. now apply words_for_bound. Qed.

(** Bits [from, to) of [f] replaced by those of [g] from [src] on. *)
Definition fmix (f g : nat -> bool) (from to src : nat) (p : nat) : bool :=
  if (from <=? p) && (p <? to) then g (src + (p - from)) else f p.

Lemma copy_words_ok o no g to n : has o no g -> forall fuel from own sw pad s f,
  has s n f -> from = own * W -> pad < W -> from <= to -> to <= n ->
  sw * W + pad + (to - from) <= no -> to - from <= fuel ->
  exists q s', copy_words W fuel from to own sw pad (s, o)
      = Ok (from + q * W, (own + q, sw + q)) (s', o) /\
    from + q * W <= to /\ to - (from + q * W) < W /\
    has s' n (fmix f g from (from + q * W) (sw * W + pad)).
Proof.
  intros Ho fuel. induction fuel as [|fuel IH]; intros from own sw pad s f Hs Hfo Hpad H1 H2 H3 Hf.
  - exists 0, s. cbn [copy_words]. rewrite (proj2 (Nat.leb_gt _ _)) by lia.
    rewrite Nat.mul_0_l, !Nat.add_0_r. repeat split; try lia; try apply Hs.
    intros p Hp. destruct Hs as (_ & _ & _ & D). rewrite D by auto. unfold fmix.
    destruct (from <=? p) eqn:X, (p <? from) eqn:Y; auto. apply Nat.leb_le in X. apply Nat.ltb_lt in Y. lia.
  - cbn [copy_words]. destruct (W <=? to - from) eqn:E.
    + apply Nat.leb_le in E. subst from.
      pose proof Ho as (O1 & O2 & O3 & O4). pose proof Hs as (S1 & S2 & S3 & S4).
      assert (sw < length (buf o)) as Lsw.
      { pose proof (word_index_ok _ _ _ (sw * W + 0) Ho) as X. rewrite div_unique_W in X by lia. apply X. lia. }
      assert (own < length (buf s)) as Lown.
      { pose proof (word_index_ok _ _ _ (own * W + 0) Hs) as X. rewrite div_unique_W in X by lia. apply X. lia. }
      destruct (word_at o sw Lsw) as (w & Ew & Rw). pose proof (words_ok_nth _ _ _ O3 Ew) as Sw.
      erewrite bind_ok by (apply onR_ok; cbn [snd]; exact Rw). cbn [fst].
      erewrite bind_ok by (apply onL_ok; cbn [fst]; now apply set_word_at). cbn [snd].
      set (b1 := upd (buf s) own (wshr w pad)).
      assert (exists s2, (if pad =? 0 then ret tt
         else
           let* w2 := onR (word (sw + 1)) in
           let* o := onL (word own) in
           onL (set_word own (N.lor o (wshl W w2 (W - pad))))) (mkBs b1 (bsize s), o) = Ok tt (s2, o) /\
         has s2 n (fmix f g (own * W) (own * W + W) (sw * W + pad))) as (s2 & R2 & Hs2).
      { destruct (pad =? 0) eqn:P0.
        - apply Nat.eqb_eq in P0. eexists. split; [reflexivity|].
          eapply has_ext; [unfold b1; apply word_update; [exact Hs|auto|now apply small_wshr]|].
          intros p Hp. cbn beta. unfold fmix. destruct (p / W =? own) eqn:Q.
          + apply Nat.eqb_eq in Q. pose proof (mod_of_div _ _ Q). apply div_eq_range in Q.
            rewrite (proj2 (Nat.leb_le _ _)), (proj2 (Nat.ltb_lt _ _)) by lia. cbn [andb].
            rewrite wshr_tb. rewrite <- O4 by lia.
            assert ((sw * W + pad + (p - own * W)) / W = sw) as Q2 by (apply div_eq_range; lia).
            rewrite (bit_of_word _ _ _ _ Ew Q2). f_equal. rewrite (mod_of_div _ _ Q2). lia.
          + apply Nat.eqb_neq in Q. destruct (own * W <=? p) eqn:X, (p <? own * W + W) eqn:Y; auto.
            exfalso. apply Q. apply div_eq_range. apply Nat.leb_le in X. apply Nat.ltb_lt in Y. lia.
        - apply Nat.eqb_neq in P0.
          assert (sw + 1 < length (buf o)) as Lsw1.
          { pose proof (word_index_ok _ _ _ ((sw + 1) * W + 0) Ho) as X. rewrite div_unique_W in X by lia. apply X. nia. }
          destruct (word_at o (sw + 1) Lsw1) as (w2 & Ew2 & Rw2).
          erewrite bind_ok by (apply onR_ok; cbn [snd]; exact Rw2). cbn [fst].
          assert (word own (mkBs b1 (bsize s)) = Ok (wshr w pad) (mkBs b1 (bsize s))) as Ro.
          { unfold word. cbn [buf]. unfold b1. now rewrite nth_error_upd_eq. }
          erewrite bind_ok by (apply onL_ok; cbn [fst]; exact Ro). cbn [snd].
          eexists. split.
          { apply onL_ok. cbn [fst]. apply set_word_at. cbn [buf]. unfold b1. now rewrite upd_length. }
          cbn [buf bsize].
          assert (has (mkBs b1 (bsize s)) n (fun p => if p / W =? own then tb (wshr w pad) (p mod W) else f p)) as Hb1
            by (apply word_update; auto; now apply small_wshr).
          eapply has_ext; [apply (word_update _ _ _ own _ Hb1)|].
          + cbn [buf]. unfold b1. now rewrite upd_length.
          + apply small_lor; [now apply small_wshr|apply small_wshl].
          + intros p Hp. cbn beta. unfold fmix. destruct (p / W =? own) eqn:Q.
            * apply Nat.eqb_eq in Q. pose proof (mod_of_div _ _ Q) as MD. apply div_eq_range in Q.
              rewrite (proj2 (Nat.leb_le _ _)), (proj2 (Nat.ltb_lt _ _)) by lia. cbn [andb].
              rewrite N.lor_spec, wshr_tb, wshl_tb. rewrite (proj2 (Nat.ltb_lt _ _) (mod_lt_W p)). cbn [andb].
              rewrite <- O4 by lia. pose proof Sw as Sw'. rewrite small_tb in Sw'.
              destruct (W - pad <=? p mod W) eqn:X.
              -- apply Nat.leb_le in X. rewrite Sw' by lia. cbn [orb andb].
                 assert ((sw * W + pad + (p - own * W)) / W = sw + 1) as Q2 by (apply div_eq_range; nia).
                 rewrite (bit_of_word _ _ _ _ Ew2 Q2). f_equal. rewrite (mod_of_div _ _ Q2). nia.
              -- apply Nat.leb_gt in X. cbn [andb]. rewrite orb_false_r.
                 assert ((sw * W + pad + (p - own * W)) / W = sw) as Q2 by (apply div_eq_range; nia).
                 rewrite (bit_of_word _ _ _ _ Ew Q2). f_equal. rewrite (mod_of_div _ _ Q2). nia.
            * destruct (own * W <=? p) eqn:X, (p <? own * W + W) eqn:Y; auto.
              apply Nat.eqb_neq in Q. exfalso. apply Q. apply div_eq_range.
              apply Nat.leb_le in X. apply Nat.ltb_lt in Y. lia. }
      erewrite bind_ok by exact R2.
      destruct (IH (own * W + W) (own + 1) (sw + 1) pad s2 _ Hs2) as (q & s' & R & P1 & P2 & P3); try nia.
      exists (S q), s'. split; [|split; [nia|split; [nia|]]].
      * rewrite R. f_equal. f_equal; [nia|]. f_equal; lia.
      * eapply has_ext; [exact P3|]. intros p Hp. unfold fmix.
        replace (own * W + S q * W) with (own * W + W + q * W) by nia.
        destruct (own * W + W <=? p) eqn:X.
        -- apply Nat.leb_le in X. rewrite (proj2 (Nat.leb_le (own * W) p)) by lia. cbn [andb].
           destruct (p <? own * W + W + q * W); [f_equal; nia|].
           rewrite (proj2 (Nat.ltb_ge p (own * W + W))) by lia. reflexivity.
        -- apply Nat.leb_gt in X. cbn [andb]. rewrite (proj2 (Nat.ltb_lt p (own * W + W))) by lia.
           rewrite (proj2 (Nat.ltb_lt p (own * W + W + q * W))) by lia. reflexivity.
    + apply Nat.leb_gt in E. exists 0, s. rewrite Nat.mul_0_l, !Nat.add_0_r. repeat split; try lia; try apply Hs.
      intros p Hp. destruct Hs as (_ & _ & _ & D). rewrite D by auto. unfold fmix.
      destruct (from <=? p) eqn:X, (p <? from) eqn:Y; auto. apply Nat.leb_le in X. apply Nat.ltb_lt in Y. lia.
Qed.

Lemma copied_length l k from to src : from <= to -> to <= length l -> src + (to - from) <= length k ->
  length (copied l k from to src) = length l.
Proof. intros. unfold copied. len. Qed.

Lemma nth_copied l k from to src p : from <= to -> to <= length l -> src + (to - from) <= length k ->
  nth p (copied l k from to src) false = mix l k from to src p.
Proof.
  intros H1 H2 H3. unfold copied, mix. destruct (from <=? p) eqn:X.
  - apply Nat.leb_le in X. rewrite app_nth2 by len. rewrite firstn_length, Nat.min_l by lia.
    destruct (p <? to) eqn:Y; cbn [andb].
    + apply Nat.ltb_lt in Y. rewrite app_nth1 by len.
      rewrite <- (firstn_skipn (src + (to - from)) k) at 2. rewrite app_nth1 by len.
      rewrite <- (firstn_skipn src (firstn _ k)). rewrite app_nth2 by len.
      rewrite !firstn_length. rewrite skipn_firstn_comm.
      replace (src + (to - from) - src) with (to - from) by lia. f_equal. lia.
    + apply Nat.ltb_ge in Y. rewrite app_nth2 by len. rewrite firstn_length, skipn_length, Nat.min_l by lia.
      rewrite <- (firstn_skipn to l) at 2. rewrite app_nth2 by len. f_equal. len.
  - apply Nat.leb_gt in X. cbn [andb]. rewrite app_nth1 by len.
    rewrite <- (firstn_skipn from l) at 2. rewrite app_nth1 by len. reflexivity.
Qed.

(** What copy does in every case: in the last, partial, word, bits which are in the next
    word of the source come out as false. *)
Lemma copy_gen s l o k from to src : holds_bits W s l -> holds_bits W o k ->
  from <= to -> to <= length l -> src + (to - from) <= length k ->
  exists s' d, copy W from to src (s, o) = Ok tt (s', o) /\
    from + d = first_boundary W from to /\
    has s' (length l) (fun p =>
      if (from <=? p) && (p <? to) then
        if (from + d <? to) && (to - to mod W <=? p) && (W <=? (src + d) mod W + (p - (to - to mod W)))
        then false
        else nth (src + (p - from)) k false
      else nth p l false).
Proof.
  intros Hs Ho H1 H2 H3.
  destruct (copy_bits_ok o k from to src Ho W l s Hs H1 H2 H3) as (d & s1 & l1 & R1 & P1 & P2 & P3 & P4 & P5).
  { destruct (Nat.eq_dec (from mod W) 0); [now right|left; lia]. }
  assert (from + d = first_boundary W from to) as AF.
  { (* the loop stops at the first boundary: shown from the count *)
    revert R1. clear - HW P1 P2 H1 H2 H3. intros R1.
    assert (forall fuel fr sr st r, copy_bits W fuel fr to sr st = Ok r (s1, o) -> fr <= to ->
              fst r = first_boundary W fr to) as G.
    { induction fuel as [|fuel IH]; intros fr sr st r R L; cbn [copy_bits] in R; unfold bit_index in R;
        unfold first_boundary; destruct (fr mod W =? 0) eqn:E.
      - injection R as <- _. reflexivity.
      - destruct (fr =? to) eqn:T; [|discriminate]. apply Nat.eqb_eq in T. injection R as <- _. cbn [fst].
        pose proof (mod_lt_W fr). pose proof (Nat.mod_le fr W). lia.
      - injection R as <- _. reflexivity.
      - apply Nat.eqb_neq in E. destruct (fr =? to) eqn:T.
        + apply Nat.eqb_eq in T. injection R as <- _. cbn [fst].
          pose proof (mod_lt_W fr). pose proof (Nat.mod_le fr W). lia.
        + apply Nat.eqb_neq in T. unfold bind in R.
          destruct (onR (test W sr) st) as [b st1| | |]; try discriminate.
          destruct (onL (set_to W fr b) st1) as [u st2| | |]; try discriminate.
          apply IH in R; [|lia]. rewrite R. unfold first_boundary.
          pose proof (div_mod_W fr). pose proof (mod_lt_W fr).
          destruct ((fr + 1) mod W =? 0) eqn:E1.
          * apply Nat.eqb_eq in E1. destruct (Nat.eq_dec (fr mod W) (W - 1)) as [X|X]; [lia|].
            assert (fr + 1 = fr / W * W + (fr mod W + 1)) as EE by lia.
            rewrite EE, mod_unique_W in E1 by lia. lia.
          * apply Nat.eqb_neq in E1. destruct (Nat.eq_dec (fr mod W) (W - 1)) as [X|X].
            { exfalso. apply E1. assert (fr + 1 = (fr / W + 1) * W + 0) as -> by nia. apply mod_unique_W. lia. }
            assert (fr + 1 = fr / W * W + (fr mod W + 1)) as EE by lia.
            assert ((fr + 1) mod W = fr mod W + 1) as -> by (rewrite EE, mod_unique_W by lia; lia). lia. }
    apply G in R1; auto. }
  unfold copy. erewrite bind_ok by exact R1. cbn [fst snd]. unfold bit_index, word_index.
  destruct (Nat.eq_dec (from + d) to) as [ET|ET].
  - (* everything copied bit by bit *)
    assert (has s1 (length l) (fun p =>
      if (from <=? p) && (p <? to) then
        if (from + d <? to) && (to - to mod W <=? p) && (W <=? (src + d) mod W + (p - (to - to mod W)))
        then false
        else nth (src + (p - from)) k false
      else nth p l false)) as HH.
    { rewrite <- P4. eapply has_ext; [now apply has_holds|]. intros p _. cbn beta. rewrite P5. unfold mix.
      rewrite ET. rewrite Nat.ltb_irrefl. reflexivity. }
    destruct ((from + d) mod W =? 0) eqn:E; cbn [negb].
    + rewrite ET. rewrite ET in E.
      assert (forall fuel a b c, copy_words W fuel to to a b c (s1, o) = Ok (to, (a, b)) (s1, o)) as CW.
      { intros fuel a b c. destruct fuel; cbn [copy_words]; rewrite Nat.sub_diag, (proj2 (Nat.leb_gt W 0)) by lia; reflexivity. }
      erewrite bind_ok by apply CW. cbn [fst snd]. rewrite Nat.eqb_refl.
      exists s1, d. repeat split; auto; apply HH.
    + exists s1, d. repeat split; auto; apply HH.
  - assert (from + d < to) as LT by lia. specialize (P2 LT). rewrite P2. cbn [Nat.eqb negb].
    set (f1 := from + d) in *. set (sr1 := src + d) in *.
    assert (f1 = from + d) as Ef1 by reflexivity. assert (sr1 = src + d) as Es1 by reflexivity.
    clearbody f1 sr1.
    pose proof (div_mod_W f1) as D1. pose proof (div_mod_W sr1) as D2. pose proof (mod_lt_W sr1) as M2.
    pose proof (has_holds _ _ P3) as Hs1. rewrite P4 in Hs1.
    pose proof (has_holds _ _ Ho) as Ho1.
    destruct (copy_words_ok o (length k) _ to (length l) Ho1 (to - f1) f1 (f1 / W) (sr1 / W) (sr1 mod W) s1 _ Hs1)
      as (q & s2 & R2 & Q1 & Q2 & Q3); try lia.
    erewrite bind_ok by exact R2. cbn [fst snd].
    assert (sr1 / W * W + sr1 mod W = sr1) as ES by lia. rewrite ES in Q3.
    set (f2 := f1 + q * W) in *. assert (f2 = f1 + q * W) as Ef2 by reflexivity. clearbody f2. assert (f2 = (f1 / W + q) * W) as F2 by nia.
    assert (f2 mod W = 0) as F2m by (rewrite F2; replace ((f1 / W + q) * W) with ((f1 / W + q) * W + 0) by lia; apply mod_unique_W; lia).
    assert (to - to mod W = f2) as TT.
    { assert (to = (f1 / W + q) * W + (to - f2)) as -> by lia. rewrite mod_unique_W by lia. lia. }
    assert (to mod W <= to) as TL by (apply Nat.mod_le; lia).
    destruct (f2 =? to) eqn:EF.
    + apply Nat.eqb_eq in EF. exists s2, d. rewrite <- Ef1, <- Es1. split; [reflexivity|]. split; [exact AF|].
      eapply has_ext; [exact Q3|]. intros p Hp. cbn beta. unfold fmix. rewrite P5. unfold mix.
      destruct (f1 <=? p) eqn:X.
      * apply Nat.leb_le in X. rewrite (proj2 (Nat.leb_le from p)) by (lia). cbn [andb].
        rewrite EF. destruct (p <? to) eqn:Y.
        -- apply Nat.ltb_lt in Y. rewrite (proj2 (Nat.leb_gt (to - to mod W) p)) by lia.
           rewrite andb_false_r. cbn [andb]. f_equal. lia.
        -- apply Nat.ltb_ge in Y. rewrite (proj2 (Nat.ltb_ge p f1)) by lia. reflexivity.
      * apply Nat.leb_gt in X. cbn [andb]. rewrite (proj2 (Nat.ltb_lt p f1)) by lia.
        rewrite (proj2 (Nat.ltb_lt p to)) by lia. destruct (from <=? p); cbn [andb]; auto.
        rewrite (proj2 (Nat.leb_gt (to - to mod W) p)) by lia. rewrite andb_false_r. reflexivity.
    + apply Nat.eqb_neq in EF.
      pose proof Ho1 as (O1 & O2 & O3 & O4). pose proof Q3 as (U1 & U2 & U3 & U4).
      assert (sr1 / W + q < length (buf o)) as Lsw.
      { pose proof (word_index_ok _ _ _ ((sr1 / W + q) * W + sr1 mod W) Ho1) as X. rewrite div_unique_W in X by lia.
        apply X. nia. }
      assert (f1 / W + q < length (buf s2)) as Lown.
      { pose proof (word_index_ok _ _ _ ((f1 / W + q) * W + 0) Q3) as X. rewrite div_unique_W in X by lia.
        apply X. lia. }
      destruct (word_at o _ Lsw) as (w & Ew & Rw). destruct (word_at s2 _ Lown) as (ow & Eo & Ro).
      erewrite bind_ok by (apply onR_ok; cbn [snd]; exact Rw). cbn [fst].
      erewrite bind_ok by (apply onL_ok; cbn [fst]; exact Ro). cbn [snd].
      pose proof (words_ok_nth _ _ _ O3 Ew) as Sw. pose proof (words_ok_nth _ _ _ U3 Eo) as So.
      eexists. exists d. rewrite <- Ef1, <- Es1. split.
      { apply onL_ok. cbn [fst]. apply set_word_at. exact Lown. }
      split; [exact AF|].
      set (m := wtrunc W (word_mask W (to mod W) - 1)).
      assert (forall j, tb m j = (j <? to mod W)) as Hm by (intros j; apply low_mask_tb, mod_lt_W).
      eapply has_ext.
      { apply word_update; [exact Q3|exact Lown|]. apply small_lor; apply small_land; auto. now apply small_wshr. }
      intros p Hp. cbn beta. destruct (p / W =? f1 / W + q) eqn:QQ.
      * apply Nat.eqb_eq in QQ. pose proof (mod_of_div _ _ QQ) as MD. pose proof (proj1 (div_eq_range _ _) QQ) as DR.
        rewrite N.lor_spec, !N.land_spec, wshr_tb, wnot_tb, Hm.
        rewrite (proj2 (Nat.ltb_lt _ _) (mod_lt_W p)).
        rewrite <- (bit_of_word _ _ _ _ Eo QQ), U4 by auto. unfold fmix. rewrite P5. unfold mix.
        rewrite (proj2 (Nat.leb_le from p)) by (lia).
        rewrite (proj2 (Nat.leb_le f1 p)) by (lia). cbn [andb].
        rewrite (proj2 (Nat.ltb_ge p f2)) by lia. rewrite (proj2 (Nat.ltb_ge p f1)) by lia.
        rewrite TT. rewrite (proj2 (Nat.leb_le f2 p)) by lia. rewrite (proj2 (Nat.ltb_lt f1 to)) by exact LT. cbn [andb].
        destruct (p mod W <? to mod W) eqn:X.
        -- apply Nat.ltb_lt in X. rewrite (proj2 (Nat.ltb_lt p to)) by lia. cbn [xorb]. rewrite andb_true_r, andb_false_r, orb_false_r.
           destruct (W <=? sr1 mod W + (p - f2)) eqn:Y.
           ++ apply Nat.leb_le in Y. rewrite small_tb in Sw. apply Sw. lia.
           ++ apply Nat.leb_gt in Y.
              assert (src + (p - from) < length k) as Lk by lia.
              rewrite <- O4 by exact Lk.
              assert ((src + (p - from)) / W = sr1 / W + q) as Q5.
              { apply div_eq_range. nia. }
              rewrite (bit_of_word _ _ _ _ Ew Q5). f_equal. rewrite (mod_of_div _ _ Q5).
              nia.
        -- apply Nat.ltb_ge in X. rewrite (proj2 (Nat.ltb_ge p to)) by lia. cbn [xorb].
           rewrite andb_false_r, andb_true_r. reflexivity.
      * apply Nat.eqb_neq in QQ. unfold fmix. rewrite P5. unfold mix.
        destruct (f1 <=? p) eqn:X.
        -- apply Nat.leb_le in X. rewrite (proj2 (Nat.leb_le from p)) by (lia). cbn [andb].
           destruct (p <? f2) eqn:Y.
           ++ apply Nat.ltb_lt in Y. rewrite (proj2 (Nat.ltb_lt p to)) by lia.
              rewrite (proj2 (Nat.leb_gt (to - to mod W) p)) by lia. rewrite andb_false_r. cbn [andb].
              f_equal. lia.
           ++ apply Nat.ltb_ge in Y. rewrite (proj2 (Nat.ltb_ge p f1)) by lia.
              rewrite (proj2 (Nat.ltb_ge p to)); [reflexivity|].
              destruct (Nat.lt_ge_cases p to) as [G|G]; auto. exfalso. apply QQ. apply div_eq_range. lia.
        -- apply Nat.leb_gt in X. cbn [andb]. rewrite (proj2 (Nat.ltb_lt p f1)) by lia.
           rewrite (proj2 (Nat.ltb_lt p to)) by lia. destruct (from <=? p); cbn [andb]; auto.
           rewrite (proj2 (Nat.leb_gt (to - to mod W) p)) by lia. rewrite andb_false_r. reflexivity.
Qed.

Lemma has_list s n f : has s n f -> holds_bits W s (map f (seq 0 n)).
Proof.
  intros H. pose proof H as (A & B & C & D). apply holds_has with (f := f).
  - rewrite map_length, seq_length. exact H.
  - rewrite map_length, seq_length. intros p Hp.
    rewrite (nth_indep _ false (f 0)) by (rewrite map_length, seq_length; lia).
    rewrite map_nth, seq_nth by lia. reflexivity.
Qed.

Lemma copy_right s l o k from to src : holds_bits W s l -> holds_bits W o k ->
  from <= to -> to <= length l -> src + (to - from) <= length k ->
  first_boundary W from to = to \/ source_offset W from to src + to mod W <= W ->
  exists s', copy W from to src (s, o) = Ok tt (s', o) /\
    holds_bits W s' (copied l k from to src).
Proof.
  intros Hs Ho H1 H2 H3 Hc. destruct (copy_gen s l o k from to src Hs Ho H1 H2 H3) as (s' & d & R & A & Hh).
  exists s'. split; [exact R|]. eapply holds_has.
  - rewrite copied_length by auto. exact Hh.
  - rewrite copied_length by auto. intros p Hp. cbn beta. rewrite nth_copied by auto. unfold mix.
    destruct (from <=? p) eqn:X; [|reflexivity]. destruct (p <? to) eqn:Y; [|reflexivity]. cbn [andb].
    apply Nat.ltb_lt in Y. unfold source_offset in Hc. rewrite <- A in Hc.
    replace (from + d - from) with d in Hc by lia.
    destruct (from + d <? to) eqn:Z; cbn [andb]; [|reflexivity]. apply Nat.ltb_lt in Z.
    destruct (to - to mod W <=? p) eqn:U; cbn [andb]; [|reflexivity]. apply Nat.leb_le in U.
    rewrite (proj2 (Nat.leb_gt _ _)); [reflexivity|].
    assert (to mod W <= to) by (apply Nat.mod_le; lia). lia.
Qed.

Lemma copy_wrong s l o k from to src : holds_bits W s l -> holds_bits W o k ->
  from <= to -> to <= length l -> src + (to - from) <= length k ->
  first_boundary W from to < to -> W < source_offset W from to src + to mod W ->
  exists s' l', copy W from to src (s, o) = Ok tt (s', o) /\ holds_bits W s' l' /\
    length l' = length l /\
    (forall i, i < length l -> i < from \/ to <= i -> nth_error l' i = nth_error l i) /\
    (forall i, to - (source_offset W from to src + to mod W - W) <= i < to ->
       nth_error l' i = Some false) /\
    (forall i, from <= i < to - (source_offset W from to src + to mod W - W) ->
       nth_error l' i = nth_error k (src + (i - from))).
Proof.
  intros Hs Ho H1 H2 H3 Hb Hc. destruct (copy_gen s l o k from to src Hs Ho H1 H2 H3) as (s' & d & R & A & Hh).
  exists s'. eexists. split; [exact R|]. split; [exact (has_list _ _ _ Hh)|].
  split; [now rewrite map_length, seq_length|].
  unfold source_offset in *. rewrite <- A in *. replace (from + d - from) with d in * by lia.
  rewrite (proj2 (Nat.ltb_lt _ _) Hb).
  assert (to mod W <= to) as TL by (apply Nat.mod_le; lia).
  assert (forall i, i < length l -> nth_error (seq 0 (length l)) i = Some i) as SQ.
  { intros i Hi. rewrite (nth_error_nth' _ 0) by (rewrite seq_length; lia). now rewrite seq_nth by lia. }
  assert (from <= to - to mod W) as FT.
  { unfold first_boundary in A. pose proof (div_mod_W from). pose proof (div_mod_W to).
    pose proof (mod_lt_W from). pose proof (mod_lt_W to).
    assert (from / W <= to / W) by (apply Nat.div_le_mono; lia).
    destruct (from mod W =? 0) eqn:E; [apply Nat.eqb_eq in E; nia|].
    apply Nat.eqb_neq in E.
    assert (from / W < to / W); [|nia].
    destruct (Nat.eq_dec (from / W) (to / W)) as [EQ|]; [|lia]. nia. }
  pose proof (mod_lt_W to). pose proof (mod_lt_W (src + d)).
  split; [|split].
  - intros i Hi Hc2. rewrite nth_error_map, SQ by auto. cbn [option_map].
    rewrite (nth_error_nth' l false) by auto. f_equal.
    destruct Hc2 as [L|L].
    + rewrite (proj2 (Nat.leb_gt _ _)) by lia. reflexivity.
    + rewrite (proj2 (Nat.ltb_ge i to)) by lia. rewrite andb_false_r. reflexivity.
  - intros i Hi. rewrite nth_error_map, SQ by lia. cbn [option_map]. f_equal.
    rewrite (proj2 (Nat.leb_le from i)), (proj2 (Nat.ltb_lt i to)) by lia.
    rewrite (proj2 (Nat.leb_le (to - to mod W) i)) by lia.
    rewrite (proj2 (Nat.leb_le W _)) by lia. reflexivity.
  - intros i Hi. rewrite nth_error_map, SQ by lia. cbn [option_map].
    rewrite (nth_error_nth' k false) by lia. f_equal.
    rewrite (proj2 (Nat.leb_le from i)), (proj2 (Nat.ltb_lt i to)) by lia. cbn [andb].
    destruct (to - to mod W <=? i) eqn:U; [|reflexivity]. apply Nat.leb_le in U. cbn [andb].
    rewrite (proj2 (Nat.leb_gt W _)) by lia. reflexivity.
Qed.

(** * Histories *)

Definition fam (st : list bs) (cs : list (list bool)) : Prop := Forall2 (holds_bits W) st cs.

Lemma fam_nth st cs i l : fam st cs -> nth_error cs i = Some l ->
  exists s, nth_error st i = Some s /\ holds_bits W s l.
Proof.
  intros H. revert i. induction H as [|s l0 st cs R H IH]; intros [|i] E; cbn in *; try discriminate.
  - injection E as <-. eauto.
  - now apply IH.
Qed.

Lemma fam_upd st cs i s l : fam st cs -> holds_bits W s l -> fam (upd st i s) (upd cs i l).
Proof.
  intros H R. revert i. unfold fam in *. induction H as [|s0 l0 st cs R0 H IH]; intros [|i]; cbn; constructor; auto.
Qed.

Lemma bcall_ok s l o : holds_bits W s l -> bok W l o ->
  exists s', bcall W o s = Ok (snd (bstep W l o)) s' /\ holds_bits W s' (fst (bstep W l o)).
Proof.
  intros H Hok. destruct o; cbn [bok bstep fst snd bcall] in *.
  - erewrite bind_ok by (apply test_ok; eauto). eauto.
  - destruct (set_to_ok s l i true H Hok) as (s' & R & H'). cbn [set_to] in R.
    erewrite bind_ok by exact R. eauto.
  - destruct (set_to_ok s l i false H Hok) as (s' & R & H'). cbn [set_to] in R.
    erewrite bind_ok by exact R. eauto.
  - destruct (set_to_ok s l i b H Hok) as (s' & R & H'). erewrite bind_ok by exact R. eauto.
  - destruct (flip_ok s l i H Hok) as (s' & R & H'). erewrite bind_ok by exact R. eauto.
  - destruct (push_back_ok s l b H Hok) as (s' & R & H'). erewrite bind_ok by exact R. eauto.
  - destruct (resize_ok s l n H Hok) as (s' & R & H' & _). erewrite bind_ok by exact R. eauto.
  - destruct (assign_ok s words Hok) as (s' & R & H'). erewrite bind_ok by exact R. eauto.
  - rewrite bind_get. rewrite (proj1 H). eauto.
  - rewrite bind_get, (proj1 H).
    erewrite bind_ok by (apply iterate_ok; [exact H|lia|lia]). eauto.
  - erewrite bind_ok by (apply any_ok; exact H). eauto.
  - erewrite bind_ok by (apply none_ok; exact H). eauto.
Qed.

Lemma on_one_ok {A} (m : M bs A) i st cs l r l' : fam st cs -> nth_error cs i = Some l ->
  (forall s, holds_bits W s l -> exists s', m s = Ok r s' /\ holds_bits W s' l') ->
  exists st', on_one m i st = Ok r st' /\ fam st' (upd cs i l').
Proof.
  intros F E Hm. destruct (fam_nth _ _ _ _ F E) as (s & Es & Hs).
  destruct (Hm s Hs) as (s' & R & Hs'). unfold on_one. rewrite Es, R.
  eexists. split; [reflexivity|]. now apply fam_upd.
Qed.

Lemma on_pair_ok {A} (m : M (bs * bs) A) i j st cs l k r l' k' : fam st cs ->
  nth_error cs i = Some l -> nth_error cs j = Some k ->
  (forall s o, holds_bits W s l -> holds_bits W o k -> exists s' o', m (s, o) = Ok r (s', o') /\
     holds_bits W s' l' /\ holds_bits W o' k') ->
  exists st', on_pair m i j st = Ok r st' /\ fam st' (upd (upd cs i l') j k').
Proof.
  intros F E1 E2 Hm. destruct (fam_nth _ _ _ _ F E1) as (s & Es & Hs).
  destruct (fam_nth _ _ _ _ F E2) as (o & Eo & Ho).
  destruct (Hm s o Hs Ho) as (s' & o' & R & Hs' & Ho'). unfold on_pair. rewrite Es, Eo, R.
  eexists. split; [reflexivity|]. apply fam_upd; auto. now apply fam_upd.
Qed.

Lemma nth_error_lt {A} (l : list A) i : i < length l -> exists x, nth_error l i = Some x.
Proof. intros H. destruct (nth_error l i) eqn:E; eauto. apply nth_error_None in E. lia. Qed.

Lemma upd_upd_other (cs : list (list bool)) i j l k : i <> j -> nth_error cs j = Some k ->
  upd (upd cs i l) j k = upd cs i l.
Proof. intros D E. apply upd_nth_id. rewrite nth_error_upd_neq; auto. Qed.

Lemma holds_nil : holds_bits W (mkBs [] 0) [].
Proof.
  apply holds_intro; cbn [buf bsize length]; auto.
  - unfold words_for. rewrite Nat.div_small by lia. reflexivity.
  - intros w [].
  - lia.
Qed.

Lemma bsys_sim st cs o : fam st cs -> bsys_ok W cs o ->
  exists st', bsys W o st = Ok (snd (bsys_step W cs o)) st' /\ fam st' (fst (bsys_step W cs o)).
Proof.
  intros F Hok. destruct o as [i op|i n v|i j|i j|i j]; cbn [bsys bsys_ok bsys_step] in *.
  - destruct Hok as (l & E & Hl). rewrite E. destruct (bstep W l op) as (l', a) eqn:B. cbn [fst snd].
    eapply on_one_ok; eauto. intros s Hs. destruct (bcall_ok s l op Hs Hl) as (s' & R & H').
    rewrite B in *. eauto.
  - destruct Hok as (Hi & Hn & Hv). destruct (nth_error_lt _ _ Hi) as (l & E).
    eapply on_one_ok; eauto. intros s _. eexists. split; [reflexivity|]. now apply make_ok.
  - destruct Hok as (l & k & E1 & E2 & Hn & Hij). rewrite E1, E2. cbn [fst snd].
    destruct (i =? j) eqn:Q.
    + apply Nat.eqb_eq in Q. subst j. assert (k = l) as -> by congruence.
      eapply on_one_ok; eauto. intros s Hs.
      destruct (self_append_ok s l Hs Hn (Hij eq_refl)) as (s' & R & H').
      erewrite bind_ok by exact R. eauto.
    + apply Nat.eqb_neq in Q.
      destruct (on_pair_ok ((let* st := get in onL (append W (snd st))) ;;; ret BaNone) i j st cs l k BaNone (l ++ k) k F E1 E2)
        as (st' & R & F').
      { intros s o Hs Ho. destruct (append_ok s l o k Hs Ho Hn) as (s' & R & H').
        exists s', o. split; [|auto].
        assert (bind get (fun st => onL (append W (snd st))) (s, o) = Ok tt (s', o)) as RR.
        { rewrite bind_get. cbn [snd]. now apply onL_ok. }
        erewrite bind_ok by exact RR. reflexivity. }
      exists st'. split; auto. rewrite upd_upd_other in F'; auto.
  - destruct Hok as (Hi & Hj & D). destruct (nth_error_lt _ _ Hi) as (l & E1). destruct (nth_error_lt _ _ Hj) as (k & E2).
    rewrite E2. cbn [fst snd].
    destruct (on_pair_ok (copy_assign ;;; ret BaNone) i j st cs l k BaNone k k F E1 E2) as (st' & R & F').
    { intros s o Hs Ho. exists o, o. split; [reflexivity|auto]. }
    exists st'. split; auto. rewrite upd_upd_other in F'; auto.
  - destruct Hok as (Hi & Hj & D). destruct (nth_error_lt _ _ Hi) as (l & E1). destruct (nth_error_lt _ _ Hj) as (k & E2).
    rewrite E2. cbn [fst snd].
    eapply on_pair_ok; eauto. intros s o Hs Ho. eexists. eexists. split; [reflexivity|]. cbn [snd].
    split; [destruct o; exact Ho|apply holds_nil].
Qed.

Theorem brun_sim os : forall st cs, fam st cs -> bsys_along W cs os ->
  exists st', brun W st os = Some (st', snd (bsys_run W cs os)) /\ fam st' (fst (bsys_run W cs os)).
Proof.
  induction os as [|o os IH]; intros st cs F Hl; cbn [brun bsys_run bsys_along] in *.
  - exists st. auto.
  - destruct Hl as (Ho & Hl). destruct (bsys_sim st cs o F Ho) as (st1 & R & F1).
    rewrite R. destruct (bsys_step W cs o) as (cs1, a). cbn [fst snd] in *.
    destruct (IH _ _ F1 Hl) as (st2 & R2 & F2). rewrite R2.
    destruct (bsys_run W cs1 os) as (cs2, rs). cbn [fst snd] in *. eauto.
Qed.
End Proofs.
