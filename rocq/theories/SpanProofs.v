(** Proofs about the views. *)
From Coq Require Import List Arith NArith ZArith Bool Lia.
From Verif Require Import Base VecCommon SpanModel SpanSpec.
Import ListNotations.
Open Scope N_scope.

Lemma two64_eq : two64 = 18446744073709551616. Proof. reflexivity. Qed.
Lemma two63_eq : two63 = 9223372036854775808. Proof. reflexivity. Qed.
Ltac big := pose proof two64_eq; pose proof two63_eq.

(** * 64-bit arithmetic *)
Lemma wrap_small x : x < two64 -> wrap x = x.
Proof. intros. unfold wrap. now apply N.mod_small. Qed.
Lemma usub_le x y : y <= x -> x < two64 -> usub x y = x - y.
Proof.
  intros. unfold usub. replace (x + two64 - y) with (x - y + 1 * two64) by lia.
  rewrite N.mod_add by (rewrite two64_eq; lia). apply N.mod_small. lia.
Qed.
Lemma usub_gt x y : x < y -> y < two64 -> usub x y = two64 - (y - x).
Proof.
  intros. unfold usub. replace (x + two64 - y) with (two64 - (y - x)) by lia. apply N.mod_small. lia.
Qed.
Lemma signed_small x : x < two63 -> signed x = Z.of_N x.
Proof. intros H. unfold signed. now rewrite (proj2 (N.ltb_lt x two63) H). Qed.
Lemma signed_large x : two63 <= x -> signed x = (Z.of_N x - Z.of_N two64)%Z.
Proof. intros H. unfold signed. now rewrite (proj2 (N.ltb_ge x two63) H). Qed.
Lemma unsigned_pos x : x < two64 -> unsigned (Z.of_N x) = x.
Proof.
  intros. unfold unsigned. rewrite Z.mod_small by lia. apply N2Z.id.
Qed.
Lemma unsigned_neg k : 0 < k -> k <= two64 -> unsigned (- Z.of_N k) = two64 - k.
Proof.
  intros. unfold unsigned. replace (- Z.of_N k)%Z with (Z.of_N two64 - Z.of_N k + (-1) * Z.of_N two64)%Z by lia.
  rewrite Z.mod_add by (rewrite two64_eq; lia). rewrite Z.mod_small by (rewrite two64_eq in *; lia). lia.
Qed.
Lemma unsigned_signed x : x < two64 -> unsigned (signed x) = x.
Proof.
  intros. destruct (N.lt_ge_cases x two63).
  - rewrite signed_small by auto. now apply unsigned_pos.
  - rewrite signed_large by auto. replace (Z.of_N x - Z.of_N two64)%Z with (- Z.of_N (two64 - x))%Z by lia.
    rewrite unsigned_neg; big; lia.
Qed.
Lemma wrap_wrap_add a b : wrap (a + wrap b) = wrap (a + b).
Proof. unfold wrap. apply N.add_mod_idemp_r. rewrite two64_eq. lia. Qed.
Lemma usub_wrap a b : a < two64 -> b < two64 -> usub a b < two64.
Proof. intros. unfold usub. apply N.mod_lt. rewrite two64_eq. lia. Qed.

(** * Lists *)
Lemma nth_firstn_skipn {A} (l : list A) o n i :
  nth_error (firstn n (skipn o l)) i = if (i <? n)%nat then nth_error l (o + i) else None.
Proof.
  rewrite nth_error_firstn. destruct (i <? n)%nat; [|reflexivity]. apply nth_error_skipn.
Qed.

Section P.
Context {X : Type}.
Implicit Types (l : list X) (mem : N -> option X).

Lemma array_part mem a step l o n :
  array mem a step l -> (o + n <= length l)%nat ->
  array mem (a + N.of_nat o * step) step (firstn n (skipn o l)) /\
  length (firstn n (skipn o l)) = n.
Proof.
  intros [E B H P] L.
  assert (length (firstn n (skipn o l)) = n) as Len by (rewrite firstn_length, skipn_length; lia).
  split; [|exact Len]. constructor; rewrite ?Len; auto; try nia.
  intros i x Hi. rewrite nth_firstn_skipn in Hi. destruct (Nat.ltb_spec i n); [|discriminate].
  rewrite <- (E _ _ Hi). f_equal. lia.
Qed.

Lemma walk_ok mem step stp l : forall fuel p,
  0 < step -> (forall i x, nth_error l i = Some x -> mem (p + N.of_nat i * step) = Some x) ->
  p + N.of_nat (length l) * step < two64 ->
  (forall q, q + step < two64 -> stp q = q + step) ->
  (length l <= fuel)%nat ->
  walk mem stp fuel p (p + N.of_nat (length l) * step) = Some l.
Proof.
  induction l as [|x l IH]; intros fuel p P E B S F.
  - cbn [length] in *. replace (p + N.of_nat 0 * step) with p by lia. destruct fuel; cbn; now rewrite N.eqb_refl.
  - cbn [length] in *. destruct fuel as [|fuel]; [lia|]. cbn [walk].
    rewrite (proj2 (N.eqb_neq p (p + N.of_nat (Datatypes.S (length l)) * step))) by nia.
    assert (mem p = Some x) as ->.
    { specialize (E 0%nat x eq_refl). replace (p + N.of_nat 0 * step) with p in E by lia. exact E. }
    rewrite S by nia. replace (p + N.of_nat (Datatypes.S (length l)) * step) with (p + step + N.of_nat (length l) * step) by nia.
    rewrite IH; auto; try nia; try lia.
    intros i y Hi. specialize (E (Datatypes.S i) y Hi). rewrite <- E. f_equal. nia.
Qed.
Lemma rwalk_ok mem step bck l : forall fuel p,
  0 < step -> (forall i x, nth_error l i = Some x -> mem (p + N.of_nat i * step) = Some x) ->
  p + N.of_nat (length l) * step < two64 ->
  (forall q, step <= q -> q < two64 -> bck q = q - step) ->
  (length l <= fuel)%nat ->
  rwalk mem bck fuel (p + N.of_nat (length l) * step) p = Some (rev l).
Proof.
  induction l as [|x l IH] using rev_ind; intros fuel p P E B S F.
  - cbn [length] in *. replace (p + N.of_nat 0 * step) with p by lia. destruct fuel; cbn; now rewrite N.eqb_refl.
  - rewrite app_length in *. cbn [length] in *. destruct fuel as [|fuel]; [lia|]. cbn [rwalk].
    rewrite (proj2 (N.eqb_neq (p + N.of_nat (length l + 1) * step) p)) by nia.
    rewrite S by nia. replace (p + N.of_nat (length l + 1) * step - step) with (p + N.of_nat (length l) * step) by nia.
    rewrite (E (length l) x) by (rewrite nth_error_app2, Nat.sub_diag by lia; reflexivity).
    rewrite IH; auto; try nia; try lia.
    + now rewrite rev_app_distr.
    + intros i y Hi. apply E. rewrite nth_error_app1; auto. apply nth_error_Some. congruence.
Qed.

(** * span *)
Lemma padd_small sz p n : p + n * sz < two64 -> padd sz p n = p + n * sz.
Proof. intros. unfold padd. now apply wrap_small. Qed.

Lemma len_bound mem a step l : array mem a step l -> N.of_nat (length l) < two63.
Proof. intros [E B H P]. nia. Qed.

Lemma size_ok mem sz s l : shows mem sz s l -> size sz s = N.of_nat (length l).
Proof.
  intros [A E]. pose proof (len_bound _ _ _ _ A) as LB. destruct A as [_ B H P]. unfold size, pdiff. rewrite E.
  rewrite usub_le by lia. replace (m_begin s + N.of_nat (length l) * sz - m_begin s) with (N.of_nat (length l) * sz) by lia.
  rewrite signed_small by auto. rewrite N2Z.inj_mul. rewrite Z.quot_mul by lia. apply unsigned_pos. big; lia.
Qed.

Lemma span_n_shows mem sz b l n : array mem b sz l -> N.of_nat (length l) = n -> shows mem sz (span_n sz b n) l.
Proof.
  intros A <-. split; [exact A|]. cbn [m_end span_n]. destruct A. now rewrite padd_small.
Qed.

Lemma firstn_min {A} (l : list A) n : firstn n l = firstn (Nat.min n (length l)) l.
Proof.
  destruct (Nat.le_ge_cases n (length l)).
  - now rewrite Nat.min_l.
  - rewrite Nat.min_r by auto. rewrite firstn_all2 by auto. now rewrite firstn_all.
Qed.

Lemma subspan_ok mem sz s l off count : shows mem sz s l -> m_begin s + off * sz < two64 ->
  shows mem sz (subspan sz s off count) (firstn (N.to_nat count) (skipn (N.to_nat off) l)).
Proof.
  intros S O. pose proof (size_ok _ _ _ _ S) as Sz. destruct S as [A E]. pose proof A as [_ B H P].
  pose proof (len_bound _ _ _ _ A) as LB.
  unfold subspan. rewrite padd_small by auto. rewrite E, Sz.
  destruct (N.ltb_spec (m_begin s + N.of_nat (length l) * sz) (m_begin s + off * sz)) as [L|L].
  - assert (N.of_nat (length l) < off) by nia. rewrite skipn_all2 by lia. rewrite firstn_nil.
    apply span_n_shows; [|reflexivity]. constructor; cbn [length]; try (big; lia). intros [|i] x; discriminate.
  - assert (off <= N.of_nat (length l)) by nia. rewrite usub_le by (big; lia).
    set (c := if N.of_nat (length l) - off <? count then N.of_nat (length l) - off else count).
    assert (firstn (N.to_nat count) (skipn (N.to_nat off) l) = firstn (N.to_nat c) (skipn (N.to_nat off) l)) as ->.
    { rewrite firstn_min, (firstn_min _ (N.to_nat c)). f_equal. rewrite skipn_length. unfold c.
      destruct (N.ltb_spec (N.of_nat (length l) - off) count); lia. }
    assert (c <= N.of_nat (length l) - off) by (unfold c; destruct (N.ltb_spec (N.of_nat (length l) - off) count); lia).
    destruct (array_part mem (m_begin s) sz l (N.to_nat off) (N.to_nat c) A) as (A' & L'); [lia|].
    rewrite N2Nat.id in A'. apply span_n_shows; [exact A'|]. rewrite L'. lia.
Qed.

Lemma skipn_firstn_all {A} (l : list A) k : firstn (length l - k) (skipn k l) = skipn k l.
Proof. apply firstn_all2. rewrite skipn_length. lia. Qed.

Lemma cut_span_ok mem sz s l c : shows mem sz s l -> cut_ok sz s l c ->
  shows mem sz (cut_span sz s c) (cut_list l c).
Proof.
  intros S O. pose proof (size_ok _ _ _ _ S) as Sz. pose proof S as [A E]. pose proof A as [_ B H P].
  pose proof (len_bound _ _ _ _ A) as LB. destruct c; cbn [cut_ok cut_span cut_list] in *; unfold within in *.
  - now apply subspan_ok.
  - unfold first. replace (firstn (N.to_nat n) l) with (firstn (N.to_nat n) (skipn (N.to_nat 0) l)) by reflexivity.
    apply subspan_ok; auto. lia.
  - unfold last. rewrite Sz, usub_le by (big; lia).
    replace (skipn (length l - N.to_nat n) l) with (firstn (N.to_nat n) (skipn (N.to_nat (N.of_nat (length l) - n)) l)).
    + apply subspan_ok; auto. nia.
    + replace (N.to_nat (N.of_nat (length l) - n)) with (length l - N.to_nat n)%nat by lia.
      apply firstn_all2. rewrite skipn_length. lia.
  - destruct (array_part mem (m_begin s) sz l (N.to_nat n) (length l - N.to_nat n) A) as (A' & L'); [lia|].
    rewrite skipn_firstn_all, N2Nat.id in *. unfold remove_prefix. rewrite padd_small by nia.
    split; [exact A'|]. cbn [m_begin m_end]. rewrite E, L'. nia.
  - destruct (array_part mem (m_begin s) sz l 0 (length l - N.to_nat n) A) as (A' & L'); [lia|].
    cbn [skipn] in *. replace (m_begin s + N.of_nat 0 * sz) with (m_begin s) in A' by lia.
    unfold remove_suffix, psub. rewrite wrap_small by nia. rewrite E, usub_le by nia.
    split; [exact A'|]. cbn [m_begin m_end]. rewrite L'. nia.
Qed.
Lemma cut_spans_ok mem sz cs : forall s l, shows mem sz s l -> cuts_ok sz s l cs ->
  shows mem sz (fold_left (cut_span sz) cs s) (fold_left cut_list cs l).
Proof.
  induction cs as [|c cs IH]; intros s l S O; [exact S|]. destruct O as (O1 & O2). cbn [fold_left].
  apply IH; auto. now apply cut_span_ok.
Qed.

Lemma subspan_in mem sz s l off count : shows mem sz s l -> m_begin s + off * sz < two64 ->
  inside s (subspan sz s off count).
Proof.
  intros S O. pose proof (size_ok _ _ _ _ S) as Sz. destruct S as [A E]. pose proof A as [_ B H P].
  pose proof (len_bound _ _ _ _ A) as LB. unfold subspan, inside. rewrite padd_small by auto. rewrite E, Sz.
  destruct (N.ltb_spec (m_begin s + N.of_nat (length l) * sz) (m_begin s + off * sz)) as [L|L].
  - cbn [span_n m_begin m_end]. rewrite padd_small by lia. nia.
  - assert (off <= N.of_nat (length l)) by nia. rewrite usub_le by (big; lia).
    set (c := if N.of_nat (length l) - off <? count then N.of_nat (length l) - off else count).
    assert (c <= N.of_nat (length l) - off) by (unfold c; destruct (N.ltb_spec (N.of_nat (length l) - off) count); lia).
    clearbody c. cbn [span_n m_begin m_end]. rewrite padd_small by nia. nia.
Qed.
Lemma cut_span_in mem sz s l c : shows mem sz s l -> cut_ok sz s l c -> inside s (cut_span sz s c).
Proof.
  intros S O. pose proof (size_ok _ _ _ _ S) as Sz. pose proof S as [A E]. pose proof A as [_ B H P].
  pose proof (len_bound _ _ _ _ A) as LB. destruct c; cbn [cut_ok cut_span] in *; unfold within in *.
  - eapply subspan_in; eauto.
  - eapply subspan_in; eauto. lia.
  - unfold last. rewrite Sz, usub_le by (big; lia). eapply subspan_in; eauto. nia.
  - unfold remove_prefix, inside. rewrite padd_small by nia. cbn [m_begin m_end]. nia.
  - unfold remove_suffix, inside, psub. rewrite wrap_small by nia. rewrite E, usub_le by nia. cbn [m_begin m_end]. nia.
Qed.
Lemma cut_spans_in mem sz cs : forall s l, shows mem sz s l -> cuts_ok sz s l cs ->
  inside s (fold_left (cut_span sz) cs s).
Proof.
  induction cs as [|c cs IH]; intros s l S O.
  - destruct S as [_ E]. cbn [fold_left]. unfold inside. lia.
  - destruct O as (O1 & O2). cbn [fold_left]. pose proof (cut_span_in _ _ _ _ _ S O1) as I1.
    pose proof (IH _ _ (cut_span_ok _ _ _ _ _ S O1) O2) as I2. unfold inside in *. lia.
Qed.

(** * memory_view *)
Lemma array_empty mem a sz : 0 < sz -> a < two64 -> array mem a sz (@nil X).
Proof. intros. constructor; cbn [length]; try (big; lia). intros [|i] x; discriminate. Qed.

Lemma cut_mview_ok mem sz v l c : mv_shows mem sz v l -> mcut_ok l c ->
  mv_shows mem sz (cut_mview sz v c) (mcut_list l c).
Proof.
  intros [A E] O. pose proof A as [_ B H P]. pose proof (len_bound _ _ _ _ A) as LB.
  destruct c; cbn [mcut_ok cut_mview mcut_list] in *; unfold within in *.
  - unfold slice. rewrite E. destruct (N.ltb_spec (N.of_nat (length l)) off) as [L|L].
    + rewrite skipn_all2 by lia. rewrite firstn_nil. rewrite padd_small by auto. split; [|reflexivity].
      now apply array_empty.
    + rewrite usub_le by (big; lia).
      set (c := if N.of_nat (length l) - off <? count then N.of_nat (length l) - off else count).
      assert (firstn (N.to_nat count) (skipn (N.to_nat off) l) = firstn (N.to_nat c) (skipn (N.to_nat off) l)) as ->.
      { rewrite firstn_min, (firstn_min _ (N.to_nat c)). f_equal. rewrite skipn_length. unfold c.
        destruct (N.ltb_spec (N.of_nat (length l) - off) count); lia. }
      assert (c <= N.of_nat (length l) - off) by (unfold c; destruct (N.ltb_spec (N.of_nat (length l) - off) count); lia).
      destruct (array_part mem (m_ptr v) sz l (N.to_nat off) (N.to_nat c) A) as (A' & L'); [lia|].
      rewrite N2Nat.id in A'. rewrite padd_small by nia. split; [exact A'|]. cbn [m_size]. lia.
  - destruct (array_part mem (m_ptr v) sz l (N.to_nat n) (length l - N.to_nat n) A) as (A' & L'); [lia|].
    rewrite skipn_firstn_all, N2Nat.id in *. unfold mv_remove_prefix. rewrite padd_small by nia. rewrite E, usub_le by (big; lia).
    split; [exact A'|]. cbn [m_size]. lia.
  - destruct (array_part mem (m_ptr v) sz l 0 (length l - N.to_nat n) A) as (A' & L'); [lia|].
    cbn [skipn] in *. replace (m_ptr v + N.of_nat 0 * sz) with (m_ptr v) in A' by lia.
    unfold mv_remove_suffix. rewrite E, usub_le by (big; lia).
    split; [exact A'|]. cbn [m_size]. lia.
  - destruct (array_part mem (m_ptr v) sz l 0 (N.to_nat n) A) as (A' & L'); [lia|].
    cbn [skipn] in *. replace (m_ptr v + N.of_nat 0 * sz) with (m_ptr v) in A' by lia.
    unfold mv_reset_size. split; [exact A'|]. cbn [m_size]. lia.
Qed.
Lemma cut_mviews_ok mem sz cs : forall v l, mv_shows mem sz v l -> mcuts_ok l cs ->
  mv_shows mem sz (fold_left (cut_mview sz) cs v) (fold_left mcut_list cs l).
Proof.
  induction cs as [|c cs IH]; intros s l S O; [exact S|]. destruct O as (O1 & O2). cbn [fold_left].
  apply IH; auto. now apply cut_mview_ok.
Qed.

Lemma cut_mview_in mem sz v l c : mv_shows mem sz v l -> mcut_ok l c -> mv_inside sz v (cut_mview sz v c).
Proof.
  intros [A E] O. pose proof A as [_ B H P]. pose proof (len_bound _ _ _ _ A) as LB.
  destruct c; cbn [mcut_ok cut_mview] in *; unfold within, mv_inside in *.
  - unfold slice. rewrite E. destruct (N.ltb_spec (N.of_nat (length l)) off) as [L|L].
    + cbn [m_ptr m_size]. rewrite padd_small by lia. lia.
    + rewrite usub_le by (big; lia).
      set (c := if N.of_nat (length l) - off <? count then N.of_nat (length l) - off else count).
      assert (c <= N.of_nat (length l) - off) by (unfold c; destruct (N.ltb_spec (N.of_nat (length l) - off) count); lia).
      clearbody c. cbn [m_ptr m_size]. rewrite padd_small by nia. nia.
  - unfold mv_remove_prefix. cbn [m_ptr m_size]. rewrite padd_small by nia. rewrite E, usub_le by (big; lia). nia.
  - unfold mv_remove_suffix. cbn [m_ptr m_size]. rewrite E, usub_le by (big; lia). nia.
  - unfold mv_reset_size. cbn [m_ptr m_size]. rewrite E. nia.
Qed.
Lemma cut_mviews_in mem sz cs : forall v l, mv_shows mem sz v l -> mcuts_ok l cs ->
  mv_inside sz v (fold_left (cut_mview sz) cs v).
Proof.
  induction cs as [|c cs IH]; intros s l S O.
  - cbn [fold_left]. unfold mv_inside. lia.
  - destruct O as (O1 & O2). cbn [fold_left]. pose proof (cut_mview_in _ _ _ _ _ S O1) as I1.
    pose proof (IH _ _ (cut_mview_ok _ _ _ _ _ S O1) O2) as I2. unfold mv_inside in *. lia.
Qed.

(** * stride_span *)
Lemma s_sub_ok mem s l off count : s_shows mem s l -> off < two64 ->
  s_shows mem (s_subspan s off count) (firstn (N.to_nat count) (skipn (N.to_nat off) l)).
Proof.
  intros [A E] O. pose proof A as [_ B H P]. pose proof (len_bound _ _ _ _ A) as LB.
  unfold s_subspan. rewrite E. destruct (N.ltb_spec (N.of_nat (length l)) off) as [L|L].
  - rewrite skipn_all2 by lia. rewrite firstn_nil. rewrite wrap_wrap_add, wrap_small by auto. split; [|reflexivity].
    cbn [s_begin stride]. now apply array_empty.
  - rewrite usub_le by (big; lia).
    set (c := if N.of_nat (length l) - off <? count then N.of_nat (length l) - off else count).
    assert (firstn (N.to_nat count) (skipn (N.to_nat off) l) = firstn (N.to_nat c) (skipn (N.to_nat off) l)) as ->.
    { rewrite firstn_min, (firstn_min _ (N.to_nat c)). f_equal. rewrite skipn_length. unfold c.
      destruct (N.ltb_spec (N.of_nat (length l) - off) count); lia. }
    assert (c <= N.of_nat (length l) - off) by (unfold c; destruct (N.ltb_spec (N.of_nat (length l) - off) count); lia).
    destruct (array_part mem (s_begin s) (stride s) l (N.to_nat off) (N.to_nat c) A) as (A' & L'); [lia|].
    rewrite N2Nat.id in A'. rewrite wrap_wrap_add, wrap_small by nia. split; [exact A'|]. cbn [num]. lia.
Qed.
Lemma cut_sspan_ok mem s l c : s_shows mem s l -> s_cut_ok l c ->
  s_shows mem (cut_sspan s c) (cut_list l c).
Proof.
  intros S O. pose proof S as [A E]. pose proof A as [_ B H P]. pose proof (len_bound _ _ _ _ A) as LB.
  destruct c; cbn [s_cut_ok cut_sspan cut_list] in *; unfold within in *.
  - now apply s_sub_ok.
  - unfold s_first. change (firstn (N.to_nat n) l) with (firstn (N.to_nat n) (skipn (N.to_nat 0) l)).
    apply s_sub_ok; auto. rewrite two64_eq. lia.
  - unfold s_last. rewrite E, usub_le by (big; lia).
    replace (skipn (length l - N.to_nat n) l) with (firstn (N.to_nat n) (skipn (N.to_nat (N.of_nat (length l) - n)) l)).
    + apply s_sub_ok; auto. big; lia.
    + replace (N.to_nat (N.of_nat (length l) - n)) with (length l - N.to_nat n)%nat by lia.
      apply firstn_all2. rewrite skipn_length. lia.
  - destruct (array_part mem (s_begin s) (stride s) l (N.to_nat n) (length l - N.to_nat n) A) as (A' & L'); [lia|].
    rewrite skipn_firstn_all, N2Nat.id in *. unfold s_remove_prefix. rewrite wrap_wrap_add, wrap_small by nia.
    rewrite E, usub_le by (big; lia). split; [exact A'|]. cbn [num]. lia.
  - destruct (array_part mem (s_begin s) (stride s) l 0 (length l - N.to_nat n) A) as (A' & L'); [lia|].
    cbn [skipn] in *. replace (s_begin s + N.of_nat 0 * stride s) with (s_begin s) in A' by lia.
    unfold s_remove_suffix. rewrite E, usub_le by (big; lia).
    split; [exact A'|]. cbn [num]. lia.
Qed.
Lemma cut_sspans_ok mem cs : forall s l, s_shows mem s l -> s_cuts_ok l cs ->
  s_shows mem (fold_left cut_sspan cs s) (fold_left cut_list cs l).
Proof.
  induction cs as [|c cs IH]; intros s l S O; [exact S|]. destruct O as (O1 & O2). cbn [fold_left].
  apply IH; auto. now apply cut_sspan_ok.
Qed.

Lemma s_sub_in mem s l off count : s_shows mem s l -> off < two64 -> s_inside s (s_subspan s off count).
Proof.
  intros [A E] O. pose proof A as [_ B H P]. pose proof (len_bound _ _ _ _ A) as LB.
  unfold s_subspan, s_inside. rewrite E. destruct (N.ltb_spec (N.of_nat (length l)) off) as [L|L].
  - cbn [s_begin stride num]. rewrite wrap_wrap_add, wrap_small by auto. lia.
  - rewrite usub_le by (big; lia).
    set (c := if N.of_nat (length l) - off <? count then N.of_nat (length l) - off else count).
    assert (c <= N.of_nat (length l) - off) by (unfold c; destruct (N.ltb_spec (N.of_nat (length l) - off) count); lia).
    clearbody c. cbn [s_begin stride num]. rewrite wrap_wrap_add, wrap_small by nia. nia.
Qed.
Lemma cut_sspan_in mem s l c : s_shows mem s l -> s_cut_ok l c -> s_inside s (cut_sspan s c).
Proof.
  intros S O. pose proof S as [A E]. pose proof A as [_ B H P]. pose proof (len_bound _ _ _ _ A) as LB.
  destruct c; cbn [s_cut_ok cut_sspan] in *; unfold within in *.
  - eapply s_sub_in; eauto.
  - eapply s_sub_in; eauto. rewrite two64_eq. lia.
  - unfold s_last. rewrite E, usub_le by (big; lia). eapply s_sub_in; eauto. big; lia.
  - unfold s_remove_prefix, s_inside. cbn [s_begin stride num]. rewrite wrap_wrap_add, wrap_small by nia.
    rewrite E, usub_le by (big; lia). nia.
  - unfold s_remove_suffix, s_inside. cbn [s_begin stride num]. rewrite E, usub_le by (big; lia). nia.
Qed.
Lemma cut_sspans_in mem cs : forall s l, s_shows mem s l -> s_cuts_ok l cs ->
  s_inside s (fold_left cut_sspan cs s).
Proof.
  induction cs as [|c cs IH]; intros s l S O.
  - cbn [fold_left]. unfold s_inside. lia.
  - destruct O as (O1 & O2). cbn [fold_left]. pose proof (cut_sspan_in _ _ _ _ S O1) as I1.
    pose proof (IH _ _ (cut_sspan_ok _ _ _ _ S O1) O2) as I2. unfold s_inside in *.
    destruct I1 as (E1 & L1 & U1), I2 as (E2 & L2 & U2). rewrite E1 in *. lia.
Qed.

Lemma s_at_ok mem s l i x : s_shows mem s l -> nth_error l i = Some x -> s_at mem s (N.of_nat i) = Some x.
Proof.
  intros [[E B H P] _] Hi. unfold s_at. rewrite wrap_wrap_add.
  assert (i < length l)%nat by (apply nth_error_Some; congruence).
  rewrite wrap_small by nia. rewrite <- (E i x Hi). f_equal. lia.
Qed.
Lemma s_forth_ok mem s l fuel : s_shows mem s l -> (length l <= fuel)%nat -> s_forth mem s fuel = Some l.
Proof.
  intros [[E B H P] N_] F. unfold s_forth. cbn [s_begin_it s_end_it ip]. rewrite N_, wrap_wrap_add, wrap_small by auto.
  apply walk_ok; auto. intros q Q. cbn [inc ip istride]. now apply wrap_small.
Qed.
Lemma s_backwards_ok mem s l fuel : s_shows mem s l -> (length l <= fuel)%nat -> s_backwards mem s fuel = Some (rev l).
Proof.
  intros [[E B H P] N_] F. unfold s_backwards. cbn [s_begin_it s_end_it ip]. rewrite N_, wrap_wrap_add, wrap_small by auto.
  apply rwalk_ok; auto. intros q Q Q'. cbn [dec ip istride]. now apply usub_le.
Qed.

(** ** iterators: begin() + i *)

Section It.
Variables (mem : N -> option X) (s : sspan) (l : list X).
Hypothesis S : s_shows mem s l.
Let n := N.of_nat (length l).

Lemma it_ip i : i <= n -> ip (it s i) = s_begin s + i * stride s /\ istride (it s i) = stride s.
Proof.
  destruct S as [A E]. pose proof (len_bound _ _ _ _ A). destruct A as [_ B H0 P]. intros L. unfold n in *. split; [|reflexivity].
  cbn [it iadd ip s_begin_it istride]. rewrite unsigned_pos by (big; lia).
  rewrite wrap_wrap_add. apply wrap_small. nia.
Qed.
Lemma it_mk i : i <= n -> it s i = mkIter (s_begin s + i * stride s) (stride s).
Proof. intros L. destruct (it_ip i L) as (A & B). destruct (it s i). cbn in *. now subst. Qed.

Lemma it_end : it s n = s_end_it s.
Proof.
  rewrite it_mk by lia. destruct S as [[_ B H P] E]. unfold s_end_it. rewrite E, wrap_wrap_add, wrap_small by auto. reflexivity.
Qed.
Lemma it_deref i x : nth_error l i = Some x -> deref mem (it s (N.of_nat i)) = Some x.
Proof.
  intros Hi. assert (i < length l)%nat by (apply nth_error_Some; congruence).
  rewrite it_mk by (unfold n; lia). cbn [deref ip]. destruct S as [[E _ _ _] _]. now apply E.
Qed.
Lemma it_inc i : i < n -> inc (it s i) = it s (i + 1).
Proof.
  intros L. rewrite !it_mk by lia. unfold inc. cbn [ip istride]. destruct S as [[_ B H P] _]. unfold n in *. rewrite wrap_small by nia. f_equal. lia.
Qed.
Lemma it_dec i : 0 < i -> i <= n -> dec (it s i) = it s (i - 1).
Proof.
  intros L L'. rewrite !it_mk by lia. unfold dec. cbn [ip istride]. destruct S as [[_ B H P] _]. unfold n in *. rewrite usub_le by nia. f_equal. nia.
Qed.
Lemma neg_mul a k st : 0 < k -> k < two64 -> k * st <= a -> a < two64 ->
  wrap (a + wrap ((two64 - k) * st)) = a - k * st.
Proof.
  intros. rewrite wrap_wrap_add. unfold wrap. replace (a + (two64 - k) * st) with (a - k * st + st * two64) by nia.
  rewrite N.mod_add by (rewrite two64_eq; lia). apply N.mod_small. lia.
Qed.
Lemma it_add i d : i <= n -> (0 <= Z.of_N i + d <= Z.of_N n)%Z -> iadd (it s i) d = it s (Z.to_N (Z.of_N i + d)).
Proof.
  intros L D. destruct S as [A E]. pose proof (len_bound _ _ _ _ A). destruct A as [_ B H0 P].
  rewrite !it_mk by (unfold n in *; lia). unfold iadd. cbn [ip istride]. f_equal. unfold n in *.
  destruct (Z.le_gt_cases 0 d) as [D0|D0].
  - replace d with (Z.of_N (Z.to_N d)) by lia. rewrite unsigned_pos by (big; lia). rewrite wrap_wrap_add, wrap_small by nia. nia.
  - replace d with (- Z.of_N (Z.to_N (-d)))%Z by lia. rewrite unsigned_neg by (big; lia).
    rewrite neg_mul by (big; nia). nia.
Qed.
Lemma sub_pos a k st : k * st <= a -> a < two64 -> usub a (wrap (k * st)) = a - k * st.
Proof. intros. rewrite wrap_small by lia. now apply usub_le. Qed.
Lemma sub_neg a k st : 0 < k -> k < two64 -> a + k * st < two64 -> usub a (wrap ((two64 - k) * st)) = a + k * st.
Proof.
  intros K1 K2 B. destruct (N.eq_dec st 0) as [->|Nz].
  - rewrite !N.mul_0_r. cbn [wrap]. rewrite wrap_small by (rewrite two64_eq; lia). rewrite usub_le by lia. lia.
  - replace (wrap ((two64 - k) * st)) with (two64 - k * st).
    + rewrite usub_gt by nia. nia.
    + unfold wrap. replace ((two64 - k) * st) with (two64 - k * st + (st - 1) * two64) by nia.
      rewrite N.mod_add by (rewrite two64_eq; lia). symmetry. apply N.mod_small. nia.
Qed.
Lemma it_sub i d : i <= n -> (0 <= Z.of_N i - d <= Z.of_N n)%Z -> isub (it s i) d = it s (Z.to_N (Z.of_N i - d)).
Proof.
  intros L D. destruct S as [A E]. pose proof (len_bound _ _ _ _ A). destruct A as [_ B H0 P].
  rewrite !it_mk by (unfold n in *; lia). unfold isub. cbn [ip istride]. f_equal. unfold n in *.
  destruct (Z.le_gt_cases 0 d) as [D0|D0].
  - replace d with (Z.of_N (Z.to_N d)) by lia. rewrite unsigned_pos by (big; lia). rewrite sub_pos by nia. nia.
  - replace d with (- Z.of_N (Z.to_N (-d)))%Z by lia. rewrite unsigned_neg by (big; lia).
    rewrite sub_neg by (big; nia). nia.
Qed.
Lemma it_diff_pos i j : i <= n -> j <= i -> idiff (it s i) (it s j) = (Z.of_N i - Z.of_N j)%Z.
Proof.
  intros L D. destruct S as [A E]. pose proof (len_bound _ _ _ _ A). destruct A as [_ B H0 P].
  rewrite !it_mk by (unfold n in *; lia). unfold idiff. cbn [ip istride]. unfold n in *.
  rewrite usub_le by nia. replace (s_begin s + i * stride s - (s_begin s + j * stride s)) with ((i - j) * stride s) by nia.
  rewrite unsigned_signed by (big; nia). rewrite N.div_mul by lia. rewrite signed_small by lia. lia.
Qed.
Lemma it_diff_neg i j : i < j -> j <= n ->
  idiff (it s i) (it s j) = signed ((two64 - (j - i) * stride s) / stride s).
Proof.
  intros L D. destruct S as [A E]. pose proof (len_bound _ _ _ _ A). destruct A as [_ B H0 P].
  rewrite !it_mk by (unfold n in *; lia). unfold idiff. cbn [ip istride]. unfold n in *.
  rewrite usub_gt by nia. replace (s_begin s + j * stride s - (s_begin s + i * stride s)) with ((j - i) * stride s) by nia.
  rewrite unsigned_signed by (big; nia). reflexivity.
Qed.
Lemma it_lt i j : i <= n -> j <= n -> ilt (it s i) (it s j) = (i <? j).
Proof.
  intros L D. rewrite !it_mk by auto. unfold ilt. cbn [ip]. destruct S as [[_ B H P] _].
  destruct (N.ltb_spec i j); [apply N.ltb_lt|apply N.ltb_ge]; nia.
Qed.
Lemma it_le i j : i <= n -> j <= n -> ile (it s i) (it s j) = (i <=? j).
Proof.
  intros L D. rewrite !it_mk by auto. unfold ile. cbn [ip]. destruct S as [[_ B H P] _].
  destruct (N.leb_spec i j); [apply N.leb_le|apply N.leb_gt]; nia.
Qed.
Lemma it_eq i j : i <= n -> j <= n -> ieq (it s i) (it s j) = (i =? j).
Proof.
  intros L D. rewrite !it_mk by auto. unfold ieq. cbn [ip]. destruct S as [[_ B H P] _].
  destruct (N.eqb_spec i j); [apply N.eqb_eq|apply N.eqb_neq]; nia.
Qed.
End It.

(** ** every kth element *)
Lemma every_nth k l : (1 <= k)%nat -> forall o j, nth_error (every o k l) j = nth_error l (o + j * k).
Proof.
  intros K. unfold every. induction l as [|x l IH]; intros o j.
  - cbn. destruct j, (o + _)%nat; reflexivity.
  - destruct o as [|o]; cbn [every_aux].
    + destruct j as [|j]; [reflexivity|]. cbn [nth_error]. rewrite IH. replace (0 + S j * k)%nat with (S (k - 1 + j * k)) by nia. reflexivity.
    + rewrite IH. reflexivity.
Qed.
Lemma every_length k o l : (1 <= k)%nat -> (o <= length l)%nat ->
  length (every o k l) = ((length l - o + k - 1) / k)%nat.
Proof.
  intros K L. assert (forall j, (j < length (every o k l) <-> o + j * k < length l)%nat) as H.
  { intros j. rewrite <- !nth_error_Some, every_nth; tauto. }
  set (m := ((length l - o + k - 1) / k)%nat).
  assert (k * m <= length l - o + k - 1 < k * m + k)%nat as M.
  { unfold m. pose proof (Nat.div_mod (length l - o + k - 1) k ltac:(lia)). pose proof (Nat.mod_upper_bound (length l - o + k - 1) k ltac:(lia)). lia. }
  assert (forall j, (j < m <-> o + j * k < length l)%nat) as H'.
  { intros j. split; intros; nia. }
  destruct (Nat.lt_trichotomy (length (every o k l)) m) as [C|[C|C]]; [|exact C|].
  - apply H', H in C. lia.
  - apply H, H' in C. lia.
Qed.
End P.

Section Seen.
Context {X : Type}.
Implicit Types (l : list X) (mem : N -> option X).

Lemma at_ok mem sz s l i x : shows mem sz s l -> nth_error l i = Some x -> at_ mem sz s (N.of_nat i) = Some x.
Proof.
  intros [[E B H P] _] Hi. unfold at_. assert (i < length l)%nat by (apply nth_error_Some; congruence).
  rewrite padd_small by nia. now apply E.
Qed.
Lemma last_index l : length l <> 0%nat -> N.of_nat (length l) < two64 -> usub (N.of_nat (length l)) 1 = N.of_nat (length l - 1).
Proof. intros. rewrite usub_le by lia. lia. Qed.
Lemma seen_ok mem sz s l : shows mem sz s l -> seen mem sz s l.
Proof.
  intros S. pose proof (size_ok _ _ _ _ S) as Sz. pose proof S as [A E]. pose proof (len_bound _ _ _ _ A) as LB.
  pose proof A as [El B H P]. constructor.
  - exact Sz.
  - unfold empty. rewrite E, N.eqb_eq. destruct l as [|x l]; cbn [length]; split; intros; auto; try discriminate; nia.
  - intros i x. now apply at_ok.
  - intros x Hx. apply (at_ok _ _ _ _ 0%nat x S Hx).
  - intros x Hx. unfold back. rewrite Sz. unfold last_of in Hx.
    assert (length l <> 0%nat) by (destruct l; [discriminate|cbn; lia]).
    rewrite last_index by (auto; big; lia). now apply (at_ok _ _ _ l).
  - intros fuel F. unfold forth. rewrite E. apply walk_ok; auto. intros q Q. rewrite padd_small; lia.
  - intros fuel F. unfold backwards. rewrite E. apply rwalk_ok; auto. intros q Q Q'. unfold psub.
    rewrite N.mul_1_l, wrap_small by lia. now apply usub_le.
  - unfold as_bytes, size_bytes. rewrite Sz, wrap_small by (big; lia). reflexivity.
Qed.
Lemma mv_at_ok mem sz v l i x : mv_shows mem sz v l -> nth_error l i = Some x -> mv_at mem sz v (N.of_nat i) = Some x.
Proof.
  intros [[E B H P] _] Hi. unfold mv_at. assert (i < length l)%nat by (apply nth_error_Some; congruence).
  rewrite padd_small by nia. now apply E.
Qed.
Lemma mv_seen_ok mem sz v l : mv_shows mem sz v l -> mv_seen mem sz v l.
Proof.
  intros S. pose proof S as [A E]. pose proof (len_bound _ _ _ _ A) as LB.
  pose proof A as [El B H P]. constructor.
  - exact E.
  - intros i x. now apply mv_at_ok.
  - intros x Hx. unfold mv_back. rewrite E. unfold last_of in Hx.
    assert (length l <> 0%nat) by (destruct l; [discriminate|cbn; lia]).
    rewrite last_index by (auto; big; lia). now apply (mv_at_ok _ _ _ l).
  - intros fuel F. unfold mv_forth, mv_end. rewrite E, padd_small by auto. apply walk_ok; auto. intros q Q. rewrite padd_small; lia.
Qed.
Lemma s_seen_ok mem s l : s_shows mem s l -> s_seen mem s l.
Proof.
  intros S. pose proof S as [A E]. pose proof (len_bound _ _ _ _ A) as LB. constructor.
  - exact E.
  - unfold s_empty. rewrite E, N.eqb_eq. destruct l as [|x l]; cbn [length]; split; intros; auto; try discriminate; lia.
  - intros i x. now apply s_at_ok.
  - intros x Hx. apply (s_at_ok _ _ _ 0%nat x S Hx).
  - intros x Hx. unfold s_back. rewrite E. unfold last_of in Hx.
    assert (length l <> 0%nat) by (destruct l; [discriminate|cbn; lia]).
    rewrite last_index by (auto; big; lia). now apply (s_at_ok _ _ l).
  - intros fuel F. now apply s_forth_ok.
  - intros fuel F. now apply s_backwards_ok.
Qed.

(** Offsets which wrap around to before the beginning *)
Lemma subspan_before mem sz s l k count : shows mem sz s l -> 0 < k -> k < two63 -> k * sz <= m_begin s ->
  subspan sz s (two64 - k) count = span_n sz (m_begin s - k * sz) (N.min count (N.of_nat (length l) + k)).
Proof.
  intros S K1 K2 K3. pose proof (size_ok _ _ _ _ S) as Sz. destruct S as [A E]. pose proof (len_bound _ _ _ _ A) as LB.
  pose proof A as [El B H P]. unfold subspan.
  assert (padd sz (m_begin s) (two64 - k) = m_begin s - k * sz) as ->.
  { unfold padd, wrap. assert (k * sz <= two64 * sz) by (big; nia).
    replace (m_begin s + (two64 - k) * sz) with (m_begin s - k * sz + sz * two64) by (rewrite N.mul_sub_distr_r; nia).
    rewrite N.mod_add by (rewrite two64_eq; lia). apply N.mod_small. nia. }
  rewrite E, Sz. rewrite (proj2 (N.ltb_ge _ _)) by lia.
  rewrite usub_gt by (big; lia). replace (two64 - (two64 - k - N.of_nat (length l))) with (N.of_nat (length l) + k) by (big; lia).
  f_equal. destruct (N.ltb_spec (N.of_nat (length l) + k) count); lia.
Qed.

(** Strided views of arrays *)
Lemma from_array_num sz ar len o k : 1 <= k -> o <= len -> len - o + k - 1 < two64 -> len < two64 ->
  num (from_array sz ar len o k) = (len - o + k - 1) / k.
Proof.
  intros. unfold from_array. cbn [num]. rewrite usub_le by lia. f_equal.
  unfold wrap. replace (len - o + k + (two64 - 1)) with (len - o + k - 1 + 1 * two64) by (big; lia).
  rewrite N.mod_add by (rewrite two64_eq; lia). now apply N.mod_small.
Qed.
Lemma from_array_ok mem sz ar l o k : array mem ar sz l -> 1 <= k -> o <= N.of_nat (length l) ->
  ar + (N.of_nat (length l) + k) * sz < two64 -> (N.of_nat (length l) + k) * sz < two63 ->
  s_shows mem (from_array sz ar (N.of_nat (length l)) o k) (every (N.to_nat o) (N.to_nat k) l).
Proof.
  intros A K O B1 B2. pose proof (len_bound _ _ _ _ A) as LB. pose proof A as [El B H P].
  pose proof (every_length (N.to_nat k) (N.to_nat o) l ltac:(lia) ltac:(lia)) as EL.
  assert (N.of_nat (length (every (N.to_nat o) (N.to_nat k) l)) = (N.of_nat (length l) - o + k - 1) / k) as EN.
  { rewrite EL. rewrite Nat2N.inj_div. f_equal; lia. }
  assert (k <> 0) as Kz by lia.
  pose proof (N.mul_div_le (N.of_nat (length l) - o + k - 1) k Kz) as MD.
  set (m := (N.of_nat (length l) - o + k - 1) / k) in *.
  assert (padd sz ar o = ar + o * sz) as Pa by (apply padd_small; nia).
  assert (wrap (sz * k) = sz * k) as Ws by (apply wrap_small; big; nia).
  assert (m * (sz * k) <= (N.of_nat (length l) - o + k - 1) * sz) as MB by nia.
  split; [constructor|].
  - intros i x Hi. rewrite every_nth in Hi by lia. cbn [from_array s_begin stride]. rewrite Pa, Ws.
    rewrite <- (El _ _ Hi). f_equal. nia.
  - cbn [from_array s_begin stride]. rewrite Pa, Ws, EN. nia.
  - cbn [from_array s_begin stride]. rewrite Ws, EN. nia.
  - cbn [from_array stride]. rewrite Ws. nia.
  - rewrite EN. apply from_array_num; big; nia.
Qed.

(** poly_span *)
Lemma called_array {R} mem a st l (f : X -> R) : array mem a st l -> array (called mem f) a st (map f l).
Proof.
  intros [E B H P]. constructor; rewrite ?map_length; auto.
  intros i y Hi. rewrite nth_error_map in Hi. destruct (nth_error l i) as [x|] eqn:Hx; [|discriminate].
  unfold called. rewrite (E i x Hx). exact Hi.
Qed.
Lemma cut_list_map {R} (f : X -> R) l c : map f (cut_list l c) = cut_list (map f l) c.
Proof. destruct c; cbn [cut_list]; rewrite ?map_length, <- ?firstn_map, <- ?skipn_map; try reflexivity. Qed.
Lemma cuts_list_map {R} (f : X -> R) cs : forall l, map f (fold_left cut_list cs l) = fold_left cut_list cs (map f l).
Proof. induction cs as [|c cs IH]; intros l; [reflexivity|]. cbn [fold_left]. rewrite IH. now rewrite cut_list_map. Qed.
Lemma s_cuts_ok_map {R} (f : X -> R) cs : forall l, s_cuts_ok l cs -> s_cuts_ok (map f l) cs.
Proof.
  induction cs as [|c cs IH]; intros l; [auto|]. intros (A & B). split.
  - destruct c; cbn [s_cut_ok] in *; unfold within in *; now rewrite ?map_length.
  - rewrite <- cut_list_map. now apply IH.
Qed.
Lemma cuts_pspan {R} cs : forall (s : pspan X R),
  p_func (fold_left cut_pspan cs s) = p_func s /\
  p_span (fold_left cut_pspan cs s) = fold_left cut_sspan cs (p_span s).
Proof.
  induction cs as [|c cs IH]; intros s; [auto|]. cbn [fold_left].
  destruct (IH (cut_pspan s c)) as (F & S). rewrite F, S. destruct c; split; reflexivity.
Qed.
End Seen.
