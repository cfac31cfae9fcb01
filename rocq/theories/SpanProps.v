(** Theorems about the views. *)
From Coq Require Import List Arith NArith ZArith Bool Lia.
From Verif Require Import Base VecCommon SpanModel SpanSpec SpanProofs.
Import ListNotations.
Open Scope N_scope.

(** * C40: slices of span *)

(** Missing: offsets beyond the end of the address space and last of more than there is, see
    the two theorems below. *)
Theorem C40_slices_partial {X} (mem : N -> option X) (sz : N) (s : span) (l : list X) (cs : list cut) :
  shows mem sz s l -> cuts_ok sz s l cs ->
  seen mem sz (fold_left (cut_span sz) cs s) (fold_left cut_list cs l) /\
  inside s (fold_left (cut_span sz) cs s).
Proof.
  intros S C. split; [apply seen_ok; now apply cut_spans_ok|]. eapply cut_spans_in; eauto.
Qed.
Print Assumptions C40_slices_partial.

(** Five numbers of four bytes each, from address 400 on. *)
Definition demo_mem (p : N) : option N :=
  if (400 <=? p) && (p <? 420) && ((p - 400) mod 4 =? 0) then Some (10 + (p - 400) / 4) else None.
Definition demo_list : list N := [10; 11; 12; 13; 14].
Lemma demo_array : array demo_mem 400 4 demo_list.
Proof.
  constructor; cbn; try lia; try reflexivity.
  intros [|[|[|[|[|[|i]]]]]] x E; cbn in E; inversion E; reflexivity.
Qed.
Definition demo_span : span := span_n 4 400 5.
Example C40_slices_example :
  let cs := [Sub 1 100; Last 3; RemovePrefix 1; First 7; RemoveSuffix 1] in
  shows demo_mem 4 demo_span demo_list /\ cuts_ok 4 demo_span demo_list cs /\
  fold_left cut_list cs demo_list = [13] /\
  at_ demo_mem 4 (fold_left (cut_span 4) cs demo_span) 0 = Some 13.
Proof.
  repeat split; try (cbn; lia); try reflexivity; try (vm_compute; congruence); apply demo_array.
Qed.

(** operator bool: a span which was given nothing shows nothing and is false; all slices of a span
    of something are true, also the empty ones. *)
Theorem C40_null {X} (mem : N -> option X) (sz : N) :
  0 < sz -> seen mem sz span_null [] /\ has span_null = false.
Proof.
  intros P. split; [|reflexivity]. apply seen_ok. split; [|reflexivity].
  constructor; cbn; try lia; [now intros [|i] x E|reflexivity|reflexivity].
Qed.
Theorem C40_slices_not_null {X} (mem : N -> option X) (sz : N) (s : span) (l : list X) (cs : list cut) :
  shows mem sz s l -> cuts_ok sz s l cs -> has s = true -> has (fold_left (cut_span sz) cs s) = true.
Proof.
  intros S C. assert (inside s (fold_left (cut_span sz) cs s)) as (B & _) by (eapply cut_spans_in; eauto). unfold has.
  rewrite !negb_true_iff, !N.eqb_neq. lia.
Qed.
Print Assumptions C40_null.
Print Assumptions C40_slices_not_null.
Example C40_slices_not_null_example :
  shows demo_mem 4 demo_span demo_list /\ cuts_ok 4 demo_span demo_list [RemovePrefix 5] /\ has demo_span = true /\
  empty (fold_left (cut_span 4) [RemovePrefix 5] demo_span) = true.
Proof. split; [split; [exact demo_array|reflexivity]|]. split; [vm_compute; repeat split; congruence|]. split; reflexivity. Qed.

(** An offset so large that the addition wraps yields a view which begins before the
    viewed elements: [begin + offset > end] does not notice it. *)
Theorem C40_subspan_refuted {X} (mem : N -> option X) (sz : N) (s : span) (l : list X) (k count : N) :
  shows mem sz s l -> 0 < k -> k < two63 -> k * sz <= m_begin s -> 0 < count -> count <= N.of_nat (length l) + k ->
  let s' := subspan sz s (two64 - k) count in
  two64 - k > N.of_nat (length l) /\
  m_begin s' = m_begin s - k * sz /\ m_begin s' < m_begin s /\
  at_ mem sz s' 0 = mem (m_begin s - k * sz) /\
  cut_list l (Sub (two64 - k) count) = [].
Proof.
  intros S K1 K2 K3 C1 C2 s'. pose proof S as [A E]. pose proof (len_bound _ _ _ _ A) as LB.
  pose proof A as [El B H P].
  unfold s'. rewrite (subspan_before _ _ _ _ _ _ S K1 K2 K3). cbn [span_n m_begin].
  split; [big; lia|]. split; [reflexivity|]. split; [nia|]. split.
  - unfold at_. cbn [span_n m_begin]. rewrite padd_small by lia. f_equal. lia.
  - cbn [cut_list]. rewrite skipn_all2 by (big; lia). apply firstn_nil.
Qed.
Print Assumptions C40_subspan_refuted.
Example C40_subspan_example :
  shows demo_mem 4 demo_span demo_list /\
  m_begin (subspan 4 demo_span (two64 - 1) 2) = 396.
Proof. split; [split; [apply demo_array|reflexivity]|reflexivity]. Qed.

(** last of more than there is begins before the view, and has the size asked for. *)
Theorem C40_last_refuted {X} (mem : N -> option X) (sz : N) (s : span) (l : list X) (n : N) :
  shows mem sz s l -> N.of_nat (length l) < n -> n * sz < two63 -> (n - N.of_nat (length l)) * sz <= m_begin s ->
  last sz s n = mkSpan (m_begin s - (n - N.of_nat (length l)) * sz) (m_end s) /\
  size sz (last sz s n) = n /\
  cut_list l (Last n) = l.
Proof.
  intros S L N1 N2. pose proof (size_ok _ _ _ _ S) as Sz. pose proof S as [A E]. pose proof (len_bound _ _ _ _ A) as LB.
  pose proof A as [El B H P].
  assert (n < two63) as N3 by nia.
  assert (last sz s n = mkSpan (m_begin s - (n - N.of_nat (length l)) * sz) (m_end s)) as EL.
  { unfold last. rewrite Sz. rewrite usub_gt by (big; lia).
    rewrite (subspan_before _ _ _ _ _ _ S) by (big; lia).
    replace (N.min n (N.of_nat (length l) + (n - N.of_nat (length l)))) with n by lia.
    unfold span_n. f_equal. rewrite E, padd_small by nia. nia. }
  split; [exact EL|]. split.
  - rewrite EL. unfold size, pdiff. cbn [m_begin m_end]. rewrite E.
    rewrite usub_le by (auto; nia).
    replace (m_begin s + N.of_nat (length l) * sz - (m_begin s - (n - N.of_nat (length l)) * sz)) with (n * sz) by nia.
    rewrite signed_small by auto. rewrite N2Z.inj_mul, Z.quot_mul by lia. apply unsigned_pos. big; lia.
  - cbn [cut_list]. replace (length l - N.to_nat n)%nat with 0%nat by lia. reflexivity.
Qed.
Print Assumptions C40_last_refuted.
Example C40_last_example :
  last 4 demo_span 7 = mkSpan 392 420 /\ at_ demo_mem 4 (last 4 demo_span 7) 0 = None.
Proof. split; reflexivity. Qed.

(** * C41: iterators of strided views *)

(** Missing: the difference of an iterator and a later one, see the theorem below. [it s i] is
    begin() + i; positions are those of the elements and the end. *)
Theorem C41_iterators_partial {X} (mem : N -> option X) (s : sspan) (l : list X) (i j : N) :
  s_shows mem s l -> i <= N.of_nat (length l) -> j <= N.of_nat (length l) ->
  it s 0 = s_begin_it s /\ it s (N.of_nat (length l)) = s_end_it s /\
  (i < N.of_nat (length l) -> deref mem (it s i) = nth_error l (N.to_nat i) /\ inc (it s i) = it s (i + 1)) /\
  (0 < i -> dec (it s i) = it s (i - 1)) /\
  iadd (it s i) (Z.of_N j - Z.of_N i) = it s j /\
  isub (it s i) (Z.of_N i - Z.of_N j) = it s j /\
  ieq (it s i) (it s j) = (i =? j) /\
  ilt (it s i) (it s j) = (i <? j) /\
  ile (it s i) (it s j) = (i <=? j) /\
  (j <= i -> idiff (it s i) (it s j) = (Z.of_N i - Z.of_N j)%Z).
Proof.
  intros S I J. split; [|split; [|split; [|split; [|split; [|split; [|split; [|split; [|split]]]]]]]].
  - rewrite (it_mk mem s l S) by lia. unfold s_begin_it. f_equal. lia.
  - apply (it_end mem s l S).
  - intros L. split.
    + destruct (nth_error l (N.to_nat i)) as [x|] eqn:Hx.
      * rewrite <- (N2Nat.id i). now apply (it_deref mem s l S).
      * apply nth_error_None in Hx. lia.
    + now apply (it_inc mem s l S).
  - intros L. now apply (it_dec mem s l S).
  - rewrite (it_add mem s l S) by lia. f_equal. lia.
  - rewrite (it_sub mem s l S) by lia. f_equal. lia.
  - now apply (it_eq mem s l S).
  - now apply (it_lt mem s l S).
  - now apply (it_le mem s l S).
  - intros L. now apply (it_diff_pos mem s l S).
Qed.
Print Assumptions C41_iterators_partial.

(** Every second of the numbers. *)
Definition demo_sspan : sspan := from_array 4 400 5 0 2.
Lemma demo_sshows : s_shows demo_mem demo_sspan [10; 12; 14].
Proof.
  split; [|reflexivity]. constructor; cbn; try lia; try reflexivity.
  intros [|[|[|[|i]]]] x E; cbn in E; inversion E; reflexivity.
Qed.
Example C41_iterators_example :
  s_shows demo_mem demo_sspan [10; 12; 14] /\
  deref demo_mem (inc (it demo_sspan 0)) = Some 12 /\ idiff (it demo_sspan 2) (it demo_sspan 0) = 2%Z.
Proof. split; [exact demo_sshows|]. split; reflexivity. Qed.

(** The same for every pair of iterators when the stride is one byte. *)
Theorem C41_one_byte_partial {X} (mem : N -> option X) (s : sspan) (l : list X) (i j : N) :
  s_shows mem s l -> stride s = 1 -> i <= N.of_nat (length l) -> j <= N.of_nat (length l) ->
  idiff (it s i) (it s j) = (Z.of_N i - Z.of_N j)%Z.
Proof.
  intros S S1 I J. pose proof S as [A _]. pose proof (len_bound _ _ _ _ A) as LB.
  destruct (N.le_gt_cases j i) as [L|L]; [now apply (it_diff_pos mem s l S)|].
  rewrite (it_diff_neg mem s l S) by auto. rewrite S1, N.mul_1_r, N.div_1_r.
  rewrite signed_large by (big; lia). big; lia.
Qed.
Print Assumptions C41_one_byte_partial.
Example C41_one_byte_example :
  let m p := if p <? 20 then Some p else None in
  s_shows m (mkSspan 5 1 3) [5; 6; 7] /\ idiff (it (mkSspan 5 1 3) 0) (it (mkSspan 5 1 3) 2) = (-2)%Z.
Proof.
  cbv zeta. split; [|reflexivity]. split; [|reflexivity]. constructor; cbn; try lia; try reflexivity.
  intros [|[|[|[|i]]]] x E; cbn in E; inversion E; reflexivity.
Qed.

(** The difference of an iterator and a later one is a large positive number: the
    negative distance is divided by a size_t. *)
Theorem C41_difference_refuted {X} (mem : N -> option X) (s : sspan) (l : list X) (i j : N) :
  s_shows mem s l -> 2 <= stride s -> i < j -> j <= N.of_nat (length l) ->
  idiff (it s i) (it s j) = (Z.of_N (two64 / stride s) - (Z.of_N j - Z.of_N i))%Z /\
  idiff (it s i) (it s j) <> (Z.of_N i - Z.of_N j)%Z.
Proof.
  intros S S2 L J. pose proof S as [A _]. pose proof (len_bound _ _ _ _ A) as LB. destruct A as [_ B H P].
  rewrite (it_diff_neg mem s l S) by auto.
  assert (j - i <= two64 / stride s) as Q by (apply N.div_le_lower_bound; [lia|]; big; nia).
  assert ((two64 - (j - i) * stride s) / stride s = two64 / stride s - (j - i)) as ->.
  { assert (two64 - (j - i) * stride s + (j - i) * stride s = two64) as W by (big; nia).
    replace (two64 / stride s) with ((two64 - (j - i) * stride s + (j - i) * stride s) / stride s) by now rewrite W.
    rewrite N.div_add by lia. now rewrite N.add_sub. }
  assert (two64 / stride s <= two63) as Q2 by (apply N.div_le_upper_bound; [lia|]; big; nia).
  rewrite signed_small by (big; lia).
  assert (0 < two64 / stride s) by (apply N.div_str_pos; big; nia). lia.
Qed.
Print Assumptions C41_difference_refuted.
Example C41_difference_example :
  idiff (it demo_sspan 0) (it demo_sspan 1) = 2305843009213693951%Z.
Proof. reflexivity. Qed.

(** * C42: what strided views show *)

(** Missing: strides for which the computation of the count or of the stride in bytes
    wraps, see below. *)
Theorem C42_from_array_partial {X} (mem : N -> option X) (sz ar : N) (l : list X) (o k : N) :
  array mem ar sz l -> 1 <= k -> o <= N.of_nat (length l) ->
  ar + (N.of_nat (length l) + k) * sz < two64 -> (N.of_nat (length l) + k) * sz < two63 ->
  s_seen mem (from_array sz ar (N.of_nat (length l)) o k) (every (N.to_nat o) (N.to_nat k) l) /\
  forall i, nth_error (every (N.to_nat o) (N.to_nat k) l) i = nth_error l (N.to_nat o + i * N.to_nat k).
Proof.
  intros A K O B1 B2. split; [apply s_seen_ok; now apply from_array_ok|].
  intros i. rewrite every_nth by lia. f_equal.
Qed.
Print Assumptions C42_from_array_partial.
Example C42_from_array_example :
  array demo_mem 400 4 demo_list /\ every 1 3 demo_list = [11; 14] /\
  s_forth demo_mem (from_array 4 400 5 1 3) 2 = Some [11; 14].
Proof. split; [exact demo_array|]. split; reflexivity. Qed.

(** Missing: last of more than there is. *)
Theorem C42_slices_partial {X} (mem : N -> option X) (s : sspan) (l : list X) (cs : list cut) :
  s_shows mem s l -> s_cuts_ok l cs ->
  s_seen mem (fold_left cut_sspan cs s) (fold_left cut_list cs l) /\
  s_inside s (fold_left cut_sspan cs s).
Proof.
  intros S C. split; [apply s_seen_ok; now apply cut_sspans_ok|]. eapply cut_sspans_in; eauto.
Qed.
Print Assumptions C42_slices_partial.
Example C42_slices_example :
  let cs := [Sub 1 100; Last 1] in
  s_shows demo_mem demo_sspan [10; 12; 14] /\ s_cuts_ok [10; 12; 14] cs /\
  fold_left cut_list cs [10; 12; 14] = [14] /\
  s_at demo_mem (fold_left cut_sspan cs demo_sspan) 0 = Some 14.
Proof.
  cbv zeta. split; [exact demo_sshows|]. split; [|split; reflexivity]. vm_compute. repeat split; congruence.
Qed.

(** The view of a member, or base, [off] bytes into each of the objects of [ssz] bytes:
    [l] are those members, in the order of the objects. *)
Theorem C42_member_view {X} (mem : N -> option X) (ar ssz off : N) (l : list X) :
  (forall i x, nth_error l i = Some x -> mem (ar + N.of_nat i * ssz + off) = Some x) ->
  off < ssz -> N.of_nat (length l) * ssz + ssz < two63 -> ar + N.of_nat (length l) * ssz + ssz < two64 ->
  s_seen mem (member_view ar (N.of_nat (length l)) ssz off) l.
Proof.
  intros E O H B. apply s_seen_ok. split; [|reflexivity]. unfold member_view.
  constructor; cbn [s_begin stride]; rewrite ?wrap_small by lia; try lia.
  intros i x Hi. rewrite <- (E i x Hi). f_equal. lia.
Qed.
Print Assumptions C42_member_view.
Example C42_member_view_example :
  let m p := if p mod 12 =? 8 then Some p else None in
  s_forth m (member_view 120 3 12 8) 3 = Some [128; 140; 152].
Proof. reflexivity. Qed.

(** make_stride_span_from_buf: [n] elements, the first [off] bytes into the buffer, [st] bytes
    from one to the next. *)
Theorem C42_from_buf {X} (mem : N -> option X) (buf off st : N) (l : list X) :
  (forall i x, nth_error l i = Some x -> mem (buf + off + N.of_nat i * st) = Some x) ->
  0 < st -> N.of_nat (length l) * st < two63 -> buf + off + N.of_nat (length l) * st < two64 ->
  s_seen mem (from_buf buf off st (N.of_nat (length l))) l.
Proof.
  intros E P H B. apply s_seen_ok. split; [|reflexivity]. unfold from_buf.
  constructor; cbn [s_begin stride]; rewrite ?wrap_small by lia; try lia. exact E.
Qed.
Print Assumptions C42_from_buf.
Example C42_from_buf_example :
  let m p := if p mod 12 =? 8 then Some p else None in
  s_forth m (from_buf 120 20 24 2) 2 = Some [140; 164].
Proof. reflexivity. Qed.

(** A stride so large that adding it to the number of elements wraps: the view is empty though
    the element at the offset exists. *)
Theorem C42_huge_stride_refuted {X} (mem : N -> option X) (sz ar : N) (l : list X) (o k : N) (x : X) :
  array mem ar sz l -> nth_error l (N.to_nat o) = Some x -> k < two64 ->
  two64 <= N.of_nat (length l) - o + k - 1 ->
  num (from_array sz ar (N.of_nat (length l)) o k) = 0 /\
  every (N.to_nat o) (N.to_nat k) l = [x].
Proof.
  intros A Hx K W. pose proof (len_bound _ _ _ _ A) as LB.
  assert (N.to_nat o < length l)%nat as O by (apply nth_error_Some; congruence). split.
  - unfold from_array. cbn [num]. rewrite usub_le by (big; lia).
    apply N.div_small. unfold wrap.
    replace (N.of_nat (length l) - o + k + (two64 - 1)) with (N.of_nat (length l) - o + k - 1 - two64 + 2 * two64) by (big; lia).
    rewrite N.mod_add by (rewrite two64_eq; lia). rewrite N.mod_small; big; lia.
  - assert (length (every (N.to_nat o) (N.to_nat k) l) = 1)%nat as EL.
    { rewrite every_length by (big; lia). symmetry. apply (Nat.div_unique _ _ _ (length l - N.to_nat o - 1)); big; lia. }
    assert (1 <= N.to_nat k)%nat as K1 by (big; lia).
    pose proof (every_nth (N.to_nat k) l K1 (N.to_nat o) 0) as E0.
    rewrite Nat.mul_0_l, Nat.add_0_r, Hx in E0.
    destruct (every (N.to_nat o) (N.to_nat k) l) as [|y [|z t]]; try discriminate EL.
    cbn [nth_error] in E0. congruence.
Qed.
Print Assumptions C42_huge_stride_refuted.
Example C42_huge_stride_example :
  array demo_mem 400 4 demo_list /\ num (from_array 4 400 5 0 (two64 - 1)) = 0.
Proof. split; [exact demo_array|reflexivity]. Qed.

(** A stride whose number of bytes wraps to zero: the view has one element, but
    begin() == end(), so iteration shows none. *)
Theorem C42_zero_stride_refuted {X} (mem : N -> option X) (sz ar : N) (l : list X) (o k : N) (x : X) :
  array mem ar sz l -> nth_error l (N.to_nat o) = Some x ->
  N.of_nat (length l) - o <= k -> N.of_nat (length l) - o + k - 1 < two64 -> wrap (sz * k) = 0 ->
  let s := from_array sz ar (N.of_nat (length l)) o k in
  num s = 1 /\ s_at mem s 0 = Some x /\ forall fuel, s_forth mem s fuel = Some [].
Proof.
  intros A Hx K W Z s. pose proof (len_bound _ _ _ _ A) as LB. pose proof A as [El B H P].
  assert (N.to_nat o < length l)%nat as O by (apply nth_error_Some; congruence).
  assert (stride s = 0) as S0 by exact Z.
  assert (s_begin s = ar + o * sz) as SB by (cbn [s from_array s_begin]; apply padd_small; nia).
  split; [|split].
  - unfold s. rewrite from_array_num by (big; lia). symmetry. apply (N.div_unique _ _ _ (N.of_nat (length l) - o - 1)); lia.
  - unfold s_at. rewrite S0, SB, N.mul_0_l. cbn [wrap]. rewrite (wrap_small 0) by (big; lia). rewrite N.add_0_r, wrap_small by nia.
    rewrite <- (El _ _ Hx). now rewrite N2Nat.id.
  - intros fuel. unfold s_forth, s_end_it, s_begin_it. cbn [ip]. rewrite S0, N.mul_0_r, (wrap_small 0) by (big; lia).
    rewrite N.add_0_r, wrap_small by nia. destruct fuel; cbn [walk]; now rewrite N.eqb_refl.
Qed.
Print Assumptions C42_zero_stride_refuted.
Example C42_zero_stride_example :
  s_at demo_mem (from_array 4 400 5 1 (2 ^ 62)) 0 = Some 11 /\
  s_forth demo_mem (from_array 4 400 5 1 (2 ^ 62)) 9 = Some [].
Proof. split; reflexivity. Qed.

(** last of more than there is shows nothing (span.hpp instead reaches before the
    beginning, see C40). *)
Theorem C42_last_refuted {X} (mem : N -> option X) (s : sspan) (l : list X) (n : N) :
  s_shows mem s l -> N.of_nat (length l) < n -> n < two63 ->
  num (s_last s n) = 0 /\ cut_list l (Last n) = l.
Proof.
  intros [A E] L N1. pose proof (len_bound _ _ _ _ A) as LB. split.
  - unfold s_last, s_subspan. rewrite E, usub_gt by (big; lia).
    rewrite (proj2 (N.ltb_lt _ _)) by (big; lia). reflexivity.
  - cbn [cut_list]. replace (length l - N.to_nat n)%nat with 0%nat by lia. reflexivity.
Qed.
Print Assumptions C42_last_refuted.
Example C42_last_example :
  s_shows demo_mem demo_sspan [10; 12; 14] /\ s_forth demo_mem (s_last demo_sspan 4) 9 = Some [].
Proof. split; [exact demo_sshows|reflexivity]. Qed.

(** poly_span shows the results of its function. Missing: as for stride_span. *)
Theorem C42_poly_span_partial {X R} (mem : N -> option X) (f : X -> R) (b usz : N) (l : list X) (cs : list cut) :
  array mem b usz l -> s_cuts_ok l cs ->
  let s := fold_left cut_pspan cs (p_of_array b usz (N.of_nat (length l)) f) in
  let l' := fold_left cut_list cs l in
  (forall i x, nth_error l' i = Some x -> p_at mem s (N.of_nat i) = Some (f x)) /\
  (forall x, last_of l' = Some x -> p_back mem s = Some (f x)) /\
  (forall fuel, (length l' <= fuel)%nat -> p_forth mem s fuel = Some (map f l')) /\
  num (p_span s) = N.of_nat (length l').
Proof.
  intros A C s l'. destruct (cuts_pspan cs (p_of_array b usz (N.of_nat (length l)) f)) as (PF & PS).
  fold s in PF, PS. cbn [p_of_array p_func p_span] in PF, PS.
  assert (s_seen (called mem f) (p_span s) (map f l')) as [Sz Em At Fr Ba Fo Bw].
  { apply s_seen_ok. rewrite PS. unfold l'. rewrite cuts_list_map. apply cut_sspans_ok; [|now apply s_cuts_ok_map].
    split; [|cbn [num]; now rewrite map_length]. now apply called_array. }
  rewrite map_length in *. unfold p_at, p_back, p_forth. rewrite PF. split; [|split; [|split]].
  - intros i x Hx. apply At. rewrite nth_error_map, Hx. reflexivity.
  - intros x Hx. apply Ba. unfold last_of in *. rewrite map_length, nth_error_map, Hx. reflexivity.
  - exact Fo.
  - exact Sz.
Qed.
Print Assumptions C42_poly_span_partial.
Example C42_poly_span_example :
  let s := p_of_array 400 4 5 (fun x => x * x) in
  array demo_mem 400 4 demo_list /\ p_forth demo_mem (fold_left cut_pspan [RemovePrefix 1; First 2] s) 9 = Some [121; 144].
Proof. split; [exact demo_array|reflexivity]. Qed.

(** * C43: memory_view *)
Theorem C43_memory_view {X} (mem : N -> option X) (sz p : N) (l : list X) (cs : list mcut) :
  array mem p sz l -> mcuts_ok l cs ->
  let v := make_view p (N.of_nat (length l)) in
  mv_seen mem sz (fold_left (cut_mview sz) cs v) (fold_left mcut_list cs l) /\
  mv_inside sz v (fold_left (cut_mview sz) cs v).
Proof.
  intros A C v. assert (mv_shows mem sz v l) as S by (split; [exact A|reflexivity]).
  split; [apply mv_seen_ok; now apply cut_mviews_ok|]. eapply cut_mviews_in; eauto.
Qed.
Print Assumptions C43_memory_view.
Example C43_memory_view_example :
  let cs := [MSlice 1 100; MPrefix 1; MSuffix 1; MReset 1; MSlice 77 1] in
  array demo_mem 400 4 demo_list /\ mcuts_ok demo_list cs /\
  fold_left mcut_list (firstn 3 cs) demo_list = [12; 13] /\
  mv_forth demo_mem 4 (fold_left (cut_mview 4) (firstn 3 cs) (make_view 400 5)) 9 = Some [12; 13].
Proof.
  split; [exact demo_array|]. split; [|split; reflexivity]. vm_compute. repeat split; congruence.
Qed.

Theorem C43_make_memory_view {X} (mem : N -> option X) (sz p : N) (l : list X) (off : N) :
  array mem p sz l -> off <= N.of_nat (length l) ->
  mv_seen mem sz (make_view_of sz p (N.of_nat (length l)) off) (skipn (N.to_nat off) l).
Proof.
  intros A O. apply mv_seen_ok. exact (cut_mview_ok mem sz (make_view p (N.of_nat (length l))) l (MPrefix off) (conj A eq_refl) O).
Qed.
Print Assumptions C43_make_memory_view.
Example C43_make_memory_view_example :
  array demo_mem 400 4 demo_list /\ mv_forth demo_mem 4 (make_view_of 4 400 5 3) 9 = Some [13; 14].
Proof. split; [exact demo_array|reflexivity]. Qed.
