(** Proofs about the pod_vector model. *)
From Coq Require Import List Arith NArith ZArith Bool Lia.
From Verif Require Import Base SeqSpec VecCommon SmallVectorModel SmallVectorProofs
  PodVectorModel PodVectorSpec.
Import ListNotations.

Lemma bind_inv {S R Q} (f : M S R) (g : R -> M S Q) s q s' : bind f g s = Ok q s' ->
  exists r s1, f s = Ok r s1 /\ g r s1 = Ok q s'.
Proof. unfold bind. destruct (f s) as [r s1| | |]; try discriminate. eauto. Qed.

Lemma concat_length_elems T (xs : list (list N)) :
  Forall (is_elem T) xs -> length (concat xs) = length xs * esz T.
Proof.
  induction 1 as [|x xs Hx _ IH]; [reflexivity|]. cbn. rewrite app_length, IH, Hx. lia.
Qed.

Lemma firstn_concat T (xs : list (list N)) n :
  Forall (is_elem T) xs -> firstn (n * esz T) (concat xs) = concat (firstn n xs).
Proof.
  intros H. revert n. induction H as [|x xs Hx _ IH]; intros [|n]; cbn; auto using firstn_nil.
   rewrite firstn_app, Hx. rewrite firstn_all2 by (rewrite Hx; lia).
    f_equal. replace (esz T + n * esz T - esz T) with (n * esz T) by lia. apply IH.
Qed.

Lemma skipn_concat T (xs : list (list N)) n :
  Forall (is_elem T) xs -> skipn (n * esz T) (concat xs) = concat (skipn n xs).
Proof.
  intros H. revert n. induction H as [|x xs Hx _ IH]; intros [|n]; cbn; auto using skipn_nil.
   rewrite skipn_app, Hx. rewrite skipn_all2 by (rewrite Hx; lia).
    replace (esz T + n * esz T - esz T) with (n * esz T) by lia. apply IH.
Qed.

Lemma concat_repeat_len (v : list N) n : length (concat (repeat v n)) = n * length v.
Proof. induction n as [|n IH]; cbn; [reflexivity|]. rewrite app_length, IH. lia. Qed.

Lemma pow2_divide a b : a <= b -> (exists k, a = 2 ^ k) -> (exists k, b = 2 ^ k) -> Nat.divide a b.
Proof.
  intros H [i ->] [j ->].
  assert (i <= j) as Hij.
  { apply (Nat.pow_le_mono_r_iff 2); lia. }
  exists (2 ^ (j - i)). rewrite <- Nat.pow_add_r. f_equal. lia.
Qed.

Lemma to_nat_mul a b : N.to_nat (a * N.of_nat b) = N.to_nat a * b.
Proof. lia. Qed.

(** Cutting bytes in elements. *)
Lemma cut_elems T k : forall l, length l = k * esz T ->
  exists xs, Forall (is_elem T) xs /\ length xs = k /\ concat xs = l.
Proof.
  induction k as [|k IH]; intros l Hl.
  - destruct l; [|cbn in Hl; lia]. exists []. repeat split; constructor.
  - destruct (IH (skipn (esz T) l)) as (xs & H1 & H2 & H3).
    { rewrite skipn_length. lia. }
    exists (firstn (esz T) l :: xs). split; [|split].
    + constructor; auto. unfold is_elem. rewrite firstn_length. lia.
    + cbn. lia.
    + cbn. rewrite H3. apply firstn_skipn.
Qed.

Lemma chunks_concat T (xs : list (list N)) :
  Forall (is_elem T) xs -> chunks T (length xs) (concat xs) = xs.
Proof.
  induction 1 as [|x xs Hx _ IH]; [reflexivity|]. cbn.
  rewrite firstn_app, skipn_app, Hx, Nat.sub_diag. cbn.
  rewrite firstn_all2, skipn_all2 by (rewrite Hx; lia). cbn. rewrite app_nil_r. now f_equal.
Qed.

(** ** Reading and writing *)

Lemma read_bytes_at bs k v b o a (P X S : list N) n :
  nth_error bs b = Some (MBlk a (P ++ X ++ S)) -> length P = o -> length X = n ->
  read_bytes (Some (b, o)) n (mkMem bs k, v) = Ok X (mkMem bs k, v).
Proof.
  intros H Ho Hn. unfold read_bytes. cbn [fst snd blks]. rewrite H.
  replace (o + n <=? length (P ++ X ++ S)) with true
    by (symmetry; apply Nat.leb_le; rewrite !app_length; lia).
  do 2 f_equal. rewrite skipn_app, skipn_all2 by lia. cbn.
  replace (o - length P) with 0 by lia. cbn.
  rewrite firstn_app, firstn_all2 by lia. replace (n - length X) with 0 by lia. cbn. apply app_nil_r.
Qed.

Lemma write_bytes_at bs k v b o a (P X S l : list N) :
  nth_error bs b = Some (MBlk a (P ++ X ++ S)) -> length P = o -> length X = length l ->
  write_bytes (Some (b, o)) l (mkMem bs k, v) =
  Ok tt (mkMem (upd bs b (MBlk a (P ++ l ++ S))) k, v).
Proof.
  intros H Ho Hn. unfold write_bytes. cbn [fst snd blks ncall]. rewrite H.
  replace (o + length l <=? length (P ++ X ++ S)) with true
    by (symmetry; apply Nat.leb_le; rewrite !app_length; lia).
  do 5 f_equal. unfold splice. rewrite firstn_app, firstn_all2 by lia.
  replace (o - length P) with 0 by lia. cbn. rewrite app_nil_r. do 2 f_equal.
  rewrite skipn_app, skipn_all2 by lia. cbn. rewrite skipn_app, skipn_all2 by lia. cbn.
  replace (o + length l - length P - length X) with 0 by lia. reflexivity.
Qed.

Lemma padd_at bs k v b o a (bytes : list N) n :
  nth_error bs b = Some (MBlk a bytes) -> (N.of_nat o + n <= N.of_nat (length bytes))%N ->
  padd (Some (b, o)) n (mkMem bs k, v) = Ok (Some (b, o + N.to_nat n)) (mkMem bs k, v).
Proof.
  intros H Hn. unfold padd. cbn [fst blks]. rewrite H.
  now replace (N.of_nat o + n <=? N.of_nat (length bytes))%N with true
    by (symmetry; now apply N.leb_le).
Qed.

(** The blocks apart from the one a vector uses stay; what it gave up is freed. *)
Definition frame (bs : list mblk) (v : pv) (bs' : list mblk) (v' : pv) : Prop :=
  length bs <= length bs' /\
  (forall j, j < length bs -> owner v <> Some j ->
     nth_error bs' j = nth_error bs j /\ owner v' <> Some j) /\
  (forall j, j < length bs' -> owner v' <> Some j -> length bs <= j \/ owner v = Some j ->
     exists a, nth_error bs' j = Some (MFreed a)).

Lemma frame_refl bs v v' : owner v' = owner v -> frame bs v bs v'.
Proof.
  intros E. split; [lia|]. split.
  - intros j Hj Ho. rewrite E. auto.
  - intros j Hj Ho [H|H]; [lia|congruence].
Qed.

Lemma frame_trans b1 v1 b2 v2 b3 v3 :
  frame b1 v1 b2 v2 -> frame b2 v2 b3 v3 -> frame b1 v1 b3 v3.
Proof.
  intros (L1 & K1 & F1) (L2 & K2 & F2). split; [lia|]. split.
  - intros j Hj Ho. destruct (K1 j Hj Ho) as [E1 O1].
    destruct (K2 j ltac:(lia) O1) as [E2 O2]. split; [congruence|auto].
  - intros j Hj Ho Hc.
    destruct (Nat.le_gt_cases (length b2) j) as [Hge|Hlt]; [apply F2; auto|].
    destruct (owner v2) as [j2|] eqn:E2.
    + destruct (Nat.eq_dec j2 j) as [->|Hne].
      * apply F2; auto.
      * destruct (F1 j Hlt ltac:(congruence) Hc) as [a Ha]. exists a.
        destruct (K2 j Hlt ltac:(congruence)) as [E _]. congruence.
    + destruct (F1 j Hlt ltac:(congruence) Hc) as [a Ha]. exists a.
      destruct (K2 j Hlt ltac:(congruence)) as [E _]. congruence.
Qed.

(** Rewriting the vector's own block. *)
Lemma frame_upd bs v v' b x :
  owner v = Some b -> owner v' = Some b -> frame bs v (upd bs b x) v'.
Proof.
  intros E E'. split; [rewrite upd_length; lia|]. split.
  - intros j Hj Ho. split; [|congruence]. apply nth_error_upd_neq. congruence.
  - intros j Hj Ho [H|H]; [rewrite upd_length in Hj; lia|congruence].
Qed.

Section Pod.
Variable A : alc.
Variable T : ety.
Hypothesis HT : ety_ok T.
Hypothesis HA : alc_ok A.

Notation SZ := (esz T).
Notation AL := (eal T).
Notation buf := (buf A T).
Notation header := (header A T).
Notation holds := (pod_holds A T).
Notation room := (room T).

Lemma sz_pos : 1 <= SZ.
Proof. exact (proj1 HT). Qed.
Lemma al_pos : 1 <= AL <= 128.
Proof.
  destruct HT as (_ & k & E & H). split; [|exact H]. rewrite E.
  pose proof (Nat.pow_nonzero 2 k). lia.
Qed.

Lemma room_lt n c : room n -> (c <= N.of_nat n + N.of_nat n / 2)%N ->
  (c * N.of_nat SZ + N.of_nat AL < two63)%N.
Proof.
  unfold PodVectorSpec.room. intros H Hc.
  pose proof (N.mul_le_mono_r _ _ (N.of_nat SZ) Hc). lia.
Qed.

Lemma room_self n : room n -> (N.of_nat n * N.of_nat SZ + N.of_nat AL < two63)%N.
Proof.
  intros H. apply (room_lt n); auto. pose proof (N.le_0_l (N.of_nat n / 2)). lia.
Qed.

Lemma room_small n : room n -> (3 * N.of_nat n <= two64 - 1)%N.
Proof.
  unfold PodVectorSpec.room. intros H. pose proof sz_pos as S.
  assert (N.of_nat n + N.of_nat n / 2 < two63)%N as K.
  { pose proof (N.mul_le_mono_l 1 (N.of_nat SZ) (N.of_nat n + N.of_nat n / 2) ltac:(lia)). lia. }
  pose proof (N.div_mod (N.of_nat n) 2 ltac:(lia)).
  pose proof (N.mod_lt (N.of_nat n) 2 ltac:(lia)).
  unfold two63, two64 in *.
  set (q := (N.of_nat n / 2)%N) in *. set (r := (N.of_nat n mod 2)%N) in *. clearbody q r. lia.
Qed.

Lemma e2b_small c : (c * N.of_nat SZ < two64)%N -> e2b T c = (c * N.of_nat SZ)%N.
Proof. intros H. unfold e2b. now apply N.mod_small. Qed.

Lemma junk_length k a n : length (junk A k a n) = n.
Proof. unfold junk. now rewrite map_length, seq_length. Qed.

Lemma a_malloc_spec bs k v c :
  (c * N.of_nat SZ + N.of_nat AL < two63)%N ->
  exists a pre bytes k',
    a_malloc A T c (mkMem bs k, v) =
      Ok (Some (length bs, length pre)) (mkMem (bs ++ [MBlk a (pre ++ bytes)]) k', v) /\
    header a pre /\ N.to_nat c * SZ <= length bytes.
Proof.
  intros Hc. pose proof al_pos as Hal. unfold a_malloc, header, PodVectorSpec.header.
  destruct (allocator_aligned A T) eqn:Eal.
  - unfold alloc_malloc. cbn [fst snd blks ncall].
    rewrite e2b_small by (unfold two63, two64 in *; lia).
    destruct HA as (Hpow & Hs).
    destruct (Hs k (c * N.of_nat SZ)%N ltac:(lia)) as (a & Ea & Hm). rewrite Ea.
    exists a, [], (junk A k 0 (N.to_nat (c * N.of_nat SZ))), (S k).
    split; [reflexivity|]. split; [|rewrite junk_length; lia].
    split; [split; [reflexivity|exact Hm]|]. cbn. rewrite N.add_0_r.
    unfold allocator_aligned in Eal. apply Nat.leb_le in Eal.
    destruct (pow2_divide AL (a_align A) Eal) as [q Hq].
    { destruct HT as (_ & i & ? & _). eauto. } { exact Hpow. }
    assert (a_align A <> 0) as Hnz.
    { destruct Hpow as [i ->]. apply Nat.pow_nonzero. lia. }
    apply N.mod_divide; [lia|]. apply N.mod_divide in Hm; [|lia].
    destruct Hm as [z ->]. exists (z * N.of_nat q)%N. lia.
  - unfold bind at 1. unfold alloc_malloc. cbn [fst snd blks ncall].
    rewrite e2b_small by (unfold two63, two64 in *; lia).
    rewrite (N.mod_small (c * N.of_nat SZ + N.of_nat AL)) by (unfold two63, two64 in *; lia).
    destruct HA as (Hpow & Hs).
    destruct (Hs k (c * N.of_nat SZ + N.of_nat AL)%N ltac:(lia)) as (a & Ea & _). rewrite Ea.
    unfold align_ptr. unfold bind at 1, get. cbn [fst addr_of blks].
    rewrite nth_error_app2 by lia. rewrite Nat.sub_diag. cbn [nth_error].
    rewrite N.add_0_r.
    pose proof (N.mod_lt a (N.of_nat AL) ltac:(lia)) as Hlt.
    set (off := N.to_nat (N.of_nat AL - a mod N.of_nat AL)).
    assert (1 <= off <= AL) as Hoff.
    { unfold off. clear - Hlt Hal. set (r := (a mod N.of_nat AL)%N) in *. clearbody r. lia. }
    assert (a mod N.of_nat AL + N.of_nat off = N.of_nat AL)%N as Hoff2.
    { unfold off. clear - Hlt Hal. set (r := (a mod N.of_nat AL)%N) in *. clearbody r. lia. }
    clearbody off.
    set (all := junk A k 0 (N.to_nat (c * N.of_nat SZ + N.of_nat AL))).
    assert (length all = N.to_nat c * SZ + AL) as Hlen by (unfold all; rewrite junk_length; lia).
    assert (nth_error (bs ++ [MBlk a all]) (length bs) = Some (MBlk a all)) as Hn.
    { now apply nth_error_app_mid. }
    exists a, (firstn (off - 1) all ++ [N.of_nat off]).
    assert (length (firstn (off - 1) all ++ [N.of_nat off]) = off) as Hpl.
    { rewrite app_length, firstn_length. cbn. lia. }
    exists (skipn off all), (S k). rewrite Hpl. split; [|split; [|rewrite skipn_length; lia]].
    + erewrite bind_ok by (eapply padd_at; [exact Hn|lia]).
      replace (0 + off - 1) with (off - 1) by lia.
      erewrite bind_ok.
      2:{ eapply (write_bytes_at _ _ _ _ _ _ (firstn (off - 1) all)
             (firstn 1 (skipn (off - 1) all)) (skipn off all)).
          - rewrite Hn. do 2 f_equal.
            rewrite <- (firstn_skipn (off - 1) all) at 1. f_equal.
            rewrite <- (firstn_skipn 1 (skipn (off - 1) all)) at 1. f_equal.
            rewrite skipn_skipn'. f_equal. lia.
          - rewrite firstn_length. lia.
          - rewrite firstn_length, skipn_length. cbn [length]. lia. }
      unfold ret. f_equal; [do 2 f_equal; lia|]. f_equal. f_equal.
      rewrite upd_app_mid by reflexivity. rewrite N.mod_small by lia.
      now rewrite <- app_assoc.
    + split; [split; [destruct (a_has_expand A); lia|]|].
      * eexists. reflexivity.
      * pose proof (N.div_mod a (N.of_nat AL) ltac:(lia)) as E.
        apply N.mod_divide; [lia|]. exists (a / N.of_nat AL + 1)%N.
        set (r := (a mod N.of_nat AL)%N) in *. set (q := (a / N.of_nat AL)%N) in *.
        clearbody r q. lia.
Qed.

Lemma real_addr_spec bs k v w bytes b o :
  buf bs v bytes -> pb v = Some (b, o) ->
  real_addr A T (pb v) (mkMem bs k, w) = Ok (Some (b, 0)) (mkMem bs k, w).
Proof.
  unfold PodVectorSpec.buf. intros H E. rewrite E in *. destruct H as (a & pre & Hn & -> & Hh & _).
  unfold real_addr. destruct (allocator_aligned A T).
  - destruct Hh as (-> & _). reflexivity.
  - destruct Hh as (Hl & pad & Ep). pose proof (f_equal (@length N) Ep) as Hlen.
    rewrite app_length in Hlen. cbn in Hlen.
    destruct (length pre) as [|o] eqn:El; [lia|].
    erewrite bind_ok.
    2:{ eapply (read_bytes_at _ _ _ _ _ a pad [N.of_nat (S o)] bytes); [|lia|reflexivity].
        rewrite Hn, Ep. now rewrite <- app_assoc. }
    cbv beta iota zeta. replace (N.to_nat (N.of_nat (S o))) with (S o) by lia. rewrite Nat.leb_refl, Nat.sub_diag. reflexivity.
Qed.

Lemma a_free_spec bs k v bytes :
  buf bs v bytes ->
  exists bs', a_free_begin A T (mkMem bs k, v) = Ok tt (mkMem bs' k, v) /\
    length bs' = length bs /\
    (forall j, owner v <> Some j -> nth_error bs' j = nth_error bs j) /\
    (forall j, owner v = Some j -> exists a, nth_error bs' j = Some (MFreed a)).
Proof.
  intros H. unfold a_free_begin. unfold bind at 1, mbegin. cbn [snd].
  assert (exists bs', (let* p := real_addr A T (pb v) in alloc_free p) (mkMem bs k, v) = Ok tt (mkMem bs' k, v)
    /\ length bs' = length bs /\
    (forall j, owner v <> Some j -> nth_error bs' j = nth_error bs j) /\
    (forall j, owner v = Some j -> exists a, nth_error bs' j = Some (MFreed a))) as K.
  { unfold owner. destruct (pb v) as [[b o]|] eqn:E.
    - rewrite <- E. erewrite bind_ok by (eapply real_addr_spec; eauto).
      unfold PodVectorSpec.buf in H. rewrite E in H. destruct H as (a & pre & Hn & _).
      unfold alloc_free. cbn [fst snd blks ncall]. rewrite Hn.
      exists (upd bs b (MFreed a)). split; [reflexivity|]. split; [apply upd_length|]. split.
      + intros j Hj. apply nth_error_upd_neq. congruence.
      + intros j [= ->]. exists a. apply nth_error_upd_eq. eapply nth_lt; eauto.
    - exists bs. unfold real_addr. destruct (allocator_aligned A T);
        (split; [reflexivity|split; [reflexivity|split; [reflexivity|discriminate]]]). }
  destruct (allocator_aligned A T) eqn:Eal; [|exact K].
  unfold real_addr in K. rewrite Eal in K. exact K.
Qed.

Lemma owner_lt bs v bytes j : buf bs v bytes -> owner v = Some j -> j < length bs.
Proof.
  unfold PodVectorSpec.buf, owner. destruct (pb v) as [[b o]|]; [|discriminate].
  intros (a & pre & Hn & _) [= ->]. eapply nth_lt; eauto.
Qed.

(** Going over to a new block, the old one being freed. *)
Lemma replaced bs v bs' v' a pre bytes bytes' :
  buf bs v bytes ->
  length bs' = S (length bs) ->
  (forall j, j < length bs -> owner v <> Some j -> nth_error bs' j = nth_error bs j) ->
  (forall j, owner v = Some j -> exists a, nth_error bs' j = Some (MFreed a)) ->
  nth_error bs' (length bs) = Some (MBlk a (pre ++ bytes')) ->
  header a pre ->
  pb v' = Some (length bs, length pre) ->
  frame bs v bs' v' /\ buf bs' v' bytes'.
Proof.
  intros Hb HL HK HF Hn Hh Ep.
  assert (owner v' = Some (length bs)) as Eo by (unfold owner; now rewrite Ep).
  split.
  - split; [lia|]. split.
    + intros j Hj Ho. split; [auto|]. rewrite Eo. intros [= <-]. lia.
    + intros j Hj Ho [Hc|Hc]; [|auto].
      exfalso. apply Ho. rewrite Eo. f_equal. lia.
  - unfold PodVectorSpec.buf. rewrite Ep. eauto.
Qed.

Lemma buf_app bs v bytes x : buf bs v bytes -> buf (bs ++ [x]) v bytes.
Proof.
  unfold PodVectorSpec.buf. destruct (pb v) as [[b o]|]; [|auto].
  intros (a & pre & Hn & H). exists a, pre. split; [|exact H].
  rewrite nth_error_app1; [exact Hn|]. eapply nth_lt; eauto.
Qed.

Lemma buf_pb bs v w bytes : pb w = pb v -> buf bs v bytes -> buf bs w bytes.
Proof. unfold PodVectorSpec.buf. now intros ->. Qed.

Lemma owner_pb v w : pb w = pb v -> owner w = owner v.
Proof. unfold owner. now intros ->. Qed.

Lemma free_after_malloc bs k v bytes a pre bytes' e c :
  buf bs v bytes -> header a pre ->
  exists bs',
    a_free_begin A T (mkMem (bs ++ [MBlk a (pre ++ bytes')]) k, v) = Ok tt (mkMem bs' k, v) /\
    frame bs v bs' (mkPv (Some (length bs, length pre)) e c) /\
    buf bs' (mkPv (Some (length bs, length pre)) e c) bytes'.
Proof.
  intros Hb Hh.
  destruct (a_free_spec (bs ++ [MBlk a (pre ++ bytes')]) k v bytes) as (bs' & E & L & K & F).
  { now apply buf_app. }
  exists bs'. split; [exact E|]. eapply replaced; eauto.
  - rewrite L, app_length. cbn. lia.
  - intros j Hj Ho. rewrite K by auto. now rewrite nth_error_app1.
  - rewrite K.
    + now apply nth_error_app_mid.
    + intros Eo. apply (owner_lt bs v bytes) in Eo; auto. lia.
Qed.

(** Copying between different blocks. *)
Lemma memcpy_at bs k v b o a b2 o2 a2 (P X S P2 X2 S2 : list N) n :
  b <> b2 ->
  nth_error bs b = Some (MBlk a (P ++ X ++ S)) -> length P = o -> length X = N.to_nat n ->
  nth_error bs b2 = Some (MBlk a2 (P2 ++ X2 ++ S2)) -> length P2 = o2 -> length X2 = N.to_nat n ->
  memcpy (Some (b, o)) (Some (b2, o2)) n (mkMem bs k, v) =
  Ok tt (mkMem (upd bs b (MBlk a (P ++ X2 ++ S))) k, v).
Proof.
  intros Hne H1 L1 L2 H2 L3 L4. unfold memcpy, overlap.
  rewrite (proj2 (Nat.eqb_neq b b2) Hne). cbn [andb].
  unfold memmove. erewrite bind_ok by (eapply read_bytes_at; eauto).
  eapply write_bytes_at; eauto. lia.
Qed.

Lemma psize_spec m v n : pe v = after_begin v (n * SZ) -> (pb v = None -> n = 0) ->
  psize T (m, v) = Ok n (m, v).
Proof.
  intros E Hn. pose proof sz_pos. unfold psize, after_begin in *. cbn [snd].
  destruct (pb v) as [[b o]|]; rewrite E.
  - rewrite Nat.eqb_refl. replace (o <=? o + n * SZ) with true by (symmetry; apply Nat.leb_le; lia).
    cbn. replace (o + n * SZ - o) with (n * SZ) by lia. now rewrite Nat.div_mul by lia.
  - now rewrite Hn.
Qed.

(** Four ways to change the capacity; all keep the first [s] elements, where [s] is size(). *)
Definition grown bs (v : pv) (bytes : list N) (s c : nat) bs' (v' : pv) : Prop :=
  exists bytes',
    pe v' = pe v /\ pcap v' = c /\ pb v' <> None /\ frame bs v bs' v' /\ buf bs' v' bytes' /\
    firstn (s * SZ) bytes' = firstn (s * SZ) bytes /\ c * SZ <= length bytes'.

Lemma copied_prefix (bytes nb : list N) s :
  s <= length bytes -> firstn s (firstn s bytes ++ skipn s nb) = firstn s bytes.
Proof.
  intros H. rewrite firstn_app, firstn_length, Nat.min_l by lia. rewrite Nat.sub_diag. cbn.
  rewrite app_nil_r. rewrite firstn_firstn. now rewrite Nat.min_id.
Qed.

(** memcpy of the first [s] elements to a new block *)
Lemma copy_to_new bs k v bytes a pre nb s p :
  buf bs v bytes -> s * SZ <= length bytes -> s * SZ <= length nb ->
  (N.of_nat s * N.of_nat SZ < two64)%N -> pb v = Some p ->
  memcpy (Some (length bs, length pre)) (pb v) (e2b T (N.of_nat s))
    (mkMem (bs ++ [MBlk a (pre ++ nb)]) k, v) =
  Ok tt (mkMem (bs ++ [MBlk a (pre ++ firstn (s * SZ) bytes ++ skipn (s * SZ) nb)]) k, v).
Proof.
  intros Hb Hs Hnb Hc Hp.
  unfold PodVectorSpec.buf in Hb. rewrite Hp in *. destruct p as [b o].
  destruct Hb as (a2 & pre2 & Hn2 & -> & _).
  rewrite e2b_small by exact Hc.
  pose proof (nth_lt _ _ _ Hn2).
  erewrite (memcpy_at _ _ _ _ _ a _ _ a2 pre (firstn (s * SZ) nb) (skipn (s * SZ) nb)
     pre2 (firstn (s * SZ) bytes) (skipn (s * SZ) bytes)); try reflexivity.
  - now rewrite upd_app_mid.
  - lia.
  - rewrite firstn_skipn. now apply nth_error_app_mid.
  - rewrite firstn_length. lia.
  - rewrite nth_error_app1 by lia. now rewrite firstn_skipn.
  - rewrite firstn_length. lia.
Qed.

Lemma not_null bs v bytes s : buf bs v bytes -> s * SZ <= length bytes -> s <> 0 ->
  exists p, pb v = Some p.
Proof.
  intros Hb Hs H0. destruct (pb v) as [p|] eqn:E; [eauto|].
  unfold PodVectorSpec.buf in Hb. rewrite E in Hb. subst bytes. cbn in Hs.
  pose proof sz_pos. nia.
Qed.

Lemma malloc_copy_spec bs k v bytes s c :
  buf bs v bytes -> s * SZ <= length bytes ->
  pe v = after_begin v (s * SZ) ->
  (N.of_nat s <= c)%N -> (c * N.of_nat SZ + N.of_nat AL < two63)%N ->
  exists bs' k' v',
    malloc_copy A T c s (mkMem bs k, v) = Ok tt (mkMem bs' k', v') /\
    grown bs v bytes s (N.to_nat c) bs' v'.
Proof.
  intros Hb Hs He Hsc Hc. unfold malloc_copy.
  destruct (a_malloc_spec bs k v c Hc) as (a & pre & nb & k' & E & Hh & Hl).
  erewrite bind_ok by exact E. unfold mbegin at 1. unfold bind at 1. cbn [snd].
  assert (s * SZ <= N.to_nat c * SZ) as Hle by (apply Nat.mul_le_mono_r; lia).
  assert (((if s =? 0 then ret tt
    else let* n := psize T in
         memcpy (Some (length bs, length pre)) (pb v) (e2b T (N.of_nat n)))
       (mkMem (bs ++ [MBlk a (pre ++ nb)]) k', v)) =
      Ok tt (mkMem (bs ++ [MBlk a (pre ++ firstn (s * SZ) bytes ++ skipn (s * SZ) nb)]) k', v)) as Hcopy.
  { destruct (Nat.eqb_spec s 0) as [->|Hs0]; [reflexivity|].
    destruct (not_null _ _ _ _ Hb Hs Hs0) as [p Ep].
    erewrite bind_ok by (apply psize_spec; [exact He|congruence]).
    eapply copy_to_new; eauto; try lia. unfold two63, two64 in *; nia. }
  erewrite bind_ok by exact Hcopy.
  destruct (free_after_malloc bs k' v bytes a pre (firstn (s * SZ) bytes ++ skipn (s * SZ) nb)
    (pe v) (N.to_nat c) Hb Hh) as (bs' & Ef & Hfr & Hbuf).
  erewrite bind_ok by exact Ef.
  exists bs', k', (mkPv (Some (length bs, length pre)) (pe v) (N.to_nat c)).
  split; [reflexivity|].
  exists (firstn (s * SZ) bytes ++ skipn (s * SZ) nb). cbn [pe pb pcap].
  split; [reflexivity|]. split; [reflexivity|]. split; [discriminate|].
  split; [exact Hfr|]. split; [exact Hbuf|]. split.
  - now apply copied_prefix.
  - rewrite app_length, firstn_length, skipn_length. lia.
Qed.

Lemma fresh_spec bs k v c :
  pb v = None -> (c * N.of_nat SZ + N.of_nat AL < two63)%N ->
  exists bs' k' v',
    (let* p := a_malloc A T c in set_begin p ;;; set_cap (N.to_nat c)) (mkMem bs k, v) =
      Ok tt (mkMem bs' k', v') /\
    grown bs v [] 0 (N.to_nat c) bs' v'.
Proof.
  intros Hp Hc. destruct (a_malloc_spec bs k v c Hc) as (a & pre & nb & k' & E & Hh & Hl).
  erewrite bind_ok by exact E.
  eexists _, k', _. split; [reflexivity|]. exists nb. cbn [pe pb pcap snd].
  split; [reflexivity|]. split; [reflexivity|]. split; [discriminate|].
  assert (buf bs v []) as Hb by (unfold PodVectorSpec.buf; now rewrite Hp).
  destruct (replaced bs v (bs ++ [MBlk a (pre ++ nb)])
    (mkPv (Some (length bs, length pre)) (pe v) (N.to_nat c)) a pre [] nb) as (Hf & Hbuf).
  - exact Hb.
  - rewrite app_length. cbn. lia.
  - intros j Hj _. now apply nth_error_app1.
  - unfold owner. rewrite Hp. discriminate.
  - now apply nth_error_app_mid.
  - exact Hh.
  - reflexivity.
  - split; [exact Hf|]. split; [exact Hbuf|]. split; [reflexivity|exact Hl].
Qed.

Lemma realloc_spec bs k v bytes s c :
  buf bs v bytes -> s * SZ <= length bytes ->
  pe v = after_begin v (s * SZ) ->
  (N.of_nat s <= c)%N -> (c * N.of_nat SZ + N.of_nat AL < two63)%N ->
  exists bs' k' v',
    a_realloc_begin A T c (mkMem bs k, v) = Ok tt (mkMem bs' k', v') /\
    grown bs v bytes s (N.to_nat c) bs' v'.
Proof.
  intros Hb Hs He Hsc Hc. unfold a_realloc_begin. unfold mbegin at 1. unfold bind at 1. cbn [snd].
  assert (s * SZ <= N.to_nat c * SZ) as Hle by (apply Nat.mul_le_mono_r; lia).
  destruct (pb v) as [[b o]|] eqn:Ep.
  2:{ (* nothing yet *)
    assert (bytes = [] /\ s = 0) as (-> & ->).
    { unfold PodVectorSpec.buf in Hb. rewrite Ep in Hb. subst. cbn in Hs. pose proof sz_pos. split; [auto|nia]. }
    destruct (fresh_spec bs k v c Ep Hc) as (bs' & k' & v' & E & G).
    exists bs', k', v'. split; [|exact G]. unfold a_malloc in *.
    destruct (allocator_aligned A T); rewrite bind_assoc; exact E. }
  destruct (allocator_aligned A T) eqn:Eal.
  - unfold PodVectorSpec.buf in Hb. rewrite Ep in Hb. destruct Hb as (a0 & pre & Hn & -> & Hh).
    pose proof Hh as Hh2. unfold PodVectorSpec.header in Hh2. rewrite Eal in Hh2. destruct Hh2 as ((-> & Hal0) & _).
    cbn [length app] in *.
    unfold alloc_realloc. unfold bind at 2. unfold bind at 1. cbn [fst snd blks ncall].
    rewrite Hn. rewrite e2b_small by (unfold two63, two64 in *; lia).
    pose proof HA as (_ & HS). destruct (HS k (c * N.of_nat SZ)%N ltac:(lia)) as (a & Ea & Hm). rewrite Ea.
    set (nb := firstn _ bytes ++ _).
    exists (upd bs b (MFreed a0) ++ [MBlk a nb]), (S k), (mkPv (Some (length bs, 0)) (pe v) (N.to_nat c)).
    split; [reflexivity|]. exists nb. cbn [pe pb pcap].
    split; [reflexivity|]. split; [reflexivity|]. split; [discriminate|].
    destruct (replaced bs v (upd bs b (MFreed a0) ++ [MBlk a nb])
       (mkPv (Some (length bs, 0)) (pe v) (N.to_nat c)) a [] bytes nb) as (Hf & Hbuf).
    + unfold PodVectorSpec.buf. rewrite Ep. exists a0, []. auto.
    + rewrite app_length, upd_length. cbn. lia.
    + intros j Hj Ho. rewrite nth_error_app1 by (rewrite upd_length; lia).
      apply nth_error_upd_neq. unfold owner in Ho. rewrite Ep in Ho. congruence.
    + intros j Ho. unfold owner in Ho. rewrite Ep in Ho. injection Ho as <-.
      pose proof (nth_lt _ _ _ Hn). exists a0.
      rewrite nth_error_app1 by (rewrite upd_length; lia). now apply nth_error_upd_eq.
    + apply nth_error_app_mid. now rewrite upd_length.
    + unfold PodVectorSpec.header. rewrite Eal. split; [split; [reflexivity|exact Hm]|]. cbn. rewrite N.add_0_r.
      destruct (a_malloc_spec [] k v c Hc) as (a' & pre' & nb' & k' & E & Hh' & Hl').
      unfold a_malloc in E. rewrite Eal in E. unfold alloc_malloc in E. cbn [fst snd ncall] in E.
      rewrite e2b_small, Ea in E by (unfold two63, two64 in *; lia).
      unfold PodVectorSpec.header in Hh'. rewrite Eal in Hh'. destruct Hh' as ((-> & _) & Hmod).
      injection E as Ea' _. subst a'. cbn in Hmod. now rewrite N.add_0_r in Hmod.
    + reflexivity.
    + split; [exact Hf|]. split; [exact Hbuf|].
      assert (N.to_nat (c * N.of_nat SZ) = N.to_nat c * SZ) as Et by lia.
      split.
      * unfold nb. rewrite Et. rewrite firstn_app, firstn_firstn, Nat.min_l by lia.
        rewrite firstn_length. replace (s * SZ - Nat.min (N.to_nat c * SZ) (length bytes)) with 0 by lia.
        cbn. apply app_nil_r.
      * unfold nb. rewrite app_length, firstn_length, junk_length. lia.
  - rewrite bind_assoc.
    destruct (a_malloc_spec bs k v c Hc) as (a & pre & nb & k' & E & Hh & Hl).
    erewrite bind_ok by exact E. rewrite bind_assoc.
    destruct (free_after_malloc bs k' v bytes a pre (firstn (s * SZ) bytes ++ skipn (s * SZ) nb)
      (pe v) (N.to_nat c) Hb Hh) as (bs' & Ef & Hfr & Hbuf).
    exists bs', k', (mkPv (Some (length bs, length pre)) (pe v) (N.to_nat c)).
    split.
    + match goal with |- bind ?m _ ?st = _ => assert (m st = Ok tt (mkMem bs' k', v)) as Hm end.
      { erewrite bind_ok by (apply (psize_spec _ _ s); [exact He|congruence]).
        rewrite <- Ep.
        erewrite bind_ok by (eapply (copy_to_new _ _ _ bytes); eauto; try lia; unfold two63, two64 in *; nia).
        exact Ef. }
      erewrite bind_ok by exact Hm. reflexivity.
    + exists (firstn (s * SZ) bytes ++ skipn (s * SZ) nb). cbn [pe pb pcap].
      split; [reflexivity|]. split; [reflexivity|]. split; [discriminate|].
      split; [exact Hfr|]. split; [exact Hbuf|]. split; [now apply copied_prefix|].
      rewrite app_length, firstn_length, skipn_length. lia.
Qed.

Lemma expand_spec bs k v bytes s c :
  buf bs v bytes -> s * SZ <= length bytes ->
  (N.of_nat s <= c)%N -> (c * N.of_nat SZ + N.of_nat AL < two63)%N -> pb v <> None ->
  a_has_expand A = true ->
  exists ok bs' k' v',
    a_expand_begin A T c (mkMem bs k, v) = Ok ok (mkMem bs' k', v') /\
    if ok then grown bs v bytes s (N.to_nat c) bs' v' /\ pb v' = pb v else bs' = bs /\ v' = v.
Proof.
  intros Hb Hs Hsc Hc Hp Hx. unfold a_expand_begin. unfold mbegin at 1. unfold bind at 1. cbn [snd].
  destruct (pb v) as [[b o]|] eqn:Ep; [|congruence]. clear Hp.
  assert (s * SZ <= N.to_nat c * SZ) as Hle by (apply Nat.mul_le_mono_r; lia).
  pose proof (real_addr_spec bs k v v bytes b o Hb Ep) as Hr.
  assert ((if allocator_aligned A T
     then alloc_expand A (Some (b, o)) (e2b T c)
     else let* p := real_addr A T (Some (b, o)) in
          alloc_expand A p ((e2b T c + N.of_nat AL) mod two64)%N) (mkMem bs k, v) =
     alloc_expand A (Some (b, 0))
       (if allocator_aligned A T then c * N.of_nat SZ else c * N.of_nat SZ + N.of_nat AL)%N
       (mkMem bs k, v)) as E.
  { rewrite e2b_small by (unfold two63, two64 in *; lia).
    rewrite Ep in Hr. destruct (allocator_aligned A T) eqn:Eal.
    - unfold real_addr in Hr. rewrite Eal in Hr. injection Hr as ->. reflexivity.
    - erewrite bind_ok by exact Hr. now rewrite N.mod_small by (unfold two63, two64 in *; lia). }
  unfold bind at 1. rewrite E. clear E.
  set (size := (if allocator_aligned A T then _ else _)).
  unfold PodVectorSpec.buf in Hb. rewrite Ep in Hb. destruct Hb as (a & pre & Hn & -> & Hh).
  assert (length pre + N.to_nat c * SZ <= N.to_nat size) as Hsize.
  { unfold size, PodVectorSpec.header in *. destruct (allocator_aligned A T).
    - destruct Hh as ((-> & _) & _). cbn. lia.
    - destruct Hh as ((Hh & _) & _). rewrite Hx in Hh. lia. }
  unfold alloc_expand. cbn [fst snd blks ncall]. rewrite Hn.
  destruct (a_grant A k).
  - set (nb := firstn (N.to_nat size) (pre ++ bytes) ++ _).
    assert (exists nb', nb = pre ++ nb' /\ firstn (s * SZ) nb' = firstn (s * SZ) bytes /\
       N.to_nat c * SZ <= length nb') as (nb' & En & Hpre & Hlen).
    { exists (firstn (N.to_nat size - length pre) bytes ++
        junk A k (length (pre ++ bytes)) (N.to_nat size - length (pre ++ bytes))).
      split; [|split].
      - unfold nb. rewrite firstn_app, firstn_all2 by lia. now rewrite <- app_assoc.
      - rewrite firstn_app, firstn_firstn, Nat.min_l by lia. rewrite firstn_length.
        replace (s * SZ - Nat.min (N.to_nat size - length pre) (length bytes)) with 0 by lia.
        cbn. apply app_nil_r.
      - rewrite app_length, firstn_length, junk_length, app_length. lia. }
    exists true, (upd bs b (MBlk a nb)), (S k), (mkPv (pb v) (pe v) (N.to_nat c)).
    split; [reflexivity|]. split; [|exact Ep]. exists nb'. cbn [pe pb pcap].
    split; [reflexivity|]. split; [reflexivity|]. split; [congruence|].
    split; [apply frame_upd; unfold owner; cbn; now rewrite Ep|].
    split; [|auto].
    unfold PodVectorSpec.buf. cbn [pb]. rewrite Ep. exists a, pre. split; [|auto].
    rewrite nth_error_upd_eq by (eapply nth_lt; eauto). now rewrite En.
  - exists false, bs, (S k), v. split; [reflexivity|]. auto.
Qed.
Lemma end_at_spec bs k v bytes n :
  buf bs v bytes -> N.to_nat n * SZ <= length bytes ->
  end_at T n (mkMem bs k, v) =
  Ok tt (mkMem bs k, mkPv (pb v) (after_begin v (N.to_nat n * SZ)) (pcap v)).
Proof.
  intros Hb Hn. unfold end_at. unfold mbegin at 1. unfold bind at 1. cbn [snd].
  unfold PodVectorSpec.buf, after_begin in *. destruct (pb v) as [[b o]|] eqn:Ep.
  - destruct Hb as (a & pre & Hnth & -> & _).
    erewrite bind_ok by (eapply padd_at; [exact Hnth|rewrite app_length; lia]).
    unfold set_pend. cbn [snd fst]. rewrite Ep, to_nat_mul. reflexivity.
  - subst bytes. cbn in Hn. pose proof sz_pos.
    assert (n = 0%N) as -> by nia. unfold bind, padd, set_pend. cbn. now rewrite Ep.
Qed.

Lemma get_new_capacity_spec m v n :
  pcap v < n -> room n ->
  exists c, get_new_capacity (N.of_nat n) (m, v) = Ok c (m, v) /\
    (N.of_nat n <= c)%N /\ (c <= N.of_nat n + N.of_nat n / 2)%N.
Proof.
  intros Hlt Hr. unfold get_new_capacity. unfold mcap at 1. unfold bind at 1. cbn [snd].
  destruct (Nat.eqb_spec (pcap v) 0) as [E|E].
  - exists (N.of_nat n). split; [reflexivity|]. split; [lia|].
    pose proof (N.le_0_l (N.of_nat n / 2)). lia.
  - destruct (grow_cap_spec (S (N.to_nat (N.of_nat n))) (N.of_nat (pcap v)) (N.of_nat n))
      as (c & Hg & H1 & _ & H2); [lia| |lia|].
    + now apply room_small.
    + rewrite Hg. exists c. split; [reflexivity|]. split; [exact H1|]. apply H2. lia.
Qed.

(** After any of the four: m_end is set again and the vector holds what it held. *)
Lemma grown_holds bs v xs rest c bs' k' v' :
  Forall (is_elem T) xs ->
  length xs <= c ->
  grown bs v (concat xs ++ rest) (length xs) c bs' v' ->
  let w := mkPv (pb v') (after_begin v' (length xs * SZ)) c in
  end_at T (N.of_nat (length xs)) (mkMem bs' k', v') = Ok tt (mkMem bs' k', w) /\
  holds bs' w xs /\ frame bs v bs' w.
Proof.
  intros Hx Hc (bytes' & E1 & E2 & E3 & Hf & Hb & Hp & Hl) w.
  pose proof (concat_length_elems T xs Hx) as Hlen.
  assert (length xs * SZ <= c * SZ) by (apply Nat.mul_le_mono_r; lia).
  split; [|split].
  - rewrite (end_at_spec _ _ _ bytes') by (auto; lia). unfold w. rewrite E2. do 4 f_equal. lia.
  - split; [exact Hx|]. exists (skipn (length xs * SZ) bytes').
    assert (concat xs ++ skipn (length xs * SZ) bytes' = bytes') as E.
    { rewrite <- (firstn_skipn (length xs * SZ) bytes') at 2. f_equal.
      rewrite Hp, firstn_app, firstn_all2, <- Hlen, Nat.sub_diag by lia. cbn. now rewrite app_nil_r. }
    rewrite E. split; [apply (buf_pb _ v'); auto|]. split; [reflexivity|]. unfold w. cbn [pcap].
    split; [exact Hc|]. rewrite skipn_length. lia.
  - eapply frame_trans; [exact Hf|]. now apply frame_refl.
Qed.

Lemma holds_parts bs v xs : holds bs v xs ->
  exists rest, Forall (is_elem T) xs /\ buf bs v (concat xs ++ rest) /\
    pe v = after_begin v (length xs * SZ) /\ length xs <= pcap v /\
    pcap v * SZ <= length xs * SZ + length rest /\
    length (concat xs ++ rest) = length xs * SZ + length rest /\
    (pb v = None -> length xs = 0) /\ (pb v = None -> pcap v = 0).
Proof.
  intros (Hx & rest & Hb & He & Hc & Hl). exists rest.
  pose proof (concat_length_elems T xs Hx) as Hlen. pose proof sz_pos.
  split; [exact Hx|]. split; [exact Hb|]. split; [exact He|]. split; [exact Hc|]. split; [exact Hl|].
  split; [rewrite app_length; lia|].
  assert (pb v = None -> length xs * SZ + length rest = 0) as K.
  { intros E. unfold PodVectorSpec.buf in Hb. rewrite E in Hb.
    apply (f_equal (@length N)) in Hb. rewrite app_length in Hb. cbn in Hb. lia. }
  split; intros E; specialize (K E); nia.
Qed.

Lemma begin_changed_ok old m v : exists r, begin_changed old (m, v) = Ok r (m, v).
Proof. eexists. reflexivity. Qed.

Lemma preserve_spec bs k v xs n :
  holds bs v xs -> room n ->
  exists r bs' k' v',
    preserve A T (N.of_nat n) (mkMem bs k, v) = Ok r (mkMem bs' k', v') /\
    holds bs' v' xs /\ frame bs v bs' v' /\ n <= pcap v' /\ pcap v <= pcap v' /\
    (n <= pcap v -> bs' = bs /\ v' = v).
Proof.
  intros Hh Hr. destruct (holds_parts _ _ _ Hh) as (rest & Hx & Hb & He & Hc & Hl & Hlen & Hn0 & Hc0).
  unfold preserve. unfold mcap at 1. unfold bind at 1. cbn [snd].
  destruct (N.leb_spec (N.of_nat n) (N.of_nat (pcap v))) as [Hle|Hgt].
  { exists false, bs, k, v. split; [reflexivity|]. split; [exact Hh|].
    split; [now apply frame_refl|]. repeat split; auto; lia. }
  unfold mbegin at 1. unfold bind at 1. cbn [snd].
  destruct (get_new_capacity_spec (mkMem bs k) v n ltac:(lia) Hr) as (c & Eg & Hc1 & Hc2).
  erewrite bind_ok by exact Eg.
  erewrite bind_ok by (apply (psize_spec _ _ (length xs)); auto).
  pose proof (room_lt n c Hr Hc2) as Hfit.
  assert (exists bs' k' v',
    (if a_has_expand A then
       match pb v with
       | None => let* p := a_malloc A T c in set_begin p ;;; set_cap (N.to_nat c)
       | Some _ =>
           let* ok := a_expand_begin A T c in
           if ok then ret tt else malloc_copy A T c (length xs)
       end
     else if (a_wasteful A <? e2b T (N.of_nat (pcap v - length xs)))%N
          then malloc_copy A T c (length xs) else a_realloc_begin A T c) (mkMem bs k, v) =
      Ok tt (mkMem bs' k', v') /\
    grown bs v (concat xs ++ rest) (length xs) (N.to_nat c) bs' v') as (bs' & k' & v' & E & G).
  { destruct (a_has_expand A) eqn:Ex.
    - destruct (pb v) as [p|] eqn:Ep.
      + destruct (expand_spec bs k v (concat xs ++ rest) (length xs) c)
          as (ok & bs' & k' & v' & E & Hok); auto; try lia; [congruence|].
        destruct ok.
        * exists bs', k', v'. erewrite bind_ok by exact E. split; [reflexivity|apply Hok].
        * destruct Hok as (-> & ->).
          destruct (malloc_copy_spec bs k' v (concat xs ++ rest) (length xs) c)
            as (bs2 & k2 & v2 & E2 & G2); auto; try lia.
          exists bs2, k2, v2. erewrite bind_ok by exact E. auto.
      + destruct (fresh_spec bs k v c Ep Hfit) as (bs' & k' & v' & E & G).
        exists bs', k', v'. split; [exact E|].
        unfold PodVectorSpec.buf in Hb. rewrite Ep in Hb. rewrite Hb. rewrite (Hn0 eq_refl). exact G.
    - destruct (_ <? _)%N.
      + apply malloc_copy_spec; auto; lia.
      + apply realloc_spec; auto; lia. }
  erewrite bind_ok by exact E.
  destruct (grown_holds bs v xs rest (N.to_nat c) bs' k' v' Hx ltac:(lia) G) as (Ee & Hh' & Hf').
  erewrite bind_ok by exact Ee.
  eexists _, bs', k', _. split; [reflexivity|]. split; [exact Hh'|]. split; [exact Hf'|].
  cbn [pcap]. repeat split; lia.
Qed.

Lemma pshrink_to_fit_spec bs k v xs :
  holds bs v xs -> room (length xs) ->
  exists r bs' k' v',
    pshrink_to_fit A T (mkMem bs k, v) = Ok r (mkMem bs' k', v') /\
    holds bs' v' xs /\ frame bs v bs' v' /\ pcap v' = length xs.
Proof.
  intros Hh Hr. destruct (holds_parts _ _ _ Hh) as (rest & Hx & Hb & He & Hc & Hl & Hlen & Hn0 & Hc0).
  unfold pshrink_to_fit.
  erewrite bind_ok by (apply (psize_spec _ _ (length xs)); auto).
  unfold mcap at 1. unfold bind at 1. cbn [snd].
  destruct (Nat.eqb_spec (length xs) (pcap v)) as [E|E].
  { exists false, bs, k, v. split; [reflexivity|]. split; [exact Hh|]. split; [now apply frame_refl|]. auto. }
  destruct (Nat.eqb_spec (length xs) 0) as [E0|E0].
  { destruct (a_free_spec bs k v _ Hb) as (bs' & Ef & HL & HK & HF).
    erewrite bind_ok by exact Ef.
    eexists true, bs', k, (mkPv None None 0). split; [reflexivity|].
    destruct xs; [|discriminate]. split; [|split; [|reflexivity]].
    - split; [constructor|]. exists []. repeat split; cbn; lia.
    - split; [lia|]. split.
      + intros j Hj Ho. split; [auto|discriminate].
      + intros j Hj Ho [Hge|Hown]; [lia|auto]. }
  unfold mbegin at 1. unfold bind at 1. cbn [snd].
  pose proof (room_self _ Hr) as Hfit.
  destruct (not_null bs v _ (length xs) Hb ltac:(lia) E0) as (p & Ep).
  assert (exists bs' k' v',
    (if a_has_expand A then
       let* ok := a_expand_begin A T (N.of_nat (length xs)) in
       if ok then ret tt else
         let* new_buf := a_malloc A T (N.of_nat (length xs)) in
         memcpy new_buf (pb v) (e2b T (N.of_nat (length xs))) ;;;
         a_free_begin A T ;;; set_begin new_buf ;;; set_cap (length xs)
     else a_realloc_begin A T (N.of_nat (length xs))) (mkMem bs k, v) =
      Ok tt (mkMem bs' k', v') /\
    grown bs v (concat xs ++ rest) (length xs) (length xs) bs' v') as (bs' & k' & v' & E1 & G).
  { destruct (a_has_expand A) eqn:Ex.
    - destruct (expand_spec bs k v (concat xs ++ rest) (length xs) (N.of_nat (length xs)))
        as (ok & bs' & k' & v' & E1 & Hok); auto; try lia; try congruence.
      rewrite Nat2N.id in Hok. destruct ok.
      + exists bs', k', v'. erewrite bind_ok by exact E1. split; [reflexivity|apply Hok].
      + destruct Hok as (-> & ->). erewrite bind_ok by exact E1.
        destruct (a_malloc_spec bs k' v _ Hfit) as (a & pre & nb & k2 & Em & Hhd & Hnb).
        erewrite bind_ok by exact Em. rewrite Nat2N.id in Hnb.
        erewrite bind_ok by (eapply (copy_to_new _ _ _ (concat xs ++ rest)); eauto; try lia;
          unfold two63, two64 in *; nia).
        destruct (free_after_malloc bs k2 v (concat xs ++ rest) a pre
          (firstn (length xs * SZ) (concat xs ++ rest) ++ skipn (length xs * SZ) nb)
          (pe v) (length xs) Hb Hhd) as (bs2 & Ef & Hfr & Hbuf).
        erewrite bind_ok by exact Ef.
        eexists bs2, k2, (mkPv (Some (length bs, length pre)) (pe v) (length xs)).
        split; [reflexivity|].
        exists (firstn (length xs * SZ) (concat xs ++ rest) ++ skipn (length xs * SZ) nb).
        cbn [pe pb pcap].
        split; [reflexivity|]. split; [reflexivity|]. split; [discriminate|].
        split; [exact Hfr|]. split; [exact Hbuf|]. split.
        * apply copied_prefix. lia.
        * rewrite app_length, firstn_length, skipn_length. lia.
    - destruct (realloc_spec bs k v (concat xs ++ rest) (length xs) (N.of_nat (length xs)))
        as (bs' & k' & v' & E1 & G); auto; try lia.
      rewrite Nat2N.id in G. eauto. }
  erewrite bind_ok by exact E1.
  destruct (grown_holds bs v xs rest (length xs) bs' k' v' Hx (le_n _) G) as (Ee & Hh' & Hf').
  erewrite bind_ok by exact Ee.
  eexists _, bs', k', _. split; [reflexivity|]. split; [exact Hh'|]. split; [exact Hf'|]. reflexivity.
Qed.
(** ** Writing into the buffer *)

Lemma buf_block bs v bytes : buf bs v bytes -> pb v <> None ->
  exists b o a pre, pb v = Some (b, o) /\ owner v = Some b /\
    nth_error bs b = Some (MBlk a (pre ++ bytes)) /\ o = length pre /\ header a pre.
Proof.
  unfold PodVectorSpec.buf, owner. destruct (pb v) as [[b o]|]; [|congruence].
  intros (a & pre & H) _. exists b, o, a, pre. intuition.
Qed.

Lemma write_raw bs k v B1 B2 B3 l d :
  buf bs v (B1 ++ B2 ++ B3) -> pb v <> None -> length B1 = d -> length B2 = length l ->
  exists bs', write_bytes (after_begin v d) l (mkMem bs k, v) = Ok tt (mkMem bs' k, v) /\
    buf bs' v (B1 ++ l ++ B3) /\ frame bs v bs' v.
Proof.
  intros Hb Hp H1 H2. destruct (buf_block _ _ _ Hb Hp) as (b & o & a & pre & Ep & Eo & Hn & -> & Hh).
  exists (upd bs b (MBlk a (pre ++ B1 ++ l ++ B3))). split; [|split].
  - unfold after_begin. rewrite Ep.
    erewrite (write_bytes_at _ _ _ _ _ a (pre ++ B1) B2 B3).
    + now rewrite <- app_assoc.
    + rewrite Hn. now rewrite <- app_assoc.
    + rewrite app_length. lia.
    + exact H2.
  - unfold PodVectorSpec.buf. rewrite Ep. exists a, pre. split; [|auto].
    apply nth_error_upd_eq. eapply nth_lt; eauto.
  - now apply frame_upd.
Qed.

Lemma read_raw bs k v w B1 B2 B3 d n :
  buf bs v (B1 ++ B2 ++ B3) -> pb v <> None -> length B1 = d -> length B2 = n ->
  read_bytes (after_begin v d) n (mkMem bs k, w) = Ok B2 (mkMem bs k, w).
Proof.
  intros Hb Hp H1 H2. destruct (buf_block _ _ _ Hb Hp) as (b & o & a & pre & Ep & Eo & Hn & -> & Hh).
  unfold after_begin. rewrite Ep.
  eapply (read_bytes_at _ _ _ _ _ a (pre ++ B1) B2 B3).
  - rewrite Hn. now rewrite <- app_assoc.
  - rewrite app_length. lia.
  - exact H2.
Qed.

Lemma padd_raw bs k v w bytes d n :
  buf bs v bytes -> d + N.to_nat n <= length bytes ->
  padd (after_begin v d) n (mkMem bs k, w) = Ok (after_begin v (d + N.to_nat n)) (mkMem bs k, w).
Proof.
  intros Hb Hl. unfold PodVectorSpec.buf, after_begin in *. destruct (pb v) as [[b o]|].
  - destruct Hb as (a & pre & Hn & -> & _).
    erewrite padd_at; [|exact Hn|rewrite app_length; lia]. now rewrite Nat.add_assoc.
  - subst. cbn in Hl. assert (n = 0%N) as -> by lia. reflexivity.
Qed.

Lemma begin_raw v : pb v = after_begin v 0.
Proof. unfold after_begin. destruct (pb v) as [[b o]|]; [|reflexivity]. now rewrite Nat.add_0_r. Qed.

Lemma pfill_raw v x n : is_elem T x -> forall bs k B1 B2 B3 d,
  buf bs v (B1 ++ B2 ++ B3) -> length B1 = d -> length B2 = n * SZ ->
  exists bs', pfill T (after_begin v d) n (Val x) (mkMem bs k, v) = Ok tt (mkMem bs' k, v) /\
    buf bs' v (B1 ++ concat (repeat x n) ++ B3) /\ frame bs v bs' v.
Proof.
  intros Hx. pose proof sz_pos as Hsz. induction n as [|n IH]; intros bs k B1 B2 B3 d Hb H1 H2.
  - destruct B2; [|discriminate]. exists bs. split; [reflexivity|]. split; [exact Hb|now apply frame_refl].
  - assert (pb v <> None) as Hp.
    { intros E. unfold PodVectorSpec.buf in Hb. rewrite E in Hb. apply (f_equal (@length N)) in Hb.
      rewrite !app_length in Hb. cbn in Hb. lia. }
    cbn [pfill]. unfold value_of. unfold bind at 1, ret at 1.
    assert (B2 = firstn SZ B2 ++ skipn SZ B2) as E2 by (symmetry; apply firstn_skipn).
    destruct (write_raw bs k v B1 (firstn SZ B2) (skipn SZ B2 ++ B3) x d) as (bs1 & E & Hb1 & Hf1); auto.
    { now rewrite <- app_assoc_reverse, (app_assoc_reverse B1), (app_assoc (firstn SZ B2)), <- E2. }
    { rewrite firstn_length, Hx. lia. }
    erewrite bind_ok by exact E.
    erewrite bind_ok.
    2:{ eapply (padd_raw bs1 k v v (B1 ++ x ++ skipn SZ B2 ++ B3)); [exact Hb1|].
        rewrite !app_length, Nat2N.id, Hx. lia. }
    rewrite Nat2N.id.
    destruct (IH bs1 k (B1 ++ x) (skipn SZ B2) B3 (d + SZ)) as (bs2 & E3 & Hb2 & Hf2).
    + now rewrite <- app_assoc.
    + rewrite app_length, Hx. lia.
    + rewrite skipn_length. lia.
    + exists bs2. split; [exact E3|]. split; [|eapply frame_trans; eauto].
      cbn. now rewrite <- !app_assoc in *.
Qed.

Lemma holds_intro bs k v ys rest n :
  length ys = n ->
  Forall (is_elem T) ys -> buf bs v (concat ys ++ rest) ->
  n <= pcap v -> pcap v * SZ <= n * SZ + length rest ->
  exists w, end_at T (N.of_nat n) (mkMem bs k, v) = Ok tt (mkMem bs k, w) /\
  holds bs w ys /\ frame bs v bs w /\ pcap w = pcap v /\ pb w = pb v.
Proof.
  intros <- Hy Hb H1 H2. pose proof (concat_length_elems T ys Hy) as Hlen.
  exists (mkPv (pb v) (after_begin v (length ys * SZ)) (pcap v)).
  split; [|split; [|split; [|split; reflexivity]]].
  - rewrite (end_at_spec _ _ _ (concat ys ++ rest)) by (auto; rewrite app_length; lia).
    now rewrite Nat2N.id.
  - split; [exact Hy|]. exists rest. auto.
  - now apply frame_refl.
Qed.

(** The spare capacity as unspecified elements. *)
Lemma spare_elems (xs : list (list N)) rest c n :
  length xs <= n <= c -> c * SZ <= length xs * SZ + length rest ->
  exists new rest', rest = concat new ++ rest' /\ Forall (is_elem T) new /\
    length new = n - length xs /\ c * SZ <= n * SZ + length rest'.
Proof.
  intros Hn Hc.
  assert ((n - length xs) * SZ <= length rest) as Hr.
  { assert (n * SZ <= c * SZ) by (apply Nat.mul_le_mono_r; lia).
    rewrite Nat.mul_sub_distr_r. lia. }
  destruct (cut_elems T (n - length xs) (firstn ((n - length xs) * SZ) rest)) as (new & H1 & H2 & H3).
  { rewrite firstn_length. lia. }
  exists new, (skipn ((n - length xs) * SZ) rest). rewrite H3, firstn_skipn.
  split; [reflexivity|]. split; [exact H1|]. split; [exact H2|].
  rewrite skipn_length, Nat.mul_sub_distr_r in *.
  assert (length xs * SZ <= n * SZ) by (apply Nat.mul_le_mono_r; lia). lia.
Qed.

Lemma zero_elem : is_elem T (repeat 0%N SZ).
Proof. unfold is_elem. apply repeat_length. Qed.

Lemma concat_repeat_zero n : concat (repeat (repeat 0%N SZ) n) = repeat 0%N (n * SZ).
Proof. induction n as [|n IH]; cbn; [reflexivity|]. now rewrite IH, repeat_app. Qed.

Lemma Forall_repeat' {B} (P : B -> Prop) x n : P x -> Forall P (repeat x n).
Proof. intros H. induction n; cbn; constructor; auto. Qed.

Lemma Forall_firstn' {B} (P : B -> Prop) l n : Forall P l -> Forall P (firstn n l).
Proof. intros H. revert n. induction H; intros [|n]; cbn; constructor; auto. Qed.
Lemma Forall_skipn' {B} (P : B -> Prop) l n : Forall P l -> Forall P (skipn n l).
Proof. intros H. revert n. induction H; intros [|n]; cbn; try constructor; auto. Qed.

Lemma presize_spec bs k v xs n :
  holds bs v xs -> room n ->
  exists r bs' k' v' new,
    presize A T (N.of_nat n) (mkMem bs k, v) = Ok r (mkMem bs' k', v') /\
    length new = n - length xs /\ Forall (is_elem T) new /\
    (a_zero A = true -> new = repeat (repeat 0%N SZ) (n - length xs)) /\
    holds bs' v' (firstn n xs ++ new) /\ frame bs v bs' v' /\ n <= pcap v'.
Proof.
  intros Hh Hr.
  destruct (preserve_spec bs k v xs n Hh Hr) as (r & bs1 & k1 & v1 & E1 & Hh1 & Hf1 & Hcap & _).
  unfold presize. erewrite bind_ok by exact E1.
  destruct (holds_parts _ _ _ Hh1) as (rest & Hx & Hb & He & Hc & Hl & Hlen & Hn0 & Hc0).
  pose proof (concat_length_elems T xs Hx) as Hcx.
  erewrite bind_ok by (apply (psize_spec _ _ (length xs)); auto).
  unfold mend at 1. unfold bind at 1. cbn [snd].
  destruct (N.ltb_spec (N.of_nat (length xs)) (N.of_nat n)) as [Hlt|Hge].
  - destruct (spare_elems xs rest (pcap v1) n ltac:(lia) Hl) as (new & rest' & Er & Hnew & Hln & Hl').
    rewrite firstn_all2 by lia.
    cbn [andb]. destruct (a_zero A) eqn:Ez.
    + unfold memset0. rewrite e2b_small.
      2:{ pose proof (room_self _ Hr). unfold two63, two64 in *. nia. }
      replace (N.to_nat ((N.of_nat n - N.of_nat (length xs)) * N.of_nat SZ)) with ((n - length xs) * SZ) by lia.
      rewrite <- concat_repeat_zero.
      assert (Forall (is_elem T) (repeat (repeat 0%N SZ) (n - length xs))) as Hz
        by (apply Forall_repeat', zero_elem).
      rewrite He.
      destruct (write_raw bs1 k1 v1 (concat xs) (concat new) rest'
        (concat (repeat (repeat 0%N SZ) (n - length xs))) (length xs * SZ)) as (bs2 & E2 & Hb2 & Hf2).
      * now rewrite <- Er.
      * intros Hp. specialize (Hc0 Hp). lia.
      * exact Hcx.
      * rewrite (concat_length_elems T new Hnew), (concat_length_elems T _ Hz).
        rewrite repeat_length. now rewrite Hln.
      * erewrite bind_ok by exact E2.
        destruct (holds_intro bs2 k1 v1 (xs ++ repeat (repeat 0%N SZ) (n - length xs)) rest' n)
          as (w & E3 & Hh3 & Hf3 & Hcw & _); auto.
        { rewrite app_length, repeat_length. lia. }
        { apply Forall_app; auto. }
        { now rewrite concat_app, <- app_assoc. }
        erewrite bind_ok by exact E3.
        exists r, bs2, k1, w, (repeat (repeat 0%N SZ) (n - length xs)).
        split; [reflexivity|]. split; [apply repeat_length|]. split; [exact Hz|]. split; [auto|].
        split; [exact Hh3|]. split; [|lia].
        eapply frame_trans; [exact Hf1|]. eapply frame_trans; eauto.
    + unfold bind at 1. unfold ret at 1.
      destruct (holds_intro bs1 k1 v1 (xs ++ new) rest' n) as (w & E3 & Hh3 & Hf3 & Hcw & _); auto.
      { rewrite app_length. lia. }
      { apply Forall_app; auto. }
      { rewrite concat_app, <- app_assoc. now rewrite <- Er. }
      erewrite bind_ok by exact E3.
      exists r, bs1, k1, w, new.
      split; [reflexivity|]. split; [exact Hln|]. split; [exact Hnew|]. split; [discriminate|].
      split; [exact Hh3|]. split; [|lia]. eapply frame_trans; eauto.
  - cbn [andb]. unfold bind at 1. unfold ret at 1.
    destruct (holds_intro bs1 k1 v1 (firstn n xs) (concat (skipn n xs) ++ rest) n)
      as (w & E3 & Hh3 & Hf3 & Hcw & _); auto.
    { rewrite firstn_length. lia. }
    { now apply Forall_firstn'. }
    { rewrite app_assoc, <- concat_app, firstn_skipn. exact Hb. }
    { pose proof (concat_length_elems T _ (Forall_skipn' _ _ n Hx)) as Hs.
      rewrite app_length, Hs, skipn_length by lia.
      rewrite Nat.mul_sub_distr_r. assert (n * SZ <= length xs * SZ) by (apply Nat.mul_le_mono_r; lia). lia. }
    erewrite bind_ok by exact E3.
    exists r, bs1, k1, w, []. split; [reflexivity|]. split; [cbn; lia|]. split; [constructor|].
    split; [intros _; replace (n - length xs) with 0 by lia; reflexivity|].
    rewrite app_nil_r. split; [exact Hh3|]. split; [|lia]. eapply frame_trans; eauto.
Qed.

(** ** Gaps *)

Definition gapped bs (v : pv) (xs : list (list N)) (off num : nat) bs' (v' : pv) : Prop :=
  exists hole rest',
    frame bs v bs' v' /\ pb v' <> None /\
    buf bs' v' (concat (firstn off xs ++ hole ++ skipn off xs) ++ rest') /\
    Forall (is_elem T) hole /\ length hole = num /\
    length xs + num <= pcap v' /\
    pcap v' * SZ <= (length xs + num) * SZ + length rest'.

Lemma make_gap_spec bs k v xs rest off num :
  Forall (is_elem T) xs -> buf bs v (concat xs ++ rest) -> pb v <> None ->
  off <= length xs -> length xs + num <= pcap v ->
  pcap v * SZ <= length xs * SZ + length rest -> (N.of_nat (length xs) * N.of_nat SZ < two64)%N ->
  exists bs',
    (let* b := mbegin in
     let* dst := padd b ((N.of_nat off + N.of_nat num) * N.of_nat SZ)%N in
     let* src := padd b (N.of_nat off * N.of_nat SZ)%N in
     memmove dst src (e2b T (N.of_nat (length xs - off)))) (mkMem bs k, v) = Ok tt (mkMem bs' k, v) /\
    gapped bs v xs off num bs' v.
Proof.
  intros Hx Hb Hp Hoff Hcap Hl Hsm.
  destruct (spare_elems xs rest (pcap v) (length xs + num) ltac:(lia) Hl)
    as (new & rest' & Er & Hnew & Hln & Hl').
  assert (length new = num) as Hln' by lia. clear Hln.
  pose proof (concat_length_elems T xs Hx) as Hcx.
  set (X := firstn off xs). set (Y := skipn off xs).
  assert (xs = X ++ Y) as Exy by (symmetry; apply firstn_skipn).
  assert (Forall (is_elem T) X) as HX by now apply Forall_firstn'.
  assert (Forall (is_elem T) Y) as HY by now apply Forall_skipn'.
  assert (length X = off) as LX by (unfold X; rewrite firstn_length; lia).
  assert (length Y = length xs - off) as LY by (unfold Y; rewrite skipn_length; lia).
  pose proof (concat_length_elems T X HX) as CX. pose proof (concat_length_elems T Y HY) as CY.
  pose proof (concat_length_elems T new Hnew) as CN.
  rewrite LX in CX. rewrite LY in CY. rewrite Hln' in CN.
  (* the elements which end up in the hole and behind it *)
  set (h := firstn num (Y ++ new)). set (g := skipn num (Y ++ new)).
  assert (Y ++ new = h ++ g) as Ehg by (symmetry; apply firstn_skipn).
  assert (Forall (is_elem T) (h ++ g)) as Hhg by (rewrite <- Ehg; apply Forall_app; auto).
  apply Forall_app in Hhg. destruct Hhg as (Hh & Hg).
  assert (length h = num) as Lh by (unfold h; rewrite firstn_length, app_length; lia).
  assert (length g = length xs - off) as Lg by (unfold g; rewrite skipn_length, app_length; lia).
  pose proof (concat_length_elems T h Hh) as Ch. pose proof (concat_length_elems T g Hg) as Cg.
  rewrite Lh in Ch. rewrite Lg in Cg.
  assert (buf bs v (concat X ++ concat Y ++ concat new ++ rest')) as Hb1.
  { rewrite Er, Exy, concat_app in Hb. now rewrite <- app_assoc in Hb. }
  assert (buf bs v ((concat X ++ concat h) ++ concat g ++ rest')) as Hb2.
  { rewrite <- app_assoc. rewrite (app_assoc (concat Y)), <- concat_app, Ehg, concat_app, <- app_assoc in Hb1.
    exact Hb1. }
  unfold mbegin at 1. unfold bind at 1. cbn [snd]. rewrite (begin_raw v).
  erewrite bind_ok.
  2:{ eapply (padd_raw bs k v v _ 0); [exact Hb1|].
      rewrite !app_length, CX, CY, CN.
      replace (N.to_nat ((N.of_nat off + N.of_nat num) * N.of_nat SZ)) with (off * SZ + num * SZ) by lia. lia. }
  erewrite bind_ok.
  2:{ eapply (padd_raw bs k v v _ 0); [exact Hb1|].
      rewrite !app_length, CX, CY, CN.
      replace (N.to_nat (N.of_nat off * N.of_nat SZ)) with (off * SZ) by lia. lia. }
  cbn [Nat.add].
  replace (N.to_nat ((N.of_nat off + N.of_nat num) * N.of_nat SZ)) with ((off + num) * SZ) by lia.
  replace (N.to_nat (N.of_nat off * N.of_nat SZ)) with (off * SZ) by lia.
  unfold memmove. rewrite e2b_small by nia.
  replace (N.to_nat (N.of_nat (length xs - off) * N.of_nat SZ)) with ((length xs - off) * SZ) by lia.
  erewrite bind_ok by (eapply (read_raw bs k v v (concat X) (concat Y)); eauto).
  destruct (write_raw bs k v (concat X ++ concat h) (concat g) rest' (concat Y) ((off + num) * SZ))
    as (bs' & E & Hb' & Hf'); auto.
  { rewrite app_length, CX, Ch. lia. }
  { now rewrite Cg, CY. }
  exists bs'. split; [exact E|]. exists h, rest'.
  split; [exact Hf'|]. split; [exact Hp|]. split.
  { rewrite !concat_app, <- !app_assoc. now rewrite <- app_assoc in Hb'. }
  split; [exact Hh|]. split; [exact Lh|]. split; [exact Hcap|]. exact Hl'.
Qed.
(** Writing at an offset in the newest block. *)
Lemma memcpy_to_new bs k v bytes (B1 B2 B3 : list N) d n a pre (C1 C2 C3 : list N) :
  buf bs v bytes -> pb v <> None -> bytes = B1 ++ B2 ++ B3 -> length B1 = d -> length B2 = N.to_nat n ->
  length C2 = N.to_nat n ->
  memcpy (Some (length bs, length pre + length C1)) (after_begin v d) n
    (mkMem (bs ++ [MBlk a (pre ++ C1 ++ C2 ++ C3)]) k, v) =
  Ok tt (mkMem (bs ++ [MBlk a (pre ++ C1 ++ B2 ++ C3)]) k, v).
Proof.
  intros Hb Hp -> H1 H2 H3. destruct (buf_block _ _ _ Hb Hp) as (b & o & a2 & pre2 & Ep & _ & Hn & -> & _).
  unfold after_begin. rewrite Ep. pose proof (nth_lt _ _ _ Hn).
  erewrite (memcpy_at _ _ _ _ _ a _ _ a2 (pre ++ C1) C2 C3 (pre2 ++ B1) B2 B3).
  - rewrite upd_app_mid by reflexivity. now rewrite <- app_assoc.
  - lia.
  - rewrite nth_error_app_mid by reflexivity. now rewrite <- app_assoc.
  - rewrite app_length. lia.
  - exact H3.
  - rewrite nth_error_app1 by lia. rewrite Hn. now rewrite <- app_assoc.
  - rewrite app_length. lia.
  - exact H2.
Qed.

Lemma gap_malloc_copy bs k v xs rest off num c :
  Forall (is_elem T) xs -> buf bs v (concat xs ++ rest) -> off < length xs ->
  (N.of_nat (length xs + num) <= c)%N -> (c * N.of_nat SZ + N.of_nat AL < two63)%N ->
  exists bs' k' v',
    (let* b := mbegin in
     let* new_buf := a_malloc A T c in
     (if off =? 0 then ret tt else memcpy new_buf b (e2b T (N.of_nat off))) ;;;
     let* dst := padd new_buf ((N.of_nat off + N.of_nat num) * N.of_nat SZ)%N in
     let* src := padd b (N.of_nat off * N.of_nat SZ)%N in
     memcpy dst src (e2b T (N.of_nat (length xs - off))) ;;;
     a_free_begin A T ;;; set_begin new_buf ;;; set_cap (N.to_nat c)) (mkMem bs k, v) =
      Ok tt (mkMem bs' k', v') /\
    gapped bs v xs off num bs' v'.
Proof.
  intros Hx Hb Hoff Hc Hfit.
  pose proof (concat_length_elems T xs Hx) as Hcx. pose proof sz_pos as Hsz.
  assert (pb v <> None) as Hp.
  { intros E. unfold PodVectorSpec.buf in Hb. rewrite E in Hb. apply (f_equal (@length N)) in Hb.
    rewrite !app_length in Hb. cbn in Hb. nia. }
  unfold mbegin at 1. unfold bind at 1. cbn [snd].
  destruct (a_malloc_spec bs k v c Hfit) as (a & pre & nb & k' & E & Hh & Hl).
  erewrite bind_ok by exact E.
  destruct (spare_elems [] nb (N.to_nat c) (length xs + num)) as (all & rest' & Er & Hall & Lall & Hl').
  { cbn. lia. } { cbn. exact Hl. }
  cbn [length] in Lall. rewrite Nat.sub_0_r in Lall.
  set (X := firstn off xs). set (Y := skipn off xs).
  assert (xs = X ++ Y) as Exy by (symmetry; apply firstn_skipn).
  assert (Forall (is_elem T) X) as HX by now apply Forall_firstn'.
  assert (Forall (is_elem T) Y) as HY by now apply Forall_skipn'.
  assert (length X = off) as LX by (unfold X; rewrite firstn_length; lia).
  assert (length Y = length xs - off) as LY by (unfold Y; rewrite skipn_length; lia).
  pose proof (concat_length_elems T X HX) as CX. pose proof (concat_length_elems T Y HY) as CY.
  rewrite LX in CX. rewrite LY in CY.
  (* the new block in three parts *)
  set (P1 := firstn off all). set (P2 := firstn num (skipn off all)). set (P3 := skipn num (skipn off all)).
  assert (all = P1 ++ P2 ++ P3) as Eall.
  { unfold P1, P2, P3. now rewrite firstn_skipn, firstn_skipn. }
  assert (Forall (is_elem T) P1) as HP1 by now apply Forall_firstn'.
  assert (Forall (is_elem T) P2) as HP2 by now apply Forall_firstn', Forall_skipn'.
  assert (Forall (is_elem T) P3) as HP3 by now apply Forall_skipn', Forall_skipn'.
  assert (length P1 = off) as L1 by (unfold P1; rewrite firstn_length; lia).
  assert (length P2 = num) as L2 by (unfold P2; rewrite firstn_length, skipn_length; lia).
  assert (length P3 = length xs - off) as L3 by (unfold P3; rewrite !skipn_length; lia).
  pose proof (concat_length_elems T P1 HP1) as C1. pose proof (concat_length_elems T P2 HP2) as C2.
  pose proof (concat_length_elems T P3 HP3) as C3.
  rewrite L1 in C1. rewrite L2 in C2. rewrite L3 in C3.
  assert (N.of_nat off * N.of_nat SZ < two64)%N as S1 by (unfold two63, two64 in *; nia).
  assert (N.of_nat (length xs - off) * N.of_nat SZ < two64)%N as S2 by (unfold two63, two64 in *; nia).
  assert (nb = concat P1 ++ concat P2 ++ concat P3 ++ rest') as Enb.
  { rewrite Er, Eall, !concat_app. now rewrite <- !app_assoc. }
  assert ((if off =? 0 then ret tt else memcpy (Some (length bs, length pre)) (pb v) (e2b T (N.of_nat off)))
      (mkMem (bs ++ [MBlk a (pre ++ nb)]) k', v) =
     Ok tt (mkMem (bs ++ [MBlk a (pre ++ (concat X ++ concat P2) ++ concat P3 ++ rest')]) k', v)) as E1.
  { rewrite Enb, <- app_assoc. destruct (Nat.eqb_spec off 0) as [E0|E0].
    - assert (P1 = []) as -> by (apply length_zero_iff_nil; lia).
      assert (X = []) as -> by (apply length_zero_iff_nil; lia). reflexivity.
    - rewrite e2b_small by exact S1. rewrite (begin_raw v).
      replace (length pre) with (length pre + length (@nil N)) by (cbn; lia).
      apply (memcpy_to_new bs k' v (concat xs ++ rest) [] (concat X) (concat Y ++ rest) 0
          (N.of_nat off * N.of_nat SZ) a pre [] (concat P1) (concat P2 ++ concat P3 ++ rest')); auto.
      + rewrite Exy, concat_app. now rewrite <- app_assoc.
      + lia.
      + lia. }
  erewrite bind_ok by exact E1. clear E1.
  erewrite bind_ok.
  2:{ eapply padd_at; [now apply nth_error_app_mid|].
      rewrite !app_length, CX, C2, C3. nia. }
  erewrite bind_ok.
  2:{ rewrite (begin_raw v). eapply (padd_raw _ _ v v (concat xs ++ rest)); [now apply buf_app|].
      rewrite app_length, Hcx. nia. }
  replace (0 + N.to_nat (N.of_nat off * N.of_nat SZ)) with (off * SZ) by lia.
  replace (length pre + N.to_nat ((N.of_nat off + N.of_nat num) * N.of_nat SZ))
    with (length pre + length (concat X ++ concat P2)) by (rewrite app_length, CX, C2; lia).
  erewrite bind_ok.
  2:{ rewrite e2b_small by exact S2.
      eapply (memcpy_to_new bs k' v (concat xs ++ rest) (concat X) (concat Y) rest (off * SZ)
          (N.of_nat (length xs - off) * N.of_nat SZ) a pre (concat X ++ concat P2) (concat P3) rest'); auto.
      - rewrite Exy, concat_app. now rewrite <- app_assoc.
      - lia.
      - lia. }
  destruct (free_after_malloc bs k' v (concat xs ++ rest) a pre
    ((concat X ++ concat P2) ++ concat Y ++ rest') (pe v) (N.to_nat c) Hb Hh) as (bs2 & Ef & Hfr & Hbuf).
  erewrite bind_ok by exact Ef.
  exists bs2, k', (mkPv (Some (length bs, length pre)) (pe v) (N.to_nat c)).
  split; [reflexivity|]. exists P2, rest'. cbn [pb pcap].
  split; [exact Hfr|]. split; [discriminate|]. split.
  { fold X Y. rewrite !concat_app, <- !app_assoc. now rewrite <- app_assoc in Hbuf. }
  split; [exact HP2|]. split; [exact L2|]. split; [lia|]. exact Hl'.
Qed.

Lemma grown_gapped bs v xs rest off num c bs1 v1 k1 :
  Forall (is_elem T) xs -> off <= length xs -> length xs + num <= c ->
  (N.of_nat (length xs) * N.of_nat SZ < two64)%N ->
  grown bs v (concat xs ++ rest) (length xs) c bs1 v1 ->
  exists bs',
    (let* b := mbegin in
     let* dst := padd b ((N.of_nat off + N.of_nat num) * N.of_nat SZ)%N in
     let* src := padd b (N.of_nat off * N.of_nat SZ)%N in
     memmove dst src (e2b T (N.of_nat (length xs - off)))) (mkMem bs1 k1, v1) = Ok tt (mkMem bs' k1, v1) /\
    gapped bs v xs off num bs' v1.
Proof.
  intros Hx Hoff Hc Hsm (bytes' & E1 & E2 & E3 & Hf & Hb & Hp & Hl).
  pose proof (concat_length_elems T xs Hx) as Hlen.
  assert (length xs * SZ <= c * SZ) by (apply Nat.mul_le_mono_r; lia).
  assert (concat xs ++ skipn (length xs * SZ) bytes' = bytes') as E.
  { rewrite <- (firstn_skipn (length xs * SZ) bytes') at 2. f_equal.
    rewrite Hp, firstn_app, firstn_all2, <- Hlen, Nat.sub_diag by lia. cbn. now rewrite app_nil_r. }
  destruct (make_gap_spec bs1 k1 v1 xs (skipn (length xs * SZ) bytes') off num)
    as (bs' & Eg & (hole & rest' & Hf2 & G)); auto.
  - now rewrite E.
  - lia.
  - rewrite skipn_length. lia.
  - exists bs'. split; [exact Eg|]. exists hole, rest'. split; [|exact G].
    eapply frame_trans; eauto.
Qed.

Lemma holds_null_init bs v xs : holds bs v xs -> pb v = None -> xs = [].
Proof.
  intros H E. destruct (holds_parts _ _ _ H) as (rest & _ & _ & _ & _ & _ & _ & Hn & _).
  apply length_zero_iff_nil. auto.
Qed.

Lemma pgrow_at_spec bs k v xs off num :
  holds bs v xs -> off <= length xs -> room (length xs + num) ->
  exists bs' k' v' hole,
    pgrow_at A T off (N.of_nat num) (mkMem bs k, v) =
      Ok (after_begin v' (off * SZ)) (mkMem bs' k', v') /\
    holds bs' v' (firstn off xs ++ hole ++ skipn off xs) /\
    Forall (is_elem T) hole /\ length hole = num /\ frame bs v bs' v'.
Proof.
  intros Hh Hoff Hr. destruct (holds_parts _ _ _ Hh) as (rest & Hx & Hb & He & Hc & Hl & Hlen & Hn0 & Hc0).
  pose proof (room_self _ Hr) as Hrs.
  unfold pgrow_at. erewrite bind_ok by (apply (psize_spec _ _ (length xs)); auto).
  assert ((N.of_nat (length xs) + N.of_nat num) mod two64 = N.of_nat (length xs + num))%N as Emod.
  { pose proof sz_pos. rewrite N.mod_small; [lia|]. unfold two63, two64 in *. nia. }
  rewrite Emod.
  (* the common end *)
  assert (forall bs1 k1 v1 hole rest1,
    frame bs v bs1 v1 ->
    buf bs1 v1 (concat (firstn off xs ++ hole ++ skipn off xs) ++ rest1) ->
    Forall (is_elem T) hole -> length hole = num -> length xs + num <= pcap v1 ->
    pcap v1 * SZ <= (length xs + num) * SZ + length rest1 ->
    exists bs' k' v' hole',
    (end_at T (N.of_nat (length xs) + N.of_nat num)%N ;;;
     let* b := mbegin in padd b (N.of_nat off * N.of_nat SZ)%N) (mkMem bs1 k1, v1) =
      Ok (after_begin v' (off * SZ)) (mkMem bs' k', v') /\
    holds bs' v' (firstn off xs ++ hole' ++ skipn off xs) /\
    Forall (is_elem T) hole' /\ length hole' = num /\ frame bs v bs' v') as Hend.
  { intros bs1 k1 v1 hole rest1 Hf Hb1 Hho Lho Hcap Hl1.
    destruct (holds_intro bs1 k1 v1 (firstn off xs ++ hole ++ skipn off xs) rest1 (length xs + num))
      as (w & E3 & Hh3 & Hf3 & _ & Hpw); auto.
    { rewrite !app_length, firstn_length, skipn_length. lia. }
    { apply Forall_app. split; [now apply Forall_firstn'|]. apply Forall_app.
      split; [auto|now apply Forall_skipn']. }
    replace (N.of_nat (length xs + num)) with (N.of_nat (length xs) + N.of_nat num)%N in E3 by lia.
    exists bs1, k1, w, hole. split.
    - erewrite bind_ok by exact E3. unfold mbegin at 1. unfold bind at 1. cbn [snd].
      rewrite (begin_raw w).
      erewrite (padd_raw bs1 k1 w w (concat (firstn off xs ++ hole ++ skipn off xs) ++ rest1)).
      + do 2 f_equal. lia.
      + now apply (buf_pb _ v1).
      + rewrite app_length. erewrite (concat_length_elems T).
        * rewrite !app_length, firstn_length, skipn_length. nia.
        * apply Forall_app. split; [now apply Forall_firstn'|]. apply Forall_app.
          split; [auto|now apply Forall_skipn'].
    - split; [exact Hh3|]. split; [exact Hho|]. split; [exact Lho|]. eapply frame_trans; eauto. }
  destruct (Nat.eqb_spec off (length xs)) as [Eoff|Eoff].
  - destruct (presize_spec bs k v xs (length xs + num) Hh Hr)
      as (r & bs1 & k1 & v1 & new & E1 & Ln & Hn & _ & Hh1 & Hf1 & Hcap1).
    rewrite bind_assoc. erewrite bind_ok by exact E1. unfold bind at 1. unfold ret at 1.
    destruct (holds_parts _ _ _ Hh1) as (rest1 & _ & Hb1 & _ & Hc1 & Hl1 & _).
    rewrite (@firstn_all2 _ (length xs + num) xs) in Hb1 by lia.
    rewrite (@firstn_all2 _ (length xs + num) xs) in Hl1 by lia.
    apply (Hend bs1 k1 v1 new rest1); auto.
    + subst off. rewrite firstn_all, skipn_all, app_nil_r. exact Hb1.
    + lia.
    + rewrite app_length in Hl1. rewrite Ln in Hl1.
      replace (length xs + (length xs + num - length xs)) with (length xs + num) in Hl1 by lia. exact Hl1.
  - assert (off < length xs) as Hlt by lia.
    assert (pb v <> None) as Hp by (intros E; specialize (Hn0 E); lia).
    assert (N.of_nat (length xs) * N.of_nat SZ < two64)%N as Hsm by (unfold two63, two64 in *; nia).
    cbv zeta.
    match goal with |- context [bind ?m _ (mkMem bs k, v)] =>
      assert (exists bs1 k1 v1, m (mkMem bs k, v) = Ok tt (mkMem bs1 k1, v1) /\
        gapped bs v xs off num bs1 v1) as (bs1 & k1 & v1 & E1 & G) end.
    { unfold mcap at 1. unfold bind at 1. cbn [snd].
      destruct (N.ltb_spec (N.of_nat (pcap v)) (N.of_nat (length xs + num))) as [Hgt|Hle].
      - destruct (get_new_capacity_spec (mkMem bs k) v (length xs + num) ltac:(lia) Hr)
          as (c & Eg & Hc1 & Hc2).
        erewrite bind_ok by exact Eg.
        pose proof (room_lt _ _ Hr Hc2) as Hfit.
        destruct (a_has_expand A) eqn:Ex.
        + destruct (expand_spec bs k v (concat xs ++ rest) (length xs) c)
            as (ok & bs' & k' & v' & E & Hok); auto; try lia.
          erewrite bind_ok by exact E. destruct ok.
          * destruct Hok as (Gr & _).
            destruct (grown_gapped bs v xs rest off num (N.to_nat c) bs' v' k' Hx Hoff ltac:(lia) Hsm Gr)
              as (bs2 & E2 & G2). eauto.
          * destruct Hok as (-> & ->).
            apply (gap_malloc_copy bs k' v xs rest off num c); auto.
        + destruct (_ <? _)%N.
          * apply (gap_malloc_copy bs k v xs rest off num c); auto.
          * destruct (realloc_spec bs k v (concat xs ++ rest) (length xs) c)
              as (bs' & k' & v' & E & Gr); auto; try lia.
            erewrite bind_ok by exact E.
            destruct (grown_gapped bs v xs rest off num (N.to_nat c) bs' v' k' Hx Hoff ltac:(lia) Hsm Gr)
              as (bs2 & E2 & G2). eauto.
      - destruct (make_gap_spec bs k v xs rest off num) as (bs' & E & G); auto; try lia. eauto. }
    erewrite bind_ok by exact E1.
    destruct G as (hole & rest1 & Hf & _ & Hb1 & Hho & Lho & Hcap & Hl1).
    eapply Hend; eauto.
Qed.
(** ** The calls *)

Lemma holds_same bs bs' v xs ys rest :
  holds bs v xs -> length ys = length xs -> Forall (is_elem T) ys ->
  buf bs v (concat xs ++ rest) -> buf bs' v (concat ys ++ rest) -> holds bs' v ys.
Proof.
  intros Hh Ll Hy Hb Hb'. destruct (holds_parts _ _ _ Hh) as (rest0 & Hx & Hb0 & He & Hc & Hl & Hlen & _).
  pose proof (concat_length_elems T xs Hx). 
  assert (length rest = length rest0) as Lr.
  { unfold PodVectorSpec.buf in Hb, Hb0. destruct (pb v) as [[b o]|].
    - destruct Hb as (a & pre & Hn & Ho & _). destruct Hb0 as (a0 & pre0 & Hn0 & Ho0 & _).
      rewrite Hn in Hn0. injection Hn0 as _ Hn0. apply (f_equal (@length N)) in Hn0.
      rewrite !app_length in Hn0. lia.
    - apply (f_equal (@length N)) in Hb, Hb0. rewrite !app_length in *. lia. }
  split; [exact Hy|]. exists rest. rewrite Ll, Lr. auto.
Qed.

Lemma write_hole bs k v X H Y l :
  holds bs v (X ++ H ++ Y) -> length H = length l -> Forall (is_elem T) l ->
  exists bs', copy_not_aliased (after_begin v (length X * SZ)) l (mkMem bs k, v) = Ok tt (mkMem bs' k, v) /\
    holds bs' v (X ++ l ++ Y) /\ frame bs v bs' v.
Proof.
  intros Hh Ll Hl. destruct (holds_parts _ _ _ Hh) as (rest & Hx & Hb & He & Hc & Hcl & Hlen & Hn0 & Hc0).
  destruct l as [|e l].
  - destruct H; [|discriminate]. exists bs. split; [reflexivity|]. split; [exact Hh|now apply frame_refl].
  - apply Forall_app in Hx. destruct Hx as (HX & Hx). apply Forall_app in Hx. destruct Hx as (HH & HY).
    destruct (write_raw bs k v (concat X) (concat H) (concat Y ++ rest) (concat (e :: l)) (length X * SZ))
      as (bs' & E & Hb' & Hf).
    + rewrite !concat_app, <- !app_assoc in Hb. exact Hb.
    + intros Hp. specialize (Hn0 Hp). rewrite !app_length, Ll in Hn0. cbn in Hn0. lia.
    + now apply concat_length_elems.
    + rewrite !(concat_length_elems T) by auto. now rewrite Ll.
    + exists bs'. split; [exact E|]. split; [|exact Hf].
      eapply (holds_same bs bs' v (X ++ H ++ Y) _ rest); eauto.
      * rewrite !app_length. lia.
      * apply Forall_app; split; [auto|]. apply Forall_app; auto.
      * rewrite !concat_app, <- !app_assoc. exact Hb'.
Qed.

Lemma write_hole1 bs k v X h Y x :
  holds bs v (X ++ [h] ++ Y) -> is_elem T x ->
  exists bs', write_bytes (after_begin v (length X * SZ)) x (mkMem bs k, v) = Ok tt (mkMem bs' k, v) /\
    holds bs' v (X ++ [x] ++ Y) /\ frame bs v bs' v.
Proof.
  intros Hh Hx. destruct (write_hole bs k v X [h] Y [x] Hh eq_refl) as (bs' & E & H).
  { repeat constructor. exact Hx. }
  exists bs'. split; [|exact H]. unfold copy_not_aliased in E. cbn [concat] in E.
  now rewrite app_nil_r in E.
Qed.

Lemma fill_hole bs k v X H Y x n :
  holds bs v (X ++ H ++ Y) -> length H = n -> is_elem T x ->
  exists bs', pfill T (after_begin v (length X * SZ)) n (Val x) (mkMem bs k, v) = Ok tt (mkMem bs' k, v) /\
    holds bs' v (X ++ repeat x n ++ Y) /\ frame bs v bs' v.
Proof.
  intros Hh Ll Hel. destruct (holds_parts _ _ _ Hh) as (rest & Hx & Hb & He & Hc & Hcl & Hlen & Hn0 & Hc0).
  apply Forall_app in Hx. destruct Hx as (HX & Hx). apply Forall_app in Hx. destruct Hx as (HH & HY).
  destruct (pfill_raw v x n Hel bs k (concat X) (concat H) (concat Y ++ rest) (length X * SZ))
    as (bs' & E & Hb' & Hf).
  - rewrite !concat_app, <- !app_assoc in Hb. exact Hb.
  - now apply concat_length_elems.
  - rewrite (concat_length_elems T) by auto. now rewrite Ll.
  - exists bs'. split; [exact E|]. split; [|exact Hf].
    eapply (holds_same bs bs' v (X ++ H ++ Y) _ rest); eauto.
    + rewrite !app_length, repeat_length. lia.
    + apply Forall_app; split; [auto|]. apply Forall_app; split; [now apply Forall_repeat'|auto].
    + rewrite !concat_app, <- !app_assoc. exact Hb'.
Qed.

Lemma pinsert_range_spec bs k v xs pos l :
  holds bs v xs -> pos <= length xs -> Forall (is_elem T) l -> room (length xs + length l) ->
  exists bs' k' v', pinsert_range A T pos l (mkMem bs k, v) = Ok pos (mkMem bs' k', v') /\
    holds bs' v' (insert_at xs pos l) /\ frame bs v bs' v'.
Proof.
  intros Hh Hp Hl Hr.
  destruct (pgrow_at_spec bs k v xs pos (length l) Hh Hp Hr) as (bs1 & k1 & v1 & hole & E & Hh1 & Hho & Lho & Hf1).
  unfold pinsert_range. erewrite bind_ok by exact E.
  destruct (write_hole bs1 k1 v1 (firstn pos xs) hole (skipn pos xs) l Hh1 Lho Hl) as (bs2 & E2 & Hh2 & Hf2).
  replace (length (firstn pos xs)) with pos in E2 by (rewrite firstn_length; lia).
  erewrite bind_ok by exact E2.
  exists bs2, k1, v1. split; [reflexivity|]. split; [exact Hh2|]. eapply frame_trans; eauto.
Qed.

Lemma pinsert_n_spec bs k v xs pos n x :
  holds bs v xs -> pos <= length xs -> is_elem T x -> room (length xs + n) ->
  exists bs' k' v', pinsert_n A T pos (N.of_nat n) (Val x) (mkMem bs k, v) = Ok pos (mkMem bs' k', v') /\
    holds bs' v' (insert_at xs pos (repeat x n)) /\ frame bs v bs' v'.
Proof.
  intros Hh Hp Hx Hr.
  destruct (pgrow_at_spec bs k v xs pos n Hh Hp Hr) as (bs1 & k1 & v1 & hole & E & Hh1 & Hho & Lho & Hf1).
  unfold pinsert_n. erewrite bind_ok by exact E.
  destruct (fill_hole bs1 k1 v1 (firstn pos xs) hole (skipn pos xs) x n Hh1 Lho Hx) as (bs2 & E2 & Hh2 & Hf2).
  replace (length (firstn pos xs)) with pos in E2 by (rewrite firstn_length; lia).
  rewrite Nat2N.id. erewrite bind_ok by exact E2.
  exists bs2, k1, v1. split; [reflexivity|]. split; [exact Hh2|]. eapply frame_trans; eauto.
Qed.

Lemma pinsert1_spec bs k v xs pos x :
  holds bs v xs -> pos <= length xs -> is_elem T x -> room (length xs + 1) ->
  exists bs' k' v', pinsert1 A T pos (Val x) (mkMem bs k, v) = Ok pos (mkMem bs' k', v') /\
    holds bs' v' (insert_at xs pos [x]) /\ frame bs v bs' v'.
Proof.
  intros Hh Hp Hx Hr.
  destruct (pgrow_at_spec bs k v xs pos 1 Hh Hp Hr) as (bs1 & k1 & v1 & hole & E & Hh1 & Hho & Lho & Hf1).
  unfold pinsert1. change 1%N with (N.of_nat 1). erewrite bind_ok by exact E.
  unfold value_of. unfold bind at 1, ret at 1.
  destruct hole as [|h [|]]; try discriminate.
  destruct (write_hole1 bs1 k1 v1 (firstn pos xs) h (skipn pos xs) x Hh1 Hx) as (bs2 & E2 & Hh2 & Hf2).
  replace (length (firstn pos xs)) with pos in E2 by (rewrite firstn_length; lia).
  erewrite bind_ok by exact E2.
  exists bs2, k1, v1. split; [reflexivity|]. split; [exact Hh2|]. eapply frame_trans; eauto.
Qed.

Lemma pemplace_back_spec bs k v xs :
  holds bs v xs -> room (length xs + 1) ->
  exists bs' k' v' x, pemplace_back A T (mkMem bs k, v) =
      Ok (after_begin v' (length xs * SZ)) (mkMem bs' k', v') /\
    is_elem T x /\ holds bs' v' (xs ++ [x]) /\ frame bs v bs' v' /\
    (length xs < pcap v -> bs' = bs /\ pb v' = pb v).
Proof.
  intros Hh Hr. pose proof sz_pos as Hsz.
  destruct (holds_parts _ _ _ Hh) as (rest0 & _ & _ & He0 & _ & _ & _ & Hn00 & _).
  unfold pemplace_back. erewrite bind_ok by (apply (psize_spec _ _ (length xs)); auto).
  assert ((N.of_nat (length xs) + 1) mod two64 = N.of_nat (length xs + 1))%N as ->.
  { pose proof (room_self _ Hr). rewrite N.mod_small; [lia|]. unfold two63, two64 in *. nia. }
  destruct (preserve_spec bs k v xs (length xs + 1) Hh Hr)
    as (r & bs1 & k1 & v1 & E1 & Hh1 & Hf1 & Hcap & _ & Hsame).
  erewrite bind_ok by exact E1.
  destruct (holds_parts _ _ _ Hh1) as (rest & Hx & Hb & He & Hc & Hl & Hlen & Hn0 & Hc0).
  unfold mend at 1. unfold bind at 1. cbn [snd].
  destruct (spare_elems xs rest (pcap v1) (length xs + 1) ltac:(lia) Hl) as (new & rest' & Er & Hnew & Hln & Hl').
  replace (length xs + 1 - length xs) with 1 in Hln by lia.
  destruct new as [|x [|]]; try discriminate. inversion Hnew as [|? ? Hxe _]; subst.
  rewrite He.
  erewrite bind_ok.
  2:{ eapply (padd_raw bs1 k1 v1 v1); [exact Hb|]. rewrite Hlen, app_length. cbn [concat].
      rewrite app_nil_r, Hxe, Nat2N.id. lia. }
  exists bs1, k1, (mkPv (pb v1) (after_begin v1 (length xs * SZ + SZ)) (pcap v1)), x.
  split; [|split; [exact Hxe|split; [|split]]].
  - unfold bind, set_pend, ret. cbn [fst snd]. rewrite Nat2N.id. reflexivity.
  - split; [apply Forall_app; auto|]. exists rest'.
    split; [apply (buf_pb _ v1); auto; rewrite concat_app, <- app_assoc; exact Hb|].
    rewrite app_length. cbn [length pe pcap].
    replace ((length xs + 1) * SZ) with (length xs * SZ + SZ) by lia.
    split; [reflexivity|]. split; [lia|]. lia.
  - eapply frame_trans; [exact Hf1|]. now apply frame_refl.
  - intros H. destruct (Hsame ltac:(lia)) as (-> & ->). auto.
Qed.

Lemma ppush_back_spec early bs k v xs x :
  holds bs v xs -> is_elem T x -> room (length xs + 1) ->
  exists bs' k' v', ppush_back A T early (Val x) (mkMem bs k, v) = Ok tt (mkMem bs' k', v') /\
    holds bs' v' (xs ++ [x]) /\ frame bs v bs' v'.
Proof.
  intros Hh Hx Hr.
  destruct (pemplace_back_spec bs k v xs Hh Hr) as (bs1 & k1 & v1 & h & E & _ & Hh1 & Hf1 & _).
  destruct (write_hole1 bs1 k1 v1 xs h [] x Hh1 Hx) as (bs2 & E2 & Hh2 & Hf2).
  exists bs2, k1, v1. split; [|split; [exact Hh2|eapply frame_trans; eauto]].
  unfold ppush_back. destruct early; unfold value_of.
  - unfold bind at 1. unfold ret at 1. erewrite bind_ok by exact E. exact E2.
  - erewrite bind_ok by exact E. unfold bind at 1. unfold ret at 1. exact E2.
Qed.

Lemma pclear_spec bs k v xs : holds bs v xs ->
  exists v', pclear (mkMem bs k, v) = Ok tt (mkMem bs k, v') /\ holds bs v' [] /\ frame bs v bs v' /\
    owner v' = owner v.
Proof.
  intros Hh. destruct (holds_parts _ _ _ Hh) as (rest & Hx & Hb & He & Hc & Hl & Hlen & Hn0 & Hc0).
  exists (mkPv (pb v) (pb v) (pcap v)). split; [reflexivity|].
  split; [|split; [now apply frame_refl|reflexivity]].
  split; [constructor|]. exists (concat xs ++ rest). cbn [concat app length pe pcap Nat.mul].
  split; [now apply (buf_pb _ v)|]. split; [apply (begin_raw (mkPv (pb v) (pb v) (pcap v)))|].
  split; [lia|]. rewrite Hlen. lia.
Qed.

Lemma pshrink_at_spec bs k v xs off num :
  holds bs v xs -> off + num <= length xs -> room (length xs) ->
  exists v' bs', pshrink_at T off num (mkMem bs k, v) = Ok off (mkMem bs' k, v') /\
    holds bs' v' (erase_at xs off (off + num)) /\ frame bs v bs' v'.
Proof.
  intros Hh Hoff Hr. pose proof sz_pos as Hsz. pose proof (room_self _ Hr) as Hrs.
  destruct (holds_parts _ _ _ Hh) as (rest & Hx & Hb & He & Hc & Hl & Hlen & Hn0 & Hc0).
  unfold pshrink_at. erewrite bind_ok by (apply (psize_spec _ _ (length xs)); auto).
  destruct (Nat.eqb_spec (length xs) num) as [En|En].
  { destruct (pclear_spec bs k v xs Hh) as (v' & E & Hh' & Hf & _).
    exists v', bs. erewrite bind_ok by exact E.
    replace off with 0 by lia. split; [reflexivity|]. split; [|exact Hf].
    unfold erase_at. cbn [firstn app Nat.add]. rewrite skipn_all2 by lia. exact Hh'. }
  set (X := firstn off xs). set (D := firstn num (skipn off xs)). set (Y := skipn (off + num) xs).
  assert (skipn off xs = D ++ Y) as ED.
  { unfold D, Y. rewrite <- (firstn_skipn num (skipn off xs)) at 1. f_equal.
    rewrite skipn_skipn'. f_equal; lia. }
  assert (xs = X ++ D ++ Y) as Exy by (rewrite <- ED; symmetry; apply firstn_skipn).
  assert (Forall (is_elem T) X /\ Forall (is_elem T) D /\ Forall (is_elem T) Y) as (HX & HD & HY).
  { rewrite Exy in Hx. apply Forall_app in Hx. destruct Hx as (? & Hx). apply Forall_app in Hx. tauto. }
  assert (length X = off) as LX by (unfold X; rewrite firstn_length; lia).
  assert (length D = num) as LD by (unfold D; rewrite firstn_length, skipn_length; lia).
  assert (length Y = length xs - off - num) as LY by (unfold Y; rewrite skipn_length; lia).
  set (h := firstn (length Y) (D ++ Y)). set (g := skipn (length Y) (D ++ Y)).
  assert (D ++ Y = h ++ g) as Ehg by (symmetry; apply firstn_skipn).
  assert (Forall (is_elem T) (h ++ g)) as Hhg by (rewrite <- Ehg; apply Forall_app; auto).
  apply Forall_app in Hhg. destruct Hhg as (Hhh & Hg).
  assert (length h = length Y) as Lh by (unfold h; rewrite firstn_length, app_length; lia).
  assert (length g = num) as Lg by (unfold g; rewrite skipn_length, app_length; lia).
  pose proof (concat_length_elems T X HX) as CX. pose proof (concat_length_elems T Y HY) as CY.
  pose proof (concat_length_elems T D HD) as CD.
  pose proof (concat_length_elems T h Hhh) as Ch. pose proof (concat_length_elems T g Hg) as Cg.
  assert (buf bs v (concat X ++ concat D ++ concat Y ++ rest)) as Hb1.
  { rewrite Exy, !concat_app, <- !app_assoc in Hb. exact Hb. }
  assert (buf bs v (concat X ++ concat h ++ concat g ++ rest)) as Hb2.
  { rewrite (app_assoc (concat D)), <- concat_app, Ehg, concat_app, <- app_assoc in Hb1. exact Hb1. }
  assert (pb v <> None) as Hp by (intros E; specialize (Hn0 E); lia).
  unfold mbegin at 1. unfold bind at 1. cbn [snd]. rewrite (begin_raw v).
  erewrite bind_ok.
  2:{ eapply (padd_raw bs k v v _ 0); [exact Hb1|]. rewrite !app_length, CX, LX. nia. }
  replace (0 + N.to_nat (N.of_nat off * N.of_nat SZ)) with (off * SZ) by lia.
  erewrite bind_ok.
  2:{ eapply (padd_raw bs k v v); [exact Hb1|]. rewrite !app_length, CX, LX, CD, LD. nia. }
  replace (off * SZ + N.to_nat (N.of_nat num * N.of_nat SZ)) with ((off + num) * SZ) by lia.
  rewrite Z.mod_small by (unfold two63, two64 in *; nia).
  replace (Z.to_N (Z.of_nat (length xs) - Z.of_nat off - Z.of_nat num)) with (N.of_nat (length Y)) by lia.
  rewrite e2b_small by (rewrite LY; unfold two63, two64 in *; nia).
  replace (N.of_nat (length Y) * N.of_nat SZ)%N with (N.of_nat (length Y * SZ)) by lia.
  unfold memmove. rewrite bind_assoc. rewrite Nat2N.id.
  erewrite bind_ok.
  2:{ eapply (read_raw bs k v v (concat X ++ concat D) (concat Y)); auto.
      - rewrite <- app_assoc. exact Hb1.
      - rewrite app_length, CX, CD, LX, LD. lia. }
  destruct (write_raw bs k v (concat X) (concat h) (concat g ++ rest) (concat Y) (off * SZ))
    as (bs' & E & Hb' & Hf'); auto.
  { now rewrite CX, LX. }
  { now rewrite Ch, CY, Lh. }
  erewrite bind_ok by exact E.
  destruct (holds_intro bs' k v (X ++ Y) (concat g ++ rest) (length xs - num)) as (w & E3 & Hh3 & Hf3 & _).
  { rewrite app_length. lia. }
  { apply Forall_app; auto. }
  { rewrite concat_app, <- app_assoc. exact Hb'. }
  { lia. }
  { rewrite app_length, Cg, Lg. rewrite Nat.mul_sub_distr_r.
    assert (num * SZ <= length xs * SZ) by (apply Nat.mul_le_mono_r; lia). lia. }
  erewrite bind_ok by exact E3.
  exists w, bs'. split; [reflexivity|]. split; [exact Hh3|]. eapply frame_trans; eauto.
Qed.

Lemma ppop_back_spec bs k v xs : holds bs v xs -> xs <> [] -> room (length xs) ->
  exists v' bs', ppop_back T (mkMem bs k, v) = Ok tt (mkMem bs' k, v') /\
    holds bs' v' (removelast xs) /\ frame bs v bs' v'.
Proof.
  intros Hh Hne Hr.
  destruct (holds_parts _ _ _ Hh) as (rest & Hx & Hb & He & Hc & Hl & Hlen & Hn0 & Hc0).
  assert (length xs <> 0) as Hl0 by (rewrite length_zero_iff_nil; auto).
  unfold ppop_back. erewrite bind_ok by (apply (psize_spec _ _ (length xs)); auto).
  rewrite (proj2 (Nat.eqb_neq (length xs) 0) Hl0).
  destruct (pshrink_at_spec bs k v xs (length xs - 1) 1 Hh ltac:(lia) Hr) as (v' & bs' & E & Hh' & Hf).
  erewrite bind_ok by exact E. exists v', bs'. split; [reflexivity|]. split; [|exact Hf].
  unfold erase_at in Hh'. rewrite (skipn_all2 xs) in Hh' by lia. rewrite app_nil_r in Hh'.
  rewrite removelast_firstn_len. now replace (pred (length xs)) with (length xs - 1) by lia.
Qed.

Lemma safe_grow_spec bs k v xs n :
  holds bs v xs -> room n ->
  exists bs' k' v' bytes,
    safe_grow A T (N.of_nat n) (mkMem bs k, v) = Ok tt (mkMem bs' k', v') /\
    buf bs' v' bytes /\ frame bs v bs' v' /\ n <= pcap v' /\ pcap v' * SZ <= length bytes.
Proof.
  intros Hh Hr.
  destruct (holds_parts _ _ _ Hh) as (rest & Hx & Hb & He & Hc & Hl & Hlen & Hn0 & Hc0).
  unfold safe_grow. unfold mcap at 1. unfold bind at 1. cbn [snd].
  destruct (N.leb_spec (N.of_nat n) (N.of_nat (pcap v))) as [Hle|Hgt].
  { exists bs, k, v, (concat xs ++ rest). split; [reflexivity|]. split; [exact Hb|].
    split; [now apply frame_refl|]. split; lia. }
  destruct (a_free_spec bs k v _ Hb) as (bs1 & Ef & HL & HK & HF).
  erewrite bind_ok by exact Ef.
  destruct (get_new_capacity_spec (mkMem bs1 k) v n ltac:(lia) Hr) as (c & Eg & Hc1 & Hc2).
  erewrite bind_ok by exact Eg.
  unfold set_cap at 1. unfold bind at 1. cbn [fst snd].
  pose proof (room_lt _ _ Hr Hc2) as Hfit.
  destruct (a_malloc_spec bs1 k (mkPv (pb v) (pe v) (N.to_nat c)) c Hfit) as (a & pre & nb & k' & E & Hhd & Hnb).
  erewrite bind_ok by exact E.
  eexists (bs1 ++ [MBlk a (pre ++ nb)]), k', (mkPv (Some (length bs1, length pre)) (Some (length bs1, length pre)) (N.to_nat c)), nb.
  split; [reflexivity|].
  destruct (replaced bs v (bs1 ++ [MBlk a (pre ++ nb)])
     (mkPv (Some (length bs1, length pre)) (Some (length bs1, length pre)) (N.to_nat c)) a pre (concat xs ++ rest) nb)
     as (Hfr & Hbuf); auto.
  - rewrite app_length. cbn. lia.
  - intros j Hj Ho. rewrite nth_error_app1 by lia. auto.
  - intros j Ho. destruct (HF j Ho) as (a' & Ha). exists a'. rewrite nth_error_app1; [exact Ha|].
    eapply nth_lt; eauto.
  - apply nth_error_app_mid. lia.
  - cbn. now rewrite HL.
  - split; [exact Hbuf|]. split; [exact Hfr|]. cbn [pcap]. split; [lia|exact Hnb].
Qed.

Lemma passign_copy_spec bs k v xs l :
  holds bs v xs -> Forall (is_elem T) l -> room (length l) ->
  exists bs' k' v', passign_copy A T l (mkMem bs k, v) = Ok tt (mkMem bs' k', v') /\
    holds bs' v' l /\ frame bs v bs' v'.
Proof.
  intros Hh Hl Hr. unfold passign_copy.
  destruct (safe_grow_spec bs k v xs (length l) Hh Hr) as (bs1 & k1 & v1 & bytes & E & Hb & Hf & Hcap & Hbl).
  erewrite bind_ok by exact E. unfold mbegin at 1. unfold bind at 1. cbn [snd].
  assert (length l * SZ <= pcap v1 * SZ) by (apply Nat.mul_le_mono_r; lia).
  pose proof (concat_length_elems T l Hl) as Cl.
  assert (exists bs2, copy_not_aliased (pb v1) l (mkMem bs1 k1, v1) = Ok tt (mkMem bs2 k1, v1) /\
    buf bs2 v1 (concat l ++ skipn (length l * SZ) bytes) /\ frame bs1 v1 bs2 v1) as (bs2 & E2 & Hb2 & Hf2).
  { destruct l as [|e l].
    - exists bs1. split; [reflexivity|]. split; [exact Hb|now apply frame_refl].
    - rewrite (begin_raw v1). unfold copy_not_aliased.
      apply (write_raw bs1 k1 v1 [] (firstn (length (e :: l) * SZ) bytes)); auto.
      + cbn [app]. now rewrite firstn_skipn.
      + destruct (not_null bs1 v1 bytes (length (e :: l)) Hb ltac:(lia)) as (p & Ep); [cbn; lia|congruence].
      + rewrite firstn_length, Cl. lia. }
  erewrite bind_ok by exact E2.
  destruct (holds_intro bs2 k1 v1 l (skipn (length l * SZ) bytes) (length l))
    as (w & E3 & Hh3 & Hf3 & _); auto.
  { rewrite skipn_length. lia. }
  exists bs2, k1, w. split; [exact E3|]. split; [exact Hh3|].
  eapply frame_trans; [exact Hf|]. eapply frame_trans; eauto.
Qed.

Lemma passign_fill_spec bs k v xs n x :
  holds bs v xs -> is_elem T x -> room n ->
  exists bs' k' v', passign_fill A T (N.of_nat n) (Val x) (mkMem bs k, v) = Ok tt (mkMem bs' k', v') /\
    holds bs' v' (repeat x n) /\ frame bs v bs' v'.
Proof.
  intros Hh Hx Hr. unfold passign_fill.
  destruct (safe_grow_spec bs k v xs n Hh Hr) as (bs1 & k1 & v1 & bytes & E & Hb & Hf & Hcap & Hbl).
  erewrite bind_ok by exact E. unfold mbegin at 1. unfold bind at 1. cbn [snd].
  assert (n * SZ <= pcap v1 * SZ) by (apply Nat.mul_le_mono_r; lia).
  rewrite (begin_raw v1), Nat2N.id.
  destruct (pfill_raw v1 x n Hx bs1 k1 [] (firstn (n * SZ) bytes) (skipn (n * SZ) bytes) 0)
    as (bs2 & E2 & Hb2 & Hf2); auto.
  { cbn [app]. now rewrite firstn_skipn. }
  { rewrite firstn_length. lia. }
  erewrite bind_ok by exact E2.
  destruct (holds_intro bs2 k1 v1 (repeat x n) (skipn (n * SZ) bytes) n)
    as (w & E3 & Hh3 & Hf3 & _); auto.
  { apply repeat_length. }
  { now apply Forall_repeat'. }
  { rewrite skipn_length. lia. }
  exists bs2, k1, w. split; [exact E3|]. split; [exact Hh3|].
  eapply frame_trans; [exact Hf|]. eapply frame_trans; eauto.
Qed.

(** resize(n, val): right as long as what it writes, n elements from the end, stays within
    the capacity. *)
Lemma presize_val_spec bs k v xs n x :
  holds bs v xs -> is_elem T x -> room n ->
  exists r bs1 k1 v1,
    preserve A T (N.of_nat n) (mkMem bs k, v) = Ok r (mkMem bs1 k1, v1) /\
    (length xs + n <= pcap v1 ->
     exists bs' v', presize_val A T (N.of_nat n) (Val x) (mkMem bs k, v) = Ok r (mkMem bs' k1, v') /\
       holds bs' v' (resize_to xs n x) /\ frame bs v bs' v').
Proof.
  intros Hh Hx Hr.
  destruct (preserve_spec bs k v xs n Hh Hr) as (r & bs1 & k1 & v1 & E1 & Hh1 & Hf1 & Hcap & _).
  exists r, bs1, k1, v1. split; [exact E1|]. intros Hfit.
  unfold presize_val. erewrite bind_ok by exact E1.
  destruct (holds_parts _ _ _ Hh1) as (rest & Hxs & Hb & He & Hc & Hl & Hlen & Hn0 & Hc0).
  pose proof (concat_length_elems T xs Hxs) as Cx.
  unfold mend at 1. unfold bind at 1. cbn [snd]. rewrite He, Nat2N.id.
  destruct (spare_elems xs rest (pcap v1) (length xs + n) ltac:(lia) Hl) as (new & rest' & Er & Hnew & Hln & Hl').
  replace (length xs + n - length xs) with n in Hln by lia.
  destruct (pfill_raw v1 x n Hx bs1 k1 (concat xs) (concat new) rest' (length xs * SZ))
    as (bs2 & E2 & Hb2 & Hf2); auto.
  { now rewrite <- Er. }
  { rewrite (concat_length_elems T) by auto. now rewrite Hln. }
  erewrite bind_ok by exact E2.
  set (all := xs ++ repeat x n).
  assert (Forall (is_elem T) all) as Hall by (apply Forall_app; split; [auto|now apply Forall_repeat']).
  assert (length all = length xs + n) as Lall by (unfold all; rewrite app_length, repeat_length; lia).
  assert (firstn n all = resize_to xs n x) as Efn.
  { unfold all, resize_to. rewrite firstn_app. f_equal.
    rewrite (repeat_split x n (n - length xs)) by lia.
    rewrite firstn_app, firstn_all2 by (rewrite repeat_length; lia).
    rewrite repeat_length. rewrite Nat.sub_diag. cbn. apply app_nil_r. }
  destruct (holds_intro bs2 k1 v1 (firstn n all) (concat (skipn n all) ++ rest') n)
    as (w & E3 & Hh3 & Hf3 & _); auto.
  { rewrite firstn_length. lia. }
  { now apply Forall_firstn'. }
  { rewrite app_assoc, <- concat_app, firstn_skipn. unfold all. rewrite concat_app, <- app_assoc. exact Hb2. }
  { rewrite app_length, (concat_length_elems T) by now apply Forall_skipn'.
    rewrite skipn_length, Lall. replace (length xs + n - n) with (length xs) by lia. lia. }
  erewrite bind_ok by exact E3.
  exists bs2, w. split; [reflexivity|]. split; [now rewrite <- Efn|].
  eapply frame_trans; [exact Hf1|]. eapply frame_trans; eauto.
Qed.

Lemma pat_spec bs k v xs i x : holds bs v xs -> nth_error xs i = Some x ->
  pat T i (mkMem bs k, v) = Ok x (mkMem bs k, v).
Proof.
  intros Hh Hi. pose proof sz_pos.
  destruct (holds_parts _ _ _ Hh) as (rest & Hx & Hb & He & Hc & Hl & Hlen & Hn0 & Hc0).
  pose proof (nth_lt _ _ _ Hi) as Hlt.
  unfold pat. unfold mbegin at 1. unfold bind at 1. cbn [snd]. rewrite (begin_raw v).
  erewrite bind_ok by (eapply (padd_raw bs k v v _ 0); [exact Hb|rewrite Hlen; nia]).
  pose proof (nth_error_split_eq _ _ _ Hi) as Es.
  assert (Forall (is_elem T) (firstn i xs)) as HF by now apply Forall_firstn'.
  eapply (read_raw bs k v v (concat (firstn i xs)) x (concat (skipn (S i) xs) ++ rest)).
  - rewrite Es, concat_app in Hb. cbn [concat] in Hb. rewrite <- !app_assoc in Hb. exact Hb.
  - intros E. specialize (Hn0 E). lia.
  - rewrite (concat_length_elems T) by auto. rewrite firstn_length. lia.
  - rewrite Forall_forall in Hx. apply Hx. eapply nth_error_In; eauto.
Qed.

Lemma pread_all_spec bs k v xs : holds bs v xs -> pread_all T (mkMem bs k, v) = Ok xs (mkMem bs k, v).
Proof.
  intros Hh. destruct (holds_parts _ _ _ Hh) as (rest & Hx & Hb & He & Hc & Hl & Hlen & Hn0 & Hc0).
  unfold pread_all. erewrite bind_ok by (apply (psize_spec _ _ (length xs)); auto).
  unfold mbegin at 1. unfold bind at 1. cbn [snd].
  destruct (Nat.eqb_spec (length xs) 0) as [E|E].
  - apply length_zero_iff_nil in E. subst. reflexivity.
  - rewrite (begin_raw v).
    erewrite bind_ok.
    2:{ eapply (read_raw bs k v v [] (concat xs) rest); auto.
        - now apply concat_length_elems. }
    unfold ret. now rewrite chunks_concat.
Qed.
(** ** Every call *)

Definition answer (r : option nat) : vret :=
  match r with None => RNone | Some p => RPos p end.

Lemma step_seq' xs o ys r dflt : (forall n, o <> Resize n) ->
  spec_step dflt None xs o = (ys, r) -> pod_step A T xs (PSeq o) ys r.
Proof.
  intros H E. pose proof (step_seq A T xs o dflt H) as K. now rewrite E in K.
Qed.

Lemma pcall_spec early o bs k v xs : holds bs v xs -> pod_ok T xs o ->
  exists r bs' k' v' xs', pcall A T early o (mkMem bs k, v) = Ok r (mkMem bs' k', v') /\
    pod_step A T xs o xs' (answer r) /\ holds bs' v' xs' /\ frame bs v bs' v'.
Proof.
  intros Hh Hok.
  destruct o as [[x| |pos x|pos n x|pos l|pos|first last|n|n x| |n x|l]| |n|]; cbn in Hok; cbn [pcall].
  - destruct (ppush_back_spec early bs k v xs x) as (bs' & k' & v' & E & H & F); try tauto.
    exists None, bs', k', v', (xs ++ [x]). unfold no_answer. erewrite bind_ok by exact E.
    split; [reflexivity|]. split; [|auto]. now apply (step_seq' _ _ _ _ []).
  - destruct (ppop_back_spec bs k v xs) as (v' & bs' & E & H & F); try tauto.
    exists None, bs', k, v', (removelast xs). unfold no_answer. erewrite bind_ok by exact E.
    split; [reflexivity|]. split; [|auto]. apply (step_seq' _ _ _ _ []); [discriminate|].
    cbn. destruct xs; [tauto|reflexivity].
  - destruct (pinsert1_spec bs k v xs pos x) as (bs' & k' & v' & E & H & F); try tauto.
    exists (Some pos), bs', k', v', (insert_at xs pos [x]). unfold position_answer. erewrite bind_ok by exact E.
    split; [reflexivity|]. split; [|auto]. now apply (step_seq' _ _ _ _ []).
  - destruct (pinsert_n_spec bs k v xs pos n x) as (bs' & k' & v' & E & H & F); try tauto.
    exists (Some pos), bs', k', v', (insert_at xs pos (repeat x n)). unfold position_answer.
    erewrite bind_ok by exact E.
    split; [reflexivity|]. split; [|auto]. now apply (step_seq' _ _ _ _ []).
  - destruct (pinsert_range_spec bs k v xs pos l) as (bs' & k' & v' & E & H & F); try tauto.
    exists (Some pos), bs', k', v', (insert_at xs pos l). unfold position_answer.
    erewrite bind_ok by exact E.
    split; [reflexivity|]. split; [|auto]. now apply (step_seq' _ _ _ _ []).
  - destruct (pshrink_at_spec bs k v xs pos 1 Hh ltac:(lia) ltac:(tauto)) as (v' & bs' & E & H & F).
    exists (Some pos), bs', k, v', (erase_at xs pos (S pos)). unfold position_answer, perase.
    erewrite bind_ok by exact E.
    split; [reflexivity|]. replace (pos + 1) with (S pos) in H by lia.
    split; [|auto]. now apply (step_seq' _ _ _ _ []).
  - destruct (pshrink_at_spec bs k v xs first (last - first) Hh ltac:(lia) ltac:(tauto)) as (v' & bs' & E & H & F).
    exists (Some first), bs', k, v', (erase_at xs first last). unfold position_answer, perase_range.
    erewrite bind_ok by exact E.
    split; [reflexivity|]. replace (first + (last - first)) with last in H by lia.
    split; [|auto]. apply (step_seq' _ _ _ _ []); [discriminate|]. unfold spec_step.
    destruct (Nat.ltb_spec last first); [lia|reflexivity].
  - destruct (presize_spec bs k v xs n Hh Hok) as (r & bs' & k' & v' & new & E & Hl & Hn & Hz & H & F & _).
    exists None, bs', k', v', (firstn n xs ++ new). unfold no_answer. erewrite bind_ok by exact E.
    split; [reflexivity|]. split; [|auto]. now apply step_resize.
  - destruct Hok as (-> & Hx & Hr).
    destruct (presize_val_spec bs k v [] n x Hh Hx Hr) as (r & bs1 & k1 & v1 & E1 & K).
    destruct (preserve_spec bs k v [] n Hh Hr) as (r' & bs1' & k1' & v1' & E1' & _ & _ & Hcap & _).
    rewrite E1 in E1'. injection E1' as <- <- <- <-.
    destruct (K Hcap) as (bs' & v' & E & H & F).
    exists None, bs', k1, v', (resize_to [] n x). unfold no_answer. erewrite bind_ok by exact E.
    split; [reflexivity|]. split; [|auto]. now apply (step_seq' _ _ _ _ []).
  - destruct (pclear_spec bs k v xs Hh) as (v' & E & H & F & _).
    exists None, bs, k, v', []. unfold no_answer. erewrite bind_ok by exact E.
    split; [reflexivity|]. split; [|auto]. now apply (step_seq' _ _ _ _ []).
  - destruct (passign_fill_spec bs k v xs n x) as (bs' & k' & v' & E & H & F); try tauto.
    exists None, bs', k', v', (repeat x n). unfold no_answer. erewrite bind_ok by exact E.
    split; [reflexivity|]. split; [|auto]. now apply (step_seq' _ _ _ _ []).
  - destruct (passign_copy_spec bs k v xs l) as (bs' & k' & v' & E & H & F); try tauto.
    exists None, bs', k', v', l. unfold no_answer. erewrite bind_ok by exact E.
    split; [reflexivity|]. split; [|auto]. now apply (step_seq' _ _ _ _ []).
  - destruct (pemplace_back_spec bs k v xs Hh Hok) as (bs' & k' & v' & x & E & Hx & H & F & _).
    exists None, bs', k', v', (xs ++ [x]). unfold no_answer. erewrite bind_ok by exact E.
    split; [reflexivity|]. split; [|auto]. now constructor.
  - destruct (preserve_spec bs k v xs n Hh Hok) as (r & bs' & k' & v' & E & H & F & _).
    exists None, bs', k', v', xs. unfold no_answer. erewrite bind_ok by exact E.
    split; [reflexivity|]. split; [constructor|auto].
  - destruct (pshrink_to_fit_spec bs k v xs Hh Hok) as (r & bs' & k' & v' & E & H & F & _).
    exists None, bs', k', v', xs. unfold no_answer. erewrite bind_ok by exact E.
    split; [reflexivity|]. split; [constructor|auto].
Qed.

(** ** Families *)

Definition fam (bs : list mblk) (vs : list pv) (cs : list (list (list N))) : Prop :=
  Forall2 (holds bs) vs cs /\ fam_owns bs vs.

Lemma fam_owner_lt bs v xs j : holds bs v xs -> owner v = Some j -> j < length bs.
Proof. intros (_ & rest & Hb & _) Ho. eapply owner_lt; eauto. Qed.

Lemma holds_framed bs v bs' v' w ys :
  holds bs w ys -> frame bs v bs' v' -> (forall j, owner w = Some j -> owner v <> Some j) ->
  holds bs' w ys /\ (forall j, owner w = Some j -> owner v' <> Some j).
Proof.
  intros Hw (HL & HK & HF) Hd. split.
  - destruct Hw as (Hy & rest & Hb & H). split; [exact Hy|]. exists rest. split; [|exact H].
    unfold PodVectorSpec.buf in *. unfold owner in *. destruct (pb w) as [[b o]|]; [|exact Hb].
    destruct Hb as (a & pre & Hn & K). exists a, pre. split; [|exact K].
    destruct (HK b) as (E & _); [eapply nth_lt; eauto|now apply Hd|]. now rewrite E.
  - intros j Ho. apply (HK j); [eapply fam_owner_lt; eauto|now apply Hd].
Qed.

Lemma nth_upd_cases {B} (l : list B) i x j y :
  nth_error (upd l i x) j = Some y -> (j = i /\ y = x /\ i < length l) \/ (j <> i /\ nth_error l j = Some y).
Proof.
  intros H. destruct (Nat.eq_dec j i) as [->|Hne].
  - left. assert (i < length l) as Hi by (rewrite <- (upd_length l i x); eapply nth_lt; eauto).
    rewrite nth_error_upd_eq in H by auto. injection H as <-. auto.
  - right. rewrite nth_error_upd_neq in H by auto. auto.
Qed.

Lemma Forall2_intro {B C} (R : B -> C -> Prop) l l' :
  length l = length l' ->
  (forall i x y, nth_error l i = Some x -> nth_error l' i = Some y -> R x y) -> Forall2 R l l'.
Proof.
  revert l'. induction l as [|x l IH]; intros [|y l'] HL H; try discriminate; constructor.
  - now apply (H 0).
  - apply IH; [now injection HL|]. intros i. apply (H (S i)).
Qed.

Lemma Forall2_get {B C} (R : B -> C -> Prop) l l' i x y :
  Forall2 R l l' -> nth_error l i = Some x -> nth_error l' i = Some y -> R x y.
Proof.
  intros H. revert i. induction H; intros [|i]; cbn; try discriminate.
  - now intros [= ->] [= ->].
  - apply IHForall2.
Qed.

Lemma fam_one bs vs cs i v xs bs' v' ys :
  fam bs vs cs -> nth_error vs i = Some v -> nth_error cs i = Some xs ->
  frame bs v bs' v' -> holds bs' v' ys ->
  fam bs' (upd vs i v') (upd cs i ys).
Proof.
  intros (HH & HO1 & HO2) Ev Ex Hf Hy.
  assert (forall j w zs, j <> i -> nth_error vs j = Some w -> nth_error cs j = Some zs ->
    holds bs' w zs /\ (forall b, owner w = Some b -> owner v' <> Some b)) as K.
  { intros j w zs Hne Ew Ez. eapply holds_framed; [eapply Forall2_get; eauto|exact Hf|].
    intros b Hb Hv. apply Hne. eapply HO1; eauto. }
  pose proof (Forall2_len _ _ _ HH) as HLen.
  assert (forall j w, nth_error vs j = Some w -> exists zs, nth_error cs j = Some zs) as Kz.
  { intros j w Ew. destruct (nth_error cs j) eqn:E; [eauto|].
    apply nth_error_None in E. apply nth_lt in Ew. lia. }
  split; [|split].
  - apply Forall2_intro; [now rewrite !upd_length|]. intros j w zs Hw Hz.
    apply nth_upd_cases in Hw. apply nth_upd_cases in Hz.
    destruct Hw as [(-> & -> & _)|(Hne & Hw)]; destruct Hz as [(? & -> & _)|(Hne' & Hz)]; try congruence.
    eapply K; eauto.
  - intros j l w u b Hw Hu Ow Ou.
    apply nth_upd_cases in Hw. apply nth_upd_cases in Hu.
    destruct Hw as [(-> & -> & _)|(Hne & Hw)]; destruct Hu as [(-> & -> & _)|(Hne' & Hu)]; auto.
    + destruct (Kz _ _ Hu) as (zs & Hz). destruct (K _ _ _ Hne' Hu Hz) as (_ & Hd).
      exfalso. eapply Hd; eauto.
    + destruct (Kz _ _ Hw) as (zs & Hz). destruct (K _ _ _ Hne Hw Hz) as (_ & Hd).
      exfalso. eapply Hd; eauto.
    + eapply HO1; eauto.
  - intros b Hb Hno.
    assert (owner v' <> Some b) as Hv'.
    { apply Hno. apply nth_error_In with i. apply nth_error_upd_eq. eapply nth_lt; eauto. }
    destruct Hf as (HL & HK & HF).
    destruct (Nat.le_gt_cases (length bs) b) as [Hge|Hlt]; [apply HF; auto|].
    destruct (owner v) as [c|] eqn:Ec.
    + destruct (Nat.eq_dec c b) as [->|Hcb]; [apply HF; auto|].
      destruct (HK b Hlt ltac:(congruence)) as (E & _). rewrite E. apply HO2; [auto|].
      intros w Hw. apply In_nth_error in Hw. destruct Hw as (j & Hw).
      destruct (Nat.eq_dec j i) as [->|Hne]; [congruence|].
      apply Hno. apply nth_error_In with j. rewrite nth_error_upd_neq by lia. exact Hw.
    + destruct (HK b Hlt ltac:(congruence)) as (E & _). rewrite E. apply HO2; [auto|].
      intros w Hw. apply In_nth_error in Hw. destruct Hw as (j & Hw).
      destruct (Nat.eq_dec j i) as [->|Hne]; [congruence|].
      apply Hno. apply nth_error_In with j. rewrite nth_error_upd_neq by lia. exact Hw.
Qed.

Lemma swapped_nth {B} (l : list B) i j a b k :
  nth_error l i = Some a -> nth_error l j = Some b ->
  nth_error (upd (upd l i b) j a) k =
  nth_error l (if k =? j then i else if k =? i then j else k).
Proof.
  intros Ha Hb. pose proof (nth_lt _ _ _ Ha). pose proof (nth_lt _ _ _ Hb).
  destruct (Nat.eqb_spec k j) as [->|H1].
  - rewrite nth_error_upd_eq by now rewrite upd_length. auto.
  - rewrite nth_error_upd_neq by auto. destruct (Nat.eqb_spec k i) as [->|H2].
    + rewrite nth_error_upd_eq by auto. auto.
    + now rewrite nth_error_upd_neq by auto.
Qed.

Lemma fam_swapped bs vs cs i j a b xs ys :
  fam bs vs cs -> nth_error vs i = Some a -> nth_error vs j = Some b ->
  nth_error cs i = Some xs -> nth_error cs j = Some ys ->
  fam bs (upd (upd vs i b) j a) (upd (upd cs i ys) j xs).
Proof.
  intros (HH & HO1 & HO2) Ea Eb Ex Ey.
  split; [|split].
  - apply Forall2_intro; [rewrite !upd_length; eapply Forall2_len; eauto|].
    intros k w zs Hw Hz. rewrite (swapped_nth vs i j a b k Ea Eb) in Hw.
    rewrite (swapped_nth cs i j xs ys k Ex Ey) in Hz. eapply Forall2_get; eauto.
  - intros k l w u c Hw Hu Ow Ou.
    rewrite (swapped_nth vs i j a b k Ea Eb) in Hw. rewrite (swapped_nth vs i j a b l Ea Eb) in Hu.
    pose proof (HO1 _ _ _ _ _ Hw Hu Ow Ou) as E. clear - E.
    destruct (Nat.eqb_spec k j), (Nat.eqb_spec l j), (Nat.eqb_spec k i), (Nat.eqb_spec l i); lia.
  - intros c Hc Hno. apply HO2; auto. intros w Hw. apply Hno.
    apply In_nth_error in Hw. destruct Hw as (k & Hw).
    apply nth_error_In with (if k =? j then i else if k =? i then j else k).
    rewrite (swapped_nth vs i j a b _ Ea Eb). rewrite <- Hw. f_equal.
    destruct (Nat.eqb_spec k j) as [->|]; [rewrite Nat.eqb_refl; destruct (Nat.eqb_spec i j); auto|].
    destruct (Nat.eqb_spec k i) as [->|]; [now rewrite Nat.eqb_refl|].
    destruct (Nat.eqb_spec k j); [lia|]. destruct (Nat.eqb_spec k i); [lia|auto].
Qed.

Lemma on_a_ok {R} (f : M pst R) m a b r m' a' :
  f (m, a) = Ok r (m', a') -> on_a f (m, (a, b)) = Ok r (m', (a', b)).
Proof. intros E. unfold on_a. cbn [fst snd]. now rewrite E. Qed.
Lemma on_b_ok {R} (f : M pst R) m a b r m' b' :
  f (m, b) = Ok r (m', b') -> on_b f (m, (a, b)) = Ok r (m', (a, b')).
Proof. intros E. unfold on_b. cbn [fst snd]. now rewrite E. Qed.

Lemma holds_init bs : holds bs init_pv [].
Proof.
  split; [constructor|]. exists []. cbn. auto.
Qed.

Lemma freed_frame bs v bytes bs' :
  buf bs v bytes -> length bs' = length bs ->
  (forall j, owner v <> Some j -> nth_error bs' j = nth_error bs j) ->
  (forall j, owner v = Some j -> exists a, nth_error bs' j = Some (MFreed a)) ->
  frame bs v bs' init_pv.
Proof.
  intros Hb HL HK HF. split; [lia|]. split.
  - intros j Hj Ho. split; [auto|discriminate].
  - intros j Hj _ [H|H]; [lia|auto].
Qed.

Lemma pcopy_assign_spec bs k a b xs ys :
  holds bs a xs -> holds bs b ys -> (forall j, owner b = Some j -> owner a <> Some j) ->
  room (length ys) ->
  exists bs' k' a', pcopy_assign A T (mkMem bs k, (a, b)) = Ok tt (mkMem bs' k', (a', b)) /\
    holds bs' a' ys /\ frame bs a bs' a'.
Proof.
  intros Ha Hb Hd Hr. destruct (pclear_spec bs k a xs Ha) as (a1 & E1 & Ha1 & F1 & O1).
  unfold pcopy_assign. erewrite bind_ok by (apply on_a_ok; exact E1).
  erewrite bind_ok by (apply on_b_ok; apply pread_all_spec; exact Hb).
  destruct (passign_copy_spec bs k a1 [] ys Ha1) as (bs' & k' & a' & E & H & F); auto.
  { apply Hb. }
  exists bs', k', a'. split; [apply on_a_ok; exact E|]. split; [exact H|]. eapply frame_trans; eauto.
Qed.

Lemma pmove_assign_spec bs k a b xs :
  holds bs a xs ->
  exists bs', pmove_assign A T (mkMem bs k, (a, b)) = Ok tt (mkMem bs' k, (b, init_pv)) /\
    frame bs a bs' init_pv.
Proof.
  intros Ha. destruct Ha as (_ & rest & Hb & _).
  destruct (a_free_spec bs k a _ Hb) as (bs' & E & HL & HK & HF).
  exists bs'. unfold pmove_assign. erewrite bind_ok by (apply on_a_ok; exact E).
  split; [reflexivity|]. eapply freed_frame; eauto.
Qed.

Lemma free_init m : a_free_begin A T (m, init_pv) = Ok tt (m, init_pv).
Proof.
  unfold a_free_begin, mbegin, real_addr. unfold bind at 1. cbn [snd pb init_pv].
  destruct (allocator_aligned A T); reflexivity.
Qed.

Lemma pswap_spec m a b : pswap A T (m, (a, b)) = Ok tt (m, (b, a)).
Proof.
  unfold pswap. unfold get. unfold bind at 1. cbn [fst snd].
  erewrite bind_ok by (apply on_b_ok; reflexivity).
  erewrite bind_ok by (apply on_b_ok; apply free_init).
  unfold bind at 1. cbn [fst snd].
  erewrite bind_ok by (apply on_b_ok; reflexivity).
  erewrite bind_ok by (apply on_a_ok; reflexivity).
  erewrite bind_ok by (apply on_a_ok; apply free_init).
  apply on_a_ok. reflexivity.
Qed.

Lemma upd_id {B} (l : list B) i x : nth_error l i = Some x -> upd l i x = l.
Proof. apply upd_nth_id. Qed.

Lemma nth_in {B} (l : list B) i : i < length l -> exists x, nth_error l i = Some x.
Proof.
  clear. intros H. destruct (nth_error l i) eqn:E; [eauto|]. apply nth_error_None in E. lia.
Qed.

Lemma psys_call_spec early bs k vs cs o :
  fam bs vs cs -> pod_sys_ok T cs o ->
  exists r bs' k' vs' cs', psys_call A T early o (mkMem bs k, vs) = Ok r (mkMem bs' k', vs') /\
    pod_sys_step A T cs o cs' (answer r) /\ fam bs' vs' cs'.
Proof.
  intros Hfam Hok. pose proof Hfam as (HH & HO1 & HO2). pose proof (Forall2_len _ _ _ HH) as HLen.
  assert (forall i xs, nth_error cs i = Some xs -> exists v, nth_error vs i = Some v /\ holds bs v xs) as Kv.
  { intros i xs E. destruct (nth_error vs i) as [v|] eqn:Ev.
    - exists v. split; [auto|]. eapply Forall2_get; eauto.
    - apply nth_error_None in Ev. apply nth_lt in E. lia. }
  destruct o as [i o|i j|i j|i j]; cbn in Hok; cbn [psys_call].
  - destruct Hok as (xs & Ex & Hok). destruct (Kv _ _ Ex) as (v & Ev & Hv).
    destruct (pcall_spec early o bs k v xs Hv Hok) as (r & bs' & k' & v' & xs' & E & Hs & H & F).
    exists r, bs', k', (upd vs i v'), (upd cs i xs').
    unfold pon_one. cbn [fst snd]. rewrite Ev, E. split; [reflexivity|].
    split; [econstructor; eauto|]. eapply fam_one; eauto.
  - destruct Hok as (Hi & ys & Ey & Hr). destruct (Kv _ _ Ey) as (b & Eb & Hb).
    destruct (nth_in cs i Hi) as (xs & Ex). destruct (Kv _ _ Ex) as (a & Ea & Ha).
    destruct (Nat.eqb_spec i j) as [->|Hne].
    + exists None, bs, k, vs, cs. unfold pon_one. cbn [fst snd]. rewrite Eb. unfold ret. cbn.
      rewrite (upd_id vs j b Eb). split; [reflexivity|]. split; [|exact Hfam].
      pose proof (sys_copy A T cs j j ys Ey) as K. now rewrite (upd_id cs j ys Ey) in K.
    + destruct (pcopy_assign_spec bs k a b xs ys Ha Hb) as (bs' & k' & a' & E & H & F); auto.
      { intros c Ob Oa. apply Hne. eapply HO1; eauto. }
      exists None, bs', k', (upd vs i a'), (upd cs i ys).
      unfold pon_two. cbn [fst snd]. rewrite Ea, Eb, E. 
      rewrite (upd_id (upd vs i a') j b) by (rewrite nth_error_upd_neq; auto).
      split; [reflexivity|]. split; [now constructor|]. eapply fam_one; eauto.
  - destruct Hok as (Hi & Hj).
    destruct (nth_in cs i Hi) as (xs & Ex). destruct (Kv _ _ Ex) as (a & Ea & Ha).
    destruct (nth_in cs j Hj) as (ys & Ey). destruct (Kv _ _ Ey) as (b & Eb & Hb).
    destruct (Nat.eqb_spec i j) as [->|Hne].
    + exists None, bs, k, vs, cs. unfold pon_one. cbn [fst snd]. rewrite Eb. unfold ret. cbn.
      rewrite (upd_id vs j b Eb). split; [reflexivity|]. split; [constructor|exact Hfam].
    + destruct (pmove_assign_spec bs k a b xs Ha) as (bs' & E & F).
      exists None, bs', k, (upd (upd vs i b) j init_pv), (upd (upd cs i ys) j []).
      unfold pon_two. cbn [fst snd]. rewrite Ea, Eb, E.
      split; [reflexivity|]. split; [now constructor|].
      pose proof (fam_one bs vs cs i a xs bs' init_pv [] Hfam Ea Ex F (holds_init bs')) as H1.
      pose proof (fam_swapped bs' _ _ i j init_pv b [] ys H1) as H2.
      rewrite !upd_upd_same in H2. apply H2.
      * apply nth_error_upd_eq. eapply nth_lt; eauto.
      * rewrite nth_error_upd_neq; auto.
      * apply nth_error_upd_eq. eapply nth_lt; eauto.
      * rewrite nth_error_upd_neq; auto.
  - destruct Hok as (Hi & Hj).
    destruct (nth_in cs i Hi) as (xs & Ex). destruct (Kv _ _ Ex) as (a & Ea & Ha).
    destruct (nth_in cs j Hj) as (ys & Ey). destruct (Kv _ _ Ey) as (b & Eb & Hb).
    destruct (Nat.eqb_spec i j) as [->|Hne].
    + exists None, bs, k, vs, cs. unfold pon_one. cbn [fst snd]. rewrite Eb. unfold ret. cbn.
      rewrite (upd_id vs j b Eb). split; [reflexivity|]. split; [|exact Hfam].
      pose proof (sys_swap A T cs j j ys ys Ey Ey) as K.
      now rewrite !(upd_id cs j ys Ey) in K.
    + exists None, bs, k, (upd (upd vs i b) j a), (upd (upd cs i ys) j xs).
      unfold pon_two. cbn [fst snd]. rewrite Ea, Eb, pswap_spec.
      split; [reflexivity|]. split; [now constructor|]. now apply fam_swapped.
Qed.

Lemma history_spec early os : forall bs k vs cs,
  fam bs vs cs -> pod_sys_along A T cs os ->
  exists bs' k' vs' cs' rs, run_calls (psys_call A T early) (mkMem bs k, vs) os = Some ((mkMem bs' k', vs'), rs) /\
    pod_history A T cs os cs' rs /\ fam bs' vs' cs'.
Proof.
  induction os as [|o os IH]; intros bs k vs cs Hf Hal.
  - exists bs, k, vs, cs, []. split; [reflexivity|]. split; [constructor|exact Hf].
  - destruct Hal as (Hok & Hal).
    destruct (psys_call_spec early bs k vs cs o Hf Hok) as (r & bs1 & k1 & vs1 & cs1 & E & Hs & Hf1).
    destruct (IH bs1 k1 vs1 cs1 Hf1 (Hal _ _ Hs)) as (bs' & k' & vs' & cs' & rs & E' & Hh & Hf').
    exists bs', k', vs', cs', (answer r :: rs). cbn [run_calls]. rewrite E.
    split; [destruct r; cbn; now rewrite E'|]. split; [econstructor; eauto|exact Hf'].
Qed.

Lemma fam_start n : fam [] (repeat init_pv n) (repeat [] n).
Proof.
  split; [|split].
  - induction n; constructor; auto. apply holds_init.
  - intros i j v w b Hv Hw Ov. apply nth_error_In, repeat_spec in Hv. subst. discriminate.
  - intros b Hb. cbn in Hb. lia.
Qed.

Lemma destroy_all_spec vs : forall bs k cs,
  fam bs vs cs ->
  exists bs', destroy_all_pods A T vs (mkMem bs k) = Ok tt (mkMem bs' k) /\
    length bs' = length bs /\ forall b, b < length bs -> exists a, nth_error bs' b = Some (MFreed a).
Proof.
  induction vs as [|v vs IH]; intros bs k cs (HH & HO1 & HO2).
  - exists bs. split; [reflexivity|]. split; [reflexivity|]. intros b Hb. apply HO2; auto.
  - inversion HH as [|? xs ? cs' Hv Hvs]; subst. destruct Hv as (Hxs & rest & Hb & _).
    destruct (a_free_spec bs k v _ Hb) as (bs1 & E & HL & HK & HF).
    assert (forall j w, nth_error vs j = Some w -> forall b, owner w = Some b -> owner v <> Some b) as Hd.
    { intros j w Hw b Ow Ov. specialize (HO1 0 (S j) v w b eq_refl Hw Ov Ow). discriminate. }
    destruct (IH bs1 k cs') as (bs' & E' & HL' & H').
    + split; [|split].
      * apply Forall2_intro; [eapply Forall2_len; eauto|]. intros i w ys Hw Hy.
        eapply holds_framed; [eapply Forall2_get; eauto|eapply freed_frame; eauto|].
        intros j Oj. eapply Hd; eauto.
      * intros i j w u b Hw Hu Ow Ou. specialize (HO1 (S i) (S j) w u b Hw Hu Ow Ou). lia.
      * intros b Hlt Hno.
        assert ({owner v = Some b} + {owner v <> Some b}) as [Ev|Ev] by (decide equality; apply Nat.eq_dec).
        { now apply HF. }
        rewrite HK by auto. apply HO2; [lia|]. intros w [<-|Hw]; auto.
    + exists bs'. cbn [destroy_all_pods]. unfold pdestructor. rewrite E. rewrite E'.
      split; [reflexivity|]. split; [lia|]. intros b Hlt. apply H'. lia.
Qed.

Lemma storage_spec bs k v xs : holds bs v xs -> storage_ok A T (mkMem bs k) v.
Proof.
  intros Hh. destruct (holds_parts _ _ _ Hh) as (rest & Hx & Hb & He & Hc & Hl & Hlen & Hn0 & Hc0).
  unfold storage_ok. destruct (pb v) as [[b o]|] eqn:E; [|now apply Hc0].
  pose proof Hb as Hb'. unfold PodVectorSpec.buf in Hb. rewrite E in Hb.
  destruct Hb as (a & pre & Hn & -> & Hh').
  exists a, (pre ++ concat xs ++ rest). split; [exact Hn|].
  split; [apply Hh'|]. split; [rewrite !app_length in *; lia|].
  intros w. rewrite <- E. eapply real_addr_spec; eauto.
Qed.

(** Comparison. *)
Lemma concat_inj (xs ys : list (list N)) :
  Forall (is_elem T) xs -> Forall (is_elem T) ys -> length xs = length ys ->
  concat xs = concat ys -> xs = ys.
Proof.
  intros Hx Hy HL E. rewrite <- (chunks_concat T xs Hx), <- (chunks_concat T ys Hy). now rewrite HL, E.
Qed.

Lemma pequal_spec bs k a b xs ys :
  holds bs a xs -> holds bs b ys -> room (length xs) ->
  exists r, pequal T (mkMem bs k, (a, b)) = Ok r (mkMem bs k, (a, b)) /\ (r = true <-> xs = ys).
Proof.
  intros Ha Hb Hr. pose proof (room_self _ Hr) as Hrs.
  destruct (holds_parts _ _ _ Ha) as (resta & Hx & Hba & Hea & _ & _ & _ & Hn0a & _).
  destruct (holds_parts _ _ _ Hb) as (restb & Hy & Hbb & Heb & _ & _ & _ & Hn0b & _).
  unfold pequal.
  erewrite bind_ok by (apply on_a_ok, (psize_spec _ _ (length xs)); auto).
  erewrite bind_ok by (apply on_b_ok, (psize_spec _ _ (length ys)); auto).
  destruct (Nat.eqb_spec (length xs) (length ys)) as [EL|EL]; cbn [negb].
  2:{ exists false. split; [reflexivity|]. split; [discriminate|congruence]. }
  destruct (Nat.eqb_spec (length xs) 0) as [E0|E0].
  { exists true. split; [reflexivity|]. split; [|auto]. intros _.
    destruct xs, ys; try discriminate. reflexivity. }
  erewrite bind_ok by (apply on_a_ok; reflexivity).
  erewrite bind_ok by (apply on_b_ok; reflexivity).
  rewrite e2b_small by (unfold two63, two64 in *; lia).
  replace (N.to_nat (N.of_nat (length xs) * N.of_nat SZ)) with (length xs * SZ) by lia.
  cbn [fst snd].
  erewrite bind_ok.
  2:{ apply on_a_ok. rewrite (begin_raw a). eapply (read_raw bs k a a [] (concat xs) resta); auto.
      now apply concat_length_elems. }
  erewrite bind_ok.
  2:{ apply on_b_ok. rewrite (begin_raw b). eapply (read_raw bs k b b [] (concat ys) restb); auto.
      - intros Ep. specialize (Hn0b Ep). lia.
      - rewrite EL. now apply concat_length_elems. }
  destruct (list_eq_dec N.eq_dec (concat xs) (concat ys)) as [E|E].
  - exists true. split; [reflexivity|]. split; [intros _; now apply concat_inj|auto].
  - exists false. split; [reflexivity|]. split; [discriminate|congruence].
Qed.
(** ** resize(n, val) past the block *)

Lemma pfill_over v x n : is_elem T x ->
  forall bs k B1 B2 d, buf bs v (B1 ++ B2) -> pb v <> None -> length B1 = d -> length B2 < n * SZ ->
  pfill T (after_begin v d) n (Val x) (mkMem bs k, v) = UB.
Proof.
  intros Hx. pose proof sz_pos as Hsz.
  induction n as [|n IH]; intros bs k B1 B2 d Hb Hp Hd Hl; [cbn in Hl; lia|].
  cbn [pfill]. unfold value_of. unfold bind at 1, ret at 1.
  destruct (Nat.le_gt_cases SZ (length B2)) as [Hle|Hgt].
  - destruct (write_raw bs k v B1 (firstn SZ B2) (skipn SZ B2) x d) as (bs' & E & Hb' & Hf); auto.
    { now rewrite firstn_skipn. }
    { rewrite firstn_length. rewrite Hx. lia. }
    erewrite bind_ok by exact E.
    erewrite bind_ok.
    2:{ eapply (padd_raw bs' k v v); [exact Hb'|]. rewrite !app_length, Hx. lia. }
    replace (d + N.to_nat (N.of_nat SZ)) with (d + SZ) by lia.
    apply (IH bs' k (B1 ++ x) (skipn SZ B2)); auto.
    + now rewrite <- app_assoc.
    + rewrite app_length, Hx. lia.
    + rewrite skipn_length. lia.
  - destruct (buf_block _ _ _ Hb Hp) as (b & o & a & pre & Ep & Eo & Hn & -> & Hh).
    unfold bind at 1. unfold write_bytes, after_begin. rewrite Ep. cbn [fst blks]. rewrite Hn.
    rewrite (proj2 (Nat.leb_gt _ _)); [reflexivity|].
    rewrite !app_length, Hx. lia.
Qed.

Lemma presize_val_over bs k v xs n x bytes :
  holds bs v xs -> is_elem T x -> xs <> [] -> n <= pcap v -> buf bs v bytes ->
  length bytes < (length xs + n) * SZ ->
  presize_val A T (N.of_nat n) (Val x) (mkMem bs k, v) = UB.
Proof.
  intros Hh Hx Hne Hn Hb Hl.
  destruct (holds_parts _ _ _ Hh) as (rest & Hxs & Hb' & He & Hc & Hcl & Hlen & Hn0 & Hc0).
  assert (pb v <> None) as Hp.
  { intros E. apply Hne, length_zero_iff_nil, Hn0, E. }
  assert (length bytes = length (concat xs ++ rest)) as Hbl.
  { unfold PodVectorSpec.buf in Hb, Hb'. destruct (pb v) as [[b o]|]; [|congruence].
    destruct Hb as (a & pre & Hnn & Ho & _). destruct Hb' as (a' & pre' & Hnn' & Ho' & _).
    rewrite Hnn in Hnn'. injection Hnn' as _ E. apply (f_equal (@length N)) in E.
    rewrite !app_length in *. lia. }
  unfold presize_val, preserve. unfold mcap at 1. unfold bind at 2. unfold bind at 1. cbn [snd].
  rewrite (proj2 (N.leb_le _ _)) by lia. unfold ret at 1.
  unfold mend at 1. unfold bind at 1. cbn [snd]. rewrite He, Nat2N.id.
  unfold bind at 1. rewrite (pfill_over v x n Hx bs k (concat xs) rest); auto.
  - now apply concat_length_elems.
  - lia.
Qed.

Lemma a_malloc_len bs k v c p a bytes k' v' :
  (c * N.of_nat SZ + N.of_nat AL < two63)%N ->
  a_malloc A T c (mkMem bs k, v) = Ok p (mkMem (bs ++ [MBlk a bytes]) k', v') ->
  length bytes = N.to_nat c * SZ + (if allocator_aligned A T then 0 else AL).
Proof.
  intros Hc. unfold a_malloc. rewrite e2b_small by (unfold two63, two64 in *; lia).
  rewrite (N.mod_small (c * N.of_nat SZ + N.of_nat AL)) by (unfold two63, two64 in *; lia).
  assert (forall (l : list mblk) x, l <> l ++ [x]) as Hno.
  { intros l x E. apply (f_equal (@length mblk)) in E. rewrite app_length in E. cbn in E. lia. }
  destruct (allocator_aligned A T).
  - unfold alloc_malloc. cbn [fst snd blks ncall]. destruct (a_addr A k _).
    + intros [= _ E _ _]. apply app_inj_tail in E. destruct E as (_ & [= _ <-]). rewrite junk_length. lia.
    + intros [= _ E _ _]. now apply Hno in E.
  - unfold alloc_malloc. unfold bind at 1. cbn [fst snd blks ncall]. destruct (a_addr A k _) as [a1|].
    + unfold align_ptr. unfold get. unfold bind at 1. cbn [fst addr_of].
      unfold padd. unfold bind at 1. cbn [fst blks].
      rewrite nth_error_app_mid by reflexivity.
      destruct (_ <=? _)%N; [|discriminate].
      unfold write_bytes. unfold bind at 1. cbn [fst snd blks]. rewrite nth_error_app_mid by reflexivity.
      match goal with |- context [if ?c then _ else _] => destruct c eqn:Ec; [|discriminate] end.
      apply Nat.leb_le in Ec. cbn [length] in Ec.
      intros [= _ E _ _]. rewrite upd_app_mid in E by reflexivity. apply app_inj_tail in E.
      destruct E as (_ & [= _ <-]). unfold splice. rewrite !app_length, firstn_length, skipn_length.
      cbn [length]. rewrite junk_length in *. lia.
    + unfold align_ptr, ret. intros [= _ E _ _]. now apply Hno in E.
Qed.

Lemma fresh_assign k n x : is_elem T x -> 0 < n -> room n -> AL <= SZ ->
  exists bs' k' v' bytes,
    passign_fill A T (N.of_nat n) (Val x) (mkMem [] k, init_pv) = Ok tt (mkMem bs' k', v') /\
    holds bs' v' (repeat x n) /\ pcap v' = n /\ buf bs' v' bytes /\ length bytes < (n + 1) * SZ.
Proof.
  intros Hx Hn Hr Hal. pose proof al_pos as Hal1.
  assert (N.of_nat n * N.of_nat SZ + N.of_nat AL < two63)%N as Hfit.
  { apply (room_lt n); auto. pose proof (N.le_0_l (N.of_nat n / 2)). lia. }
  destruct (a_malloc_spec [] k (mkPv None None n) (N.of_nat n) Hfit)
    as (a & pre & nb & k' & E & Hhd & Hnb).
  pose proof (a_malloc_len _ _ _ _ _ _ _ _ _ Hfit E) as HL. cbn [app length] in E.
  rewrite Nat2N.id in *.
  assert (length nb < (n + 1) * SZ) as Hlt.
  { rewrite app_length in HL. unfold PodVectorSpec.header in Hhd. destruct (allocator_aligned A T).
    - destruct Hhd as ((-> & _) & _). cbn in HL. pose proof sz_pos. lia.
    - destruct Hhd as ((_ & pad & Ep) & _). apply (f_equal (@length N)) in Ep.
      rewrite app_length in Ep. cbn [length] in Ep. lia. }
  set (v1 := mkPv (Some (0, length pre)) (Some (0, length pre)) n).
  assert (buf [MBlk a (pre ++ nb)] v1 nb) as Hb1.
  { exists a, pre. auto. }
  destruct (pfill_raw v1 x n Hx [MBlk a (pre ++ nb)] k' [] (firstn (n * SZ) nb) (skipn (n * SZ) nb) 0)
    as (bs2 & E2 & Hb2 & Hf2); auto.
  { cbn [app]. now rewrite firstn_skipn. }
  { rewrite firstn_length. lia. }
  destruct (holds_intro bs2 k' v1 (repeat x n) (skipn (n * SZ) nb) n)
    as (w & E3 & Hh3 & Hf3 & Hw); auto.
  { apply repeat_length. }
  { now apply Forall_repeat'. }
  { rewrite skipn_length. cbn [v1 pcap]. lia. }
  exists bs2, k', w, (concat (repeat x n) ++ skipn (n * SZ) nb). split; [|split; [exact Hh3|]].
  - unfold passign_fill, safe_grow. rewrite bind_assoc.
    unfold mcap at 1. unfold bind at 1. cbn [snd init_pv pcap].
    rewrite (proj2 (N.leb_gt _ _)) by lia. rewrite bind_assoc.
    erewrite bind_ok by apply free_init. rewrite bind_assoc.
    unfold get_new_capacity. unfold mcap at 1. unfold bind at 2. unfold bind at 1. cbn [snd init_pv pcap Nat.eqb].
    unfold ret at 1. rewrite bind_assoc. unfold set_cap at 1. unfold bind at 1. cbn [fst snd].
    rewrite Nat2N.id. rewrite bind_assoc. erewrite bind_ok by exact E.
    unfold set_begin, set_pend. unfold bind at 2. unfold bind at 1. cbn [fst snd pcap pb pe].
    unfold mbegin at 1. unfold bind at 1. cbn [snd pb].
    change (mkPv (Some (0, length pre)) (Some (0, length pre)) n) with v1.
    change (Some (0, length pre)) with (pb v1). rewrite (begin_raw v1).
    erewrite bind_ok by exact E2. exact E3.
  - destruct Hw as (Hw1 & Hw2). split; [exact Hw1|]. split; [apply (buf_pb _ v1); auto|].
    rewrite app_length, (concat_length_elems T) by now apply Forall_repeat'.
    rewrite repeat_length, skipn_length. lia.
Qed.

(** ** Own elements *)

Lemma pick bs k v xs i x : holds bs v xs -> nth_error xs i = Some x ->
  forall w, read_bytes (after_begin v (i * SZ)) SZ (mkMem bs k, w) = Ok x (mkMem bs k, w).
Proof.
  intros Hh Hi w. pose proof sz_pos.
  destruct (holds_parts _ _ _ Hh) as (rest & Hx & Hb & He & Hc & Hl & Hlen & Hn0 & Hc0).
  pose proof (nth_lt _ _ _ Hi) as Hlt.
  pose proof (nth_error_split_eq _ _ _ Hi) as Es.
  assert (Forall (is_elem T) (firstn i xs)) as HF by now apply Forall_firstn'.
  eapply (read_raw bs k v w (concat (firstn i xs)) x (concat (skipn (S i) xs) ++ rest)).
  - rewrite Es, concat_app in Hb. cbn [concat] in Hb. rewrite <- !app_assoc in Hb. exact Hb.
  - intros E. specialize (Hn0 E). lia.
  - rewrite (concat_length_elems T) by auto. rewrite firstn_length. lia.
  - rewrite Forall_forall in Hx. apply Hx. eapply nth_error_In; eauto.
Qed.

Lemma push_own early bs k v xs i x : holds bs v xs -> nth_error xs i = Some x ->
  room (length xs + 1) -> early = true \/ length xs < pcap v ->
  exists bs' k' v',
    ppush_back A T early (Ref (after_begin v (i * SZ))) (mkMem bs k, v) = Ok tt (mkMem bs' k', v') /\
    holds bs' v' (xs ++ [x]) /\ frame bs v bs' v'.
Proof.
  intros Hh Hi Hr Hor.
  assert (is_elem T x) as Hx.
  { destruct Hh as (Hf & _). rewrite Forall_forall in Hf. apply Hf. eapply nth_error_In; eauto. }
  destruct (pemplace_back_spec bs k v xs Hh Hr) as (bs1 & k1 & v1 & h & E & _ & Hh1 & Hf1 & Hin).
  destruct (write_hole1 bs1 k1 v1 xs h [] x Hh1 Hx) as (bs2 & E2 & Hh2 & Hf2).
  exists bs2, k1, v1. split; [|split; [exact Hh2|eapply frame_trans; eauto]].
  unfold ppush_back. destruct early; unfold value_of.
  - erewrite bind_ok by (eapply pick; eauto). erewrite bind_ok by exact E. exact E2.
  - destruct Hor as [|Hlt]; [discriminate|]. destruct (Hin Hlt) as (-> & Hpb).
    erewrite bind_ok by exact E.
    erewrite bind_ok by (eapply pick; eauto). exact E2.
Qed.

(** Without a relocation m_begin stays. *)
Definition keeps_begin {R} (f : M pst R) : Prop :=
  forall st r st', f st = Ok r st' -> pb (snd st') = pb (snd st).

Lemma keeps_bind {R Q} (f : M pst R) (g : R -> M pst Q) :
  keeps_begin f -> (forall r, keeps_begin (g r)) -> keeps_begin (bind f g).
Proof.
  intros Hf Hg st q st' H. unfold bind in H. destruct (f st) as [r st1| | |] eqn:E; try discriminate.
  rewrite (Hg r _ _ _ H). eapply Hf; eauto.
Qed.
Lemma keeps_ret {R} (r : R) : keeps_begin (ret r).
Proof. now intros st r' st' [= _ <-]. Qed.
Lemma keeps_padd p n : keeps_begin (padd p n).
Proof.
  intros st r st'. unfold padd. destruct p as [[b o]|].
  - destruct (nth_error _ _) as [[]|]; try discriminate. destruct (_ <=? _)%N; [|discriminate]. now intros [= _ <-].
  - destruct (_ =? _)%N; [|discriminate]. now intros [= _ <-].
Qed.
Lemma keeps_read p n : keeps_begin (read_bytes p n).
Proof.
  intros st r st'. unfold read_bytes. destruct p as [[b o]|]; [|discriminate].
  destruct (nth_error _ _) as [[]|]; try discriminate. destruct (_ <=? _); [|discriminate]. now intros [= _ <-].
Qed.
Lemma keeps_write p l : keeps_begin (write_bytes p l).
Proof.
  intros st r st'. unfold write_bytes. destruct p as [[b o]|]; [|discriminate].
  destruct (nth_error _ _) as [[]|]; try discriminate. destruct (_ <=? _); [|discriminate].
  now intros [= _ <-].
Qed.

Lemma keeps_psize : keeps_begin (psize T).
Proof.
  intros st r st'. unfold psize. destruct (pb (snd st)) as [[b o]|] eqn:E, (pe (snd st)) as [[b' o']|]; try discriminate.
  - destruct ((b =? b') && (o <=? o'))%bool; [|discriminate]. now intros [= _ <-].
  - now intros [= _ <-].
Qed.
Lemma keeps_mbegin : keeps_begin mbegin.
Proof. intros st r st' H. unfold mbegin in H. injection H. now intros <-. Qed.
Lemma keeps_mend : keeps_begin mend.
Proof. intros st r st' H. unfold mend in H. injection H. now intros <-. Qed.
Lemma keeps_set_pend p : keeps_begin (set_pend p).
Proof. intros st r st' H. unfold set_pend in H. injection H. now intros <-. Qed.
Ltac keeps := repeat (first [ apply keeps_ret | apply keeps_padd | apply keeps_read | apply keeps_write
  | apply keeps_psize | apply keeps_mbegin | apply keeps_mend | apply keeps_set_pend
  | apply keeps_bind; [|intros ?] ]).

Lemma pgrow_inplace bs k v xs off num p st' :
  holds bs v xs -> off <= length xs -> room (length xs + num) -> length xs + num <= pcap v ->
  pgrow_at A T off (N.of_nat num) (mkMem bs k, v) = Ok p st' -> pb (snd st') = pb v.
Proof.
  intros Hh Hoff Hr Hcap H. pose proof sz_pos.
  destruct (holds_parts _ _ _ Hh) as (rest & Hx & Hb & He & Hc & Hl & Hlen & Hn0 & Hc0).
  unfold pgrow_at in H. erewrite bind_ok in H by (apply (psize_spec _ _ (length xs)); auto).
  assert ((N.of_nat (length xs) + N.of_nat num) mod two64 = N.of_nat (length xs + num))%N as Em.
  { pose proof (room_self _ Hr). rewrite N.mod_small; [lia|]. unfold two63, two64 in *. nia. }
  rewrite Em in H.
  assert (forall n, keeps_begin (end_at T n)) as Kend by (intros n; unfold end_at; keeps).
  destruct (Nat.eqb_spec off (length xs)) as [E|E].
  - rewrite bind_assoc in H. unfold presize in H. rewrite bind_assoc in H. unfold preserve in H.
    unfold mcap in H at 1. unfold bind in H at 2. unfold bind in H at 1. cbn [snd] in H.
    rewrite (proj2 (N.leb_le _ _)) in H by lia. unfold ret in H at 1.
    revert H. match goal with |- ?f _ = _ -> _ => assert (keeps_begin f) as K end.
    { keeps; try apply Kend. destruct (_ && _)%bool; unfold memset0; keeps. }
    apply K.
  - unfold mcap in H at 1. rewrite bind_assoc in H. unfold bind in H at 1. cbn [snd] in H.
    rewrite (proj2 (N.ltb_ge _ _)) in H by lia.
    revert H. match goal with |- ?f _ = _ -> _ => assert (keeps_begin f) as K end.
    { unfold memmove. keeps; try apply Kend. }
    apply K.
Qed.

Lemma after_begin_pb v v' n : pb v' = pb v -> after_begin v' n = after_begin v n.
Proof. unfold after_begin. now intros ->. Qed.

(** insert(pos, v[i]) with room: right for i < pos, the element before for i > pos. *)
Lemma insert_own bs k v xs pos i x y :
  holds bs v xs -> pos <= length xs -> nth_error xs i = Some x ->
  room (length xs + 1) -> length xs + 1 <= pcap v ->
  (i < pos /\ y = x) \/ (pos < i /\ nth_error xs (i - 1) = Some y) ->
  exists bs' k' v',
    pinsert1 A T pos (Ref (after_begin v (i * SZ))) (mkMem bs k, v) = Ok pos (mkMem bs' k', v') /\
    holds bs' v' (insert_at xs pos [y]) /\ frame bs v bs' v'.
Proof.
  intros Hh Hpos Hi Hr Hcap Hy. pose proof (nth_lt _ _ _ Hi) as Hlt.
  destruct (pgrow_at_spec bs k v xs pos 1 Hh Hpos Hr) as (bs1 & k1 & v1 & hole & E & Hh1 & Hho & Lho & Hf1).
  pose proof (pgrow_inplace _ _ _ _ _ 1 _ _ Hh Hpos Hr Hcap E) as Hpb. cbn [snd] in Hpb.
  unfold pinsert1. change 1%N with (N.of_nat 1). erewrite bind_ok by exact E.
  destruct hole as [|h [|]]; try discriminate.
  assert (nth_error (firstn pos xs ++ [h] ++ skipn pos xs) i = Some y) as Hn.
  { assert (length (firstn pos xs) = pos) as Lf by (rewrite firstn_length; lia).
    destruct Hy as [(H1 & ->)|(H1 & Hy)].
    - rewrite nth_error_app1 by lia. rewrite <- (firstn_skipn pos xs) in Hi.
      rewrite nth_error_app1 in Hi by lia. exact Hi.
    - rewrite nth_error_app2 by lia. rewrite Lf. cbn [app].
      replace (i - pos) with (S (i - 1 - pos)) by lia. cbn [nth_error].
      rewrite <- (firstn_skipn pos xs) in Hy. rewrite nth_error_app2 in Hy by lia. now rewrite Lf in Hy. }
  assert (is_elem T y) as Hel.
  { destruct Hh1 as (HF & _). rewrite Forall_forall in HF. apply HF. eapply nth_error_In; eauto. }
  unfold value_of. rewrite <- (after_begin_pb v v1) by exact Hpb.
  erewrite bind_ok by (eapply pick; eauto).
  destruct (write_hole1 bs1 k1 v1 (firstn pos xs) h (skipn pos xs) y Hh1 Hel) as (bs2 & E2 & Hh2 & Hf2).
  replace (length (firstn pos xs)) with pos in E2 by (rewrite firstn_length; lia).
  erewrite bind_ok by exact E2.
  exists bs2, k1, v1. split; [reflexivity|]. split; [exact Hh2|]. eapply frame_trans; eauto.
Qed.
(** A relocation: without expand a vector which has no room begins in a new block. *)
Definition mono {R} (f : M pst R) : Prop :=
  forall st r st', f st = Ok r st' -> length (blks (fst st)) <= length (blks (fst st')).
Definition is_new (st : pst) (p : bptr) : Prop :=
  match p with None => True | Some (b, _) => length (blks (fst st)) <= b end.
Definition begins_new {R} (f : M pst R) : Prop :=
  forall st r st', f st = Ok r st' -> is_new st (pb (snd st')).
Definition gives_new (f : M pst bptr) : Prop :=
  forall st p st', f st = Ok p st' -> is_new st p.
Definition sets (p : bptr) {R} (f : M pst R) : Prop :=
  forall st r st', f st = Ok r st' -> pb (snd st') = p.

Lemma sets_later {R Q} p (f : M pst R) (g : R -> M pst Q) :
  (forall r, sets p (g r)) -> sets p (bind f g).
Proof.
  intros Hg st q st' H. apply bind_inv in H as (r & st1 & _ & H). eapply Hg; eauto.
Qed.
Lemma sets_here {R Q} p (f : M pst R) (g : R -> M pst Q) :
  sets p f -> (forall r, keeps_begin (g r)) -> sets p (bind f g).
Proof.
  intros Hf Hg st q st' H. apply bind_inv in H as (r & st1 & E & H).
  rewrite (Hg r _ _ _ H). eapply Hf; eauto.
Qed.
Lemma sets_begin p : sets p (set_begin p).
Proof. intros st r st' H. unfold set_begin in H. injection H as _ <-. reflexivity. Qed.
Lemma keeps_set_cap c : keeps_begin (set_cap c).
Proof. intros st r st' H. unfold set_cap in H. injection H as _ <-. reflexivity. Qed.

Lemma new_later {R Q} (f : M pst R) (g : R -> M pst Q) :
  mono f -> (forall r, begins_new (g r)) -> begins_new (bind f g).
Proof.
  intros Hf Hg st q st' H. apply bind_inv in H as (r & st1 & E & H).
  pose proof (Hf _ _ _ E). pose proof (Hg r _ _ _ H) as N. unfold is_new in *.
  destruct (pb (snd st')) as [[b o]|]; [lia|exact Logic.I].
Qed.
Lemma new_here {R Q} (f : M pst R) (g : R -> M pst Q) :
  begins_new f -> (forall r, keeps_begin (g r)) -> begins_new (bind f g).
Proof.
  intros Hf Hg st q st' H. apply bind_inv in H as (r & st1 & E & H).
  rewrite (Hg r _ _ _ H). eapply Hf; eauto.
Qed.
Lemma new_given {Q} (f : M pst bptr) (g : bptr -> M pst Q) :
  gives_new f -> (forall p, sets p (g p)) -> begins_new (bind f g).
Proof.
  intros Hf Hg st q st' H. apply bind_inv in H as (r & st1 & E & H).
  rewrite (Hg r _ _ _ H). eapply Hf; eauto.
Qed.

Lemma gives_alloc_malloc n : gives_new (alloc_malloc A n).
Proof.
  intros st p st' H. unfold alloc_malloc in H. destruct (a_addr A _ _); injection H as <- _; cbn; auto.
Qed.
Lemma gives_alloc_realloc q n : gives_new (alloc_realloc A q n).
Proof.
  intros st p st' H. unfold alloc_realloc in H. destruct q as [[b o]|]; [|eapply gives_alloc_malloc; eauto].
  destruct o; [|discriminate]. destruct (nth_error _ _) as [[]|]; try discriminate.
  destruct (a_addr A _ _); injection H as <- _; cbn; auto.
Qed.
Lemma padd_block p n st q st' : padd p n st = Ok q st' ->
  match p, q with None, None => True | Some (b, _), Some (b', _) => b = b' | _, _ => False end.
Proof.
  unfold padd. destruct p as [[b o]|].
  - destruct (nth_error _ _) as [[]|]; try discriminate. destruct (_ <=? _)%N; [|discriminate]. now intros [= <- _].
  - destruct (_ =? _)%N; [|discriminate]. now intros [= <- _].
Qed.
Lemma gives_a_malloc n : gives_new (a_malloc A T n).
Proof.
  unfold a_malloc. destruct (allocator_aligned A T); [apply gives_alloc_malloc|].
  intros st p st' H. apply bind_inv in H as (q & st1 & E & H).
  pose proof (gives_alloc_malloc _ _ _ _ E) as Nq. unfold align_ptr in H.
  destruct q as [[b o]|]; [|injection H as <- _; exact Logic.I].
  rewrite bind_get in H. cbv zeta in H. apply bind_inv in H as (f & st2 & E2 & H).
  apply bind_inv in H as (u & st3 & _ & H). injection H as <- _.
  apply padd_block in E2. destruct f as [[b' o']|]; [|exact Logic.I]. now subst b'.
Qed.

Lemma mono_same {R} (f : M pst R) : (forall st r st', f st = Ok r st' -> st' = st) -> mono f.
Proof. intros H st r st' E. now rewrite (H _ _ _ E). Qed.
Lemma mono_mbegin : mono mbegin.
Proof. apply mono_same. intros st r st' H. unfold mbegin in H. now injection H. Qed.
Lemma mono_mcap : mono mcap.
Proof. apply mono_same. intros st r st' H. unfold mcap in H. now injection H. Qed.
Lemma mono_psize : mono (psize T).
Proof.
  apply mono_same. intros st r st'. unfold psize.
  destruct (pb (snd st)) as [[b o]|] eqn:E, (pe (snd st)) as [[b' o']|]; try discriminate.
  - destruct ((b =? b') && (o <=? o'))%bool; [|discriminate]. now intros [= _ <-].
  - now intros [= _ <-].
Qed.
Lemma mono_capacity n : mono (get_new_capacity n).
Proof.
  apply mono_same. intros st r st' H. unfold get_new_capacity in H.
  apply bind_inv in H as (c & st1 & E & H). unfold mcap in E. injection E as _ <-.
  destruct (c =? 0); [now injection H|]. destruct (grow_cap _ _ _); [now injection H|discriminate].
Qed.

Lemma new_realloc n : begins_new (a_realloc_begin A T n).
Proof.
  unfold a_realloc_begin. apply new_later; [apply mono_mbegin|]. intros b.
  destruct (allocator_aligned A T).
  - apply new_here; [|intros; apply keeps_set_cap].
    apply new_given; [apply gives_alloc_realloc|]. intros p. apply sets_begin.
  - apply new_here; [|intros; apply keeps_set_cap].
    apply new_given; [apply gives_a_malloc|]. intros p. apply sets_later. intros _. apply sets_begin.
Qed.

Lemma keeps_end_at n : keeps_begin (end_at T n).
Proof. unfold end_at. keeps. Qed.
Lemma keeps_begin_changed p : keeps_begin (begin_changed p).
Proof. intros st r st' H. unfold begin_changed in H. rewrite bind_get in H. now injection H as _ <-. Qed.

Lemma new_preserve n st r st' : a_has_expand A = false -> (N.of_nat (pcap (snd st)) < n)%N ->
  preserve A T n st = Ok r st' -> is_new st (pb (snd st')).
Proof.
  intros He Hc H. unfold preserve in H. apply bind_inv in H as (c & st1 & E & H).
  unfold mcap in E. injection E as <- <-. rewrite (proj2 (N.leb_gt _ _)) in H by exact Hc.
  revert H. match goal with |- ?f _ = _ -> _ => assert (begins_new f) as K end; [|apply K].
  apply new_later; [apply mono_mbegin|]. intros old. apply new_later; [apply mono_capacity|]. intros nc.
  apply new_later; [apply mono_psize|]. intros s. rewrite He.
  apply new_here; [|intros _; apply keeps_bind; [apply keeps_end_at|intros; apply keeps_begin_changed]].
  destruct (_ <? _)%N; [|apply new_realloc].
  unfold malloc_copy. apply new_given; [apply gives_a_malloc|]. intros p.
  do 3 (apply sets_later; intros ?). apply sets_here; [apply sets_begin|intros; apply keeps_set_cap].
Qed.

Lemma new_pgrow off n st p st' s : a_has_expand A = false ->
  psize T st = Ok s st -> (N.of_nat (pcap (snd st)) < (N.of_nat s + n) mod two64)%N ->
  pgrow_at A T off n st = Ok p st' -> is_new st (pb (snd st')).
Proof.
  intros He Hs Hc H. unfold pgrow_at in H. rewrite (bind_ok _ _ _ _ _ Hs) in H.
  apply bind_inv in H as (u & st1 & E & H).
  match type of H with ?f _ = _ => assert (keeps_begin f) as K end.
  { apply keeps_bind; [apply keeps_end_at|intros _]. keeps. }
  rewrite (K _ _ _ H). clear K H.
  destruct (off =? s).
  - unfold presize in E. apply bind_inv in E as (b & st2 & E & Er). injection Er as _ <-.
    apply bind_inv in E as (b' & st3 & E & Er).
    match type of Er with ?f _ = _ => assert (keeps_begin f) as K end.
    { keeps; try apply keeps_end_at. destruct (_ && _)%bool; unfold memset0; keeps. }
    rewrite (K _ _ _ Er). eapply new_preserve; eauto.
  - apply bind_inv in E as (c & st2 & Ec & E). unfold mcap in Ec. injection Ec as <- <-.
    rewrite (proj2 (N.ltb_lt _ _)) in E by exact Hc.
    revert E. match goal with |- ?f _ = _ -> _ => assert (begins_new f) as K end; [|apply K].
    apply new_later; [apply mono_capacity|]. intros nc. rewrite He.
    destruct (_ <? _)%N.
    + apply new_later; [apply mono_mbegin|]. intros b. apply new_given; [apply gives_a_malloc|]. intros p'.
      do 5 (apply sets_later; intros ?). apply sets_here; [apply sets_begin|intros; apply keeps_set_cap].
    + apply new_here; [apply new_realloc|]. intros _. unfold memmove. keeps.
Qed.

(** A reference into a block which was given up reads freed memory. *)
Lemma read_given_up bs v xs k i x bs' k' v' :
  holds bs v xs -> nth_error xs i = Some x -> frame bs v bs' v' ->
  is_new (mkMem bs k, v) (pb v') ->
  read_bytes (after_begin v (i * SZ)) SZ (mkMem bs' k', v') = UB.
Proof.
  intros Hh Hi (Hlen & _ & Hfr) Hnew. pose proof (nth_lt _ _ _ Hi) as Hlt. pose proof sz_pos.
  destruct (holds_parts _ _ _ Hh) as (rest & Hx & Hb & _ & _ & _ & _ & Hn0 & _).
  unfold PodVectorSpec.buf in Hb. unfold after_begin. unfold is_new in Hnew. cbn [fst blks] in Hnew.
  unfold owner in Hfr.
  destruct (pb v) as [[b o]|]; [|specialize (Hn0 eq_refl); lia].
  destruct Hb as (a & pre & Eb & _ & _). pose proof (nth_lt _ _ _ Eb) as Hb.
  destruct (Hfr b) as (a' & Ef); [lia| |now right|].
  { destruct (pb v') as [[b' o']|]; [|discriminate]. intros [= ->]. lia. }
  unfold read_bytes. cbn [fst blks]. now rewrite Ef.
Qed.

Lemma push_own_moved bs k v xs i x : a_has_expand A = false ->
  holds bs v xs -> nth_error xs i = Some x -> room (length xs + 1) -> pcap v = length xs ->
  ppush_back A T false (Ref (after_begin v (i * SZ))) (mkMem bs k, v) = UB.
Proof.
  intros He Hh Hi Hr Hc.
  destruct (pemplace_back_spec bs k v xs Hh Hr) as (bs1 & k1 & v1 & h & E & _ & Hh1 & Hf1 & _).
  unfold ppush_back. erewrite bind_ok by exact E. apply bind_ub. unfold value_of.
  eapply read_given_up; eauto.
  unfold pemplace_back in E. destruct (holds_parts _ _ _ Hh) as (rest0 & _ & _ & He0 & _ & _ & _ & Hn00 & _).
  erewrite bind_ok in E by (apply (psize_spec _ _ (length xs)); auto).
  assert ((N.of_nat (length xs) + 1) mod two64 = N.of_nat (length xs + 1))%N as Em.
  { pose proof (room_self _ Hr). pose proof sz_pos. rewrite N.mod_small; [lia|]. unfold two63, two64 in *. nia. }
  rewrite Em in E. apply bind_inv in E as (r & st1 & E1 & E).
  match type of E with ?f _ = _ => assert (keeps_begin f) as K by keeps end.
  pose proof (K _ _ _ E) as Kp. cbn [snd] in Kp. rewrite Kp.
  eapply new_preserve; [exact He| |exact E1]. cbn [snd]. lia.
Qed.

Lemma insert_own_moved bs k v xs pos i x : a_has_expand A = false ->
  holds bs v xs -> pos <= length xs -> nth_error xs i = Some x -> room (length xs + 1) ->
  pcap v = length xs ->
  pinsert1 A T pos (Ref (after_begin v (i * SZ))) (mkMem bs k, v) = UB.
Proof.
  intros He Hh Hpos Hi Hr Hc.
  destruct (pgrow_at_spec bs k v xs pos 1 Hh Hpos Hr) as (bs1 & k1 & v1 & hole & E & Hh1 & _ & _ & Hf1).
  unfold pinsert1. change 1%N with (N.of_nat 1). erewrite bind_ok by exact E. apply bind_ub. unfold value_of.
  eapply read_given_up; eauto.
  destruct (holds_parts _ _ _ Hh) as (rest0 & _ & _ & He0 & _ & _ & _ & Hn00 & _).
  change v1 with (snd (mkMem bs1 k1, v1)).
  eapply new_pgrow; [exact He|apply (psize_spec _ _ (length xs)); auto| |exact E]. cbn [snd].
  pose proof (room_self _ Hr). pose proof sz_pos.
  rewrite N.mod_small; [lia|]. unfold two63, two64 in *. nia.
Qed.
End Pod.

(** ** Recasts *)

Section Recast.
Variable A : alc.
Variables T U : ety.
Hypothesis HT : ety_ok T.
Hypothesis HU : ety_ok U.
Hypothesis HA : alc_ok A.

Lemma whole_elems (bytes : list N) :
  exists zs tail, bytes = concat zs ++ tail /\ Forall (is_elem T) zs /\
    length zs = length bytes / esz T /\ length tail < esz T.
Proof.
  destruct HT as (Hs & _).
  set (n := length bytes / esz T).
  pose proof (Nat.div_mod (length bytes) (esz T) ltac:(lia)) as Hd.
  pose proof (Nat.mod_upper_bound (length bytes) (esz T) ltac:(lia)) as Hm.
  fold n in Hd.
  destruct (cut_elems T n (firstn (n * esz T) bytes)) as (zs & Hz & Lz & Cz).
  { rewrite firstn_length. nia. }
  exists zs, (skipn (n * esz T) bytes). split; [now rewrite Cz, firstn_skipn|].
  split; [exact Hz|]. split; [exact Lz|]. rewrite skipn_length. nia.
Qed.

Lemma whole_count (ys : list (list N)) :
  Forall (is_elem U) ys -> (N.of_nat (length ys) * N.of_nat (esz U) < two64)%N ->
  (e2b U (N.of_nat (length ys)) / N.of_nat (esz T))%N = N.of_nat (length (concat ys) / esz T).
Proof.
  intros Hy Hs. rewrite e2b_small by exact Hs.
  rewrite (concat_length_elems U) by auto. rewrite <- Nat2N.inj_mul.
  symmetry. destruct HT as (H1 & _).
  apply N.div_unique with (N.of_nat ((length ys * esz U) mod esz T)).
  - pose proof (Nat.mod_upper_bound (length ys * esz U) (esz T) ltac:(lia)). lia.
  - pose proof (Nat.div_mod (length ys * esz U) (esz T) ltac:(lia)). lia.
Qed.

Lemma recast_copy_spec bs k a b xs ys :
  pod_holds A T bs a xs -> pod_holds A U bs b ys ->
  (forall j, owner b = Some j -> owner a <> Some j) ->
  room U (length ys) -> room T (length (concat ys) / esz T) ->
  exists bs' k' a' zs tail,
    recast_copy_from A T U (mkMem bs k, (a, b)) = Ok tt (mkMem bs' k', (a', b)) /\
    concat ys = concat zs ++ tail /\ length tail < esz T /\
    pod_holds A T bs' a' zs /\ pod_holds A U bs' b ys /\ frame bs a bs' a'.
Proof.
  intros Ha Hb Hd HrU HrT.
  destruct (pclear_spec A T HT bs k a xs Ha) as (a1 & E1 & Ha1 & F1 & O1).
  destruct (whole_elems (concat ys)) as (zs & tail & Ez & Hz & Lz & Ht).
  assert (pod_holds A U bs b ys) as Hb0 by exact Hb.
  pose proof (holds_parts A U HU _ _ _ Hb) as (rest & Hy & Hbb & Heb & _ & _ & Hlenb & Hn0b & _).
  pose proof (room_self U _ HrU) as HrU'.
  unfold recast_copy_from. erewrite bind_ok by (apply on_a_ok; exact E1).
  erewrite bind_ok by (apply on_b_ok, (psize_spec U HU _ _ (length ys)); auto).
  erewrite bind_ok by (apply on_b_ok; reflexivity).
  cbv zeta. rewrite whole_count by (auto; unfold two63, two64 in *; lia).
  rewrite Nat2N.id, <- Lz. cbn [snd].
  assert (exists bs' k' a', on_a (passign_copy A T zs) (mkMem bs k, (a1, b)) = Ok tt (mkMem bs' k', (a', b)) /\
    pod_holds A T bs' a' zs /\ frame bs a bs' a') as (bs' & k' & a' & E & H & F).
  { destruct (passign_copy_spec A T HT HA bs k a1 [] zs Ha1 Hz) as (bs' & k' & a' & E & H & F).
    { now rewrite Lz. }
    exists bs', k', a'. split; [now apply on_a_ok|]. split; [exact H|]. eapply frame_trans; eauto. }
  exists bs', k', a', zs, tail. split; [|split; [exact Ez|split; [exact Ht|split; [exact H|split; [|exact F]]]]].
  - destruct (Nat.eqb_spec (length zs) 0) as [E0|E0].
    + apply length_zero_iff_nil in E0. rewrite E0 in E.
      unfold bind at 1, ret at 1. exact E.
    + erewrite bind_ok.
      2:{ erewrite bind_ok.
          2:{ apply on_b_ok. rewrite (begin_raw b).
              eapply (read_raw A U bs k b b [] (concat zs) (tail ++ rest)).
              - cbn [app]. rewrite app_assoc, <- Ez. exact Hbb.
              - intros Ep. specialize (Hn0b Ep). apply length_zero_iff_nil in Hn0b. subst ys.
                cbn in Ez. symmetry in Ez. apply app_eq_nil in Ez. destruct Ez as (Ez & _).
                apply E0. pose proof (concat_length_elems T zs Hz) as C. rewrite Ez in C. cbn in C.
                destruct HT. nia.
              - reflexivity.
              - now apply concat_length_elems. }
          unfold ret. rewrite chunks_concat by exact Hz. reflexivity. }
      exact E.
  - eapply (holds_framed A U); eauto.
Qed.

Lemma divides_mod a m n : n <> 0 -> m <> 0 -> Nat.divide n m -> (a mod N.of_nat m = 0)%N -> (a mod N.of_nat n = 0)%N.
Proof.
  intros Hn Hm (q & Hq) H. apply N.mod_divide in H; [|lia]. destruct H as (z & ->).
  apply N.mod_divide; [lia|]. exists (z * N.of_nat q)%N. lia.
Qed.

Lemma recast_header a pre : recastable A T U -> header A U a pre -> header A T a pre.
Proof.
  intros (Hst & Hc) (H1 & H2). unfold header in *. rewrite <- Hst in H1.
  pose proof HT as (_ & tk & Etk & HtT). pose proof HU as (_ & uk & Euk & HtU).
  assert (eal T <> 0 /\ eal U <> 0) as (HnT & HnU).
  { rewrite Etk, Euk. split; apply Nat.pow_nonzero; lia. }
  destruct (allocator_aligned A T) eqn:Eal.
  - destruct H1 as (-> & Ha). split; [auto|]. cbn [length] in *. rewrite N.add_0_r in *.
    destruct HA as ((ak & Ek) & _). apply (divides_mod a (a_align A)); auto.
    + rewrite Ek. apply Nat.pow_nonzero. lia.
    + apply pow2_divide; eauto. unfold allocator_aligned in Eal. now apply Nat.leb_le in Eal.
  - destruct Hc as [|[Ee|(Hle & Hne)]]; [discriminate| |].
    + rewrite Ee. auto.
    + split.
      * rewrite Hne in *. exact H1.
      * eapply divides_mod; [| |apply (pow2_divide (eal T) (eal U)); eauto|exact H2]; auto.
Qed.

Lemma recast_take_spec bs k a b xs ys :
  recastable A T U ->
  pod_holds A T bs a xs -> pod_holds A U bs b ys ->
  (forall j, owner b = Some j -> owner a <> Some j) ->
  (N.of_nat (pcap b) * N.of_nat (esz U) < two64)%N ->
  exists bs' a' zs tail,
    recast_take_from A T U (mkMem bs k, (a, b)) = Ok tt (mkMem bs' k, (a', init_pv)) /\
    concat ys = concat zs ++ tail /\ length tail < esz T /\
    pod_holds A T bs' a' zs /\ pb a' = pb b /\
    pcap a' = pcap b * esz U / esz T.
Proof.
  intros Hrc Ha Hb Hd Hcb.
  pose proof HT as (HsT & _). pose proof HU as (HsU & _).
  destruct (whole_elems (concat ys)) as (zs & tail & Ez & Hz & Lz & Ht).
  destruct Ha as (_ & resta & Hba & _).
  destruct (a_free_spec A T bs k a _ Hba) as (bs' & E & HL & HK & HF).
  assert (frame bs a bs' init_pv) as Hfr by (eapply freed_frame; eauto).
  destruct (holds_framed A U bs a bs' init_pv b ys Hb Hfr Hd) as (Hb' & _).
  pose proof (holds_parts A U HU _ _ _ Hb') as (rest & Hy & Hbb & Heb & Hc & Hcl & Hlenb & Hn0b & Hc0).
  assert (N.of_nat (length ys) * N.of_nat (esz U) < two64)%N as Hfit by nia.
  pose proof (concat_length_elems T zs Hz) as Cz.
  pose proof (concat_length_elems U ys Hy) as Cy.
  assert (((N.of_nat (esz U) * N.of_nat (pcap b)) mod two64 / N.of_nat (esz T))%N =
    N.of_nat (pcap b * esz U / esz T)) as Ecap.
  { rewrite N.mod_small by lia. symmetry.
    apply N.div_unique with (N.of_nat ((pcap b * esz U) mod esz T)).
    - pose proof (Nat.mod_upper_bound (pcap b * esz U) (esz T) ltac:(lia)). lia.
    - pose proof (Nat.div_mod (pcap b * esz U) (esz T) ltac:(lia)). lia. }
  set (a2 := mkPv (pb b) (after_begin b (length zs * esz T)) (pcap b * esz U / esz T)).
  exists bs', a2, zs, tail.
  split; [|split; [exact Ez|split; [exact Ht|split; [|split; reflexivity]]]].
  - unfold recast_take_from. erewrite bind_ok by (apply on_a_ok; exact E).
    erewrite bind_ok by (apply on_b_ok, (psize_spec U HU _ _ (length ys)); auto).
    erewrite bind_ok by (apply on_b_ok; reflexivity).
    erewrite bind_ok by (apply on_b_ok; reflexivity). cbn [snd].
    erewrite bind_ok by (apply on_a_ok; reflexivity). cbn [fst snd].
    rewrite whole_count by auto. rewrite <- Lz.
    erewrite bind_ok.
    2:{ apply on_a_ok. unfold end_at, mbegin. unfold bind at 1. cbn [snd pb].
        rewrite (begin_raw b). erewrite bind_ok.
        2:{ eapply (padd_raw A U bs' k b _ _ 0); [exact Hbb|].
            rewrite Ez, !app_length, Cz. lia. }
        reflexivity. }
    cbn [fst snd pb pe pcap].
    erewrite bind_ok by (apply on_a_ok; reflexivity). cbn [fst snd pb pe pcap].
    erewrite bind_ok by (apply on_b_ok; reflexivity). cbn [fst snd pb pe pcap].
    erewrite bind_ok by (apply on_b_ok; reflexivity). cbn [fst snd pb pe pcap].
    unfold on_b, set_cap. cbn [fst snd pb pe pcap]. rewrite Ecap, Nat2N.id.
    unfold a2, init_pv. do 4 f_equal. rewrite <- (begin_raw b). f_equal. f_equal. lia.
  - split; [exact Hz|]. exists (tail ++ rest). split; [|split; [|split]].
    + unfold buf in *. cbn [pb a2]. destruct (pb b) as [[bb oo]|].
      * destruct Hbb as (aa & pre & Hn & Ho & Hh). exists aa, pre.
        rewrite Hn, Ez, <- app_assoc. split; [reflexivity|]. split; [exact Ho|]. now apply recast_header.
      * rewrite Ez, <- app_assoc in Hbb. exact Hbb.
    + reflexivity.
    + cbn [pcap a2]. rewrite Lz, Cy. apply Nat.div_le_mono; [lia|]. now apply Nat.mul_le_mono_r.
    + cbn [pcap a2]. rewrite app_length.
      pose proof (Nat.mul_div_le (pcap b * esz U) (esz T) ltac:(lia)).
      assert (length (concat ys) = length zs * esz T + length tail) by (rewrite Ez, app_length, Cz; reflexivity).
      lia.
Qed.
End Recast.

(** The growth of the capacity. *)
Lemma pod_growth_fact m v n :
  pcap v < n -> (3 * N.of_nat n <= two64 - 1)%N ->
  exists c, get_new_capacity (N.of_nat n) (m, v) = Ok c (m, v) /\
    (N.of_nat n <= c)%N /\ (c <= N.of_nat n + N.of_nat n / 2)%N /\
    (pcap v = 0 -> c = N.of_nat n) /\
    (0 < pcap v -> SmallVectorSpec.grows (N.of_nat (pcap v)) (N.of_nat n) c).
Proof.
  intros Hlt Hr. unfold get_new_capacity. unfold mcap at 1. unfold bind at 1. cbn [snd].
  destruct (Nat.eqb_spec (pcap v) 0) as [E|E].
  - exists (N.of_nat n). pose proof (N.le_0_l (N.of_nat n / 2)).
    split; [reflexivity|]. split; [lia|]. split; [lia|]. split; [auto|lia].
  - destruct (growth_fact (N.of_nat (pcap v)) (N.of_nat n)) as (c & Hg & Hgr & H1 & _ & H2); [lia|exact Hr|].
    rewrite Hg by lia. exists c. split; [reflexivity|]. split; [exact H1|].
    split; [apply H2; lia|]. split; [lia|auto].
Qed.
