(** Proofs for C115: small_vector. *)
From Coq Require Import List Arith ZArith Bool Lia.
From Verif Require Import Base SeqSpec PtrModel PtrSpec PtrProofs.
Import ListNotations.

Ltac st L := erewrite pbind_fine; [| eapply L; eauto; try lia].

Lemma v_padd M B E c b cb i d : live M b cb -> (0 <= i + d <= Z.of_nat cb)%Z ->
  vchk (fun m => padd m (b, i) d) (mkVec M B E c) = Fine (b, (i + d)%Z) (mkVec M B E c).
Proof. intros L H. unfold vchk. cbn [vmem]. rewrite (padd_ok _ _ _ _ _ L H). reflexivity. Qed.
Lemma v_padd_out M B E c b cb i d : live M b cb -> (i + d < 0)%Z ->
  vchk (fun m => padd m (b, i) d) (mkVec M B E c) = Fault Outside.
Proof. intros L H. unfold vchk. cbn [vmem]. rewrite (padd_out _ _ _ _ _ L H). reflexivity. Qed.
Lemma v_pdiff M B E c b cb i j : live M b cb ->
  vchk (fun m => pdiff m (b, i) (b, j)) (mkVec M B E c) = Fine (i - j)%Z (mkVec M B E c).
Proof. intro L. unfold vchk. cbn [vmem]. rewrite (pdiff_ok _ _ _ i j L). reflexivity. Qed.
Lemma v_peq M B E c b cb b' cb' i j : live M b cb -> live M b' cb' ->
  vchk (fun m => peq m (b, i) (b', j)) (mkVec M B E c)
  = Fine ((b =? b') && (i =? j)%Z) (mkVec M B E c).
Proof. intros L L'. unfold vchk. cbn [vmem]. rewrite (peq_ok _ _ _ _ _ i j L L'). reflexivity. Qed.
Lemma v_deref M B E c b cb i : live M b cb -> (0 <= i < Z.of_nat cb)%Z ->
  vchk (fun m => deref m (b, i)) (mkVec M B E c) = Fine tt (mkVec M B E c).
Proof. intros L H. unfold vchk. cbn [vmem]. rewrite (deref_ok _ _ _ _ L H). reflexivity. Qed.
Lemma v_b M B E c : get_b (mkVec M B E c) = Fine B (mkVec M B E c).
Proof. reflexivity. Qed.
Lemma v_e M B E c : get_e (mkVec M B E c) = Fine E (mkVec M B E c).
Proof. reflexivity. Qed.
Lemma v_c M B E c : get_c (mkVec M B E c) = Fine c (mkVec M B E c).
Proof. reflexivity. Qed.
Lemma v_set_b M B E c p : set_b p (mkVec M B E c) = Fine tt (mkVec M p E c).
Proof. reflexivity. Qed.
Lemma v_set_e M B E c p : set_e p (mkVec M B E c) = Fine tt (mkVec M B p c).
Proof. reflexivity. Qed.
Lemma v_set_c M B E c k : set_c k (mkVec M B E c) = Fine tt (mkVec M B E k).
Proof. reflexivity. Qed.
Lemma v_size M b cb n c : live M b cb ->
  size (mkVec M (b, 0%Z) (b, Z.of_nat n) c) = Fine n (mkVec M (b, 0%Z) (b, Z.of_nat n) c).
Proof.
  intro L. unfold size. st v_b. st v_e. st v_pdiff. unfold pret. f_equal. lia.
Qed.
Lemma v_static M b cb E c SC : live M b cb -> live M 0 SC ->
  is_static (mkVec M (b, 0%Z) E c) = Fine (b =? 0) (mkVec M (b, 0%Z) E c).
Proof.
  intros L L0. unfold is_static, static_begin. st v_b.
  rewrite (v_peq M _ _ _ _ _ _ _ _ _ L L0). rewrite andb_true_r. reflexivity.
Qed.

Lemma destroy_to_ok M B E c b cb : live M b cb -> forall fuel i j,
  (0 <= i <= j)%Z -> (j <= Z.of_nat cb)%Z -> Z.to_nat (j - i) < fuel ->
  destroy_to fuel (b, i) (b, j) (mkVec M B E c) = Fine tt (mkVec M B E c).
Proof.
  intro L. induction fuel as [| f IH]; intros i j H1 H2 H3; [lia |].
  cbn [destroy_to]. st v_peq. rewrite Nat.eqb_refl. cbn [andb].
  destruct (Z.eqb_spec i j) as [Q | Q]; [reflexivity |].
  st v_deref. st v_padd. apply IH; lia.
Qed.
Lemma destroy_all_ok M b n c : live M b c -> n <= c ->
  destroy_all (mkVec M (b, 0%Z) (b, Z.of_nat n) c) = Fine tt (mkVec M (b, 0%Z) (b, Z.of_nat n) c).
Proof. intros L H. unfold destroy_all. st v_b. st v_e. st v_c. apply (destroy_to_ok _ _ _ _ _ _ L); lia. Qed.

Lemma grow_loop_ok M B E c b cb k q : live M b cb -> (1 <= q)%Z -> forall fuel i,
  (q - 1 <= i)%Z -> (i + Z.of_nat k < Z.of_nat cb)%Z -> Z.to_nat (i - q + 1) < fuel ->
  grow_loop fuel (b, i) (b, q) k (mkVec M B E c) = Fine tt (mkVec M B E c).
Proof.
  intros L Hq. induction fuel as [| f IH]; intros i H1 H2 H3; [lia |].
  cbn [grow_loop]. st v_pdiff.
  destruct (Z.ltb_spec (i - q) 0) as [Q | Q]; [reflexivity |].
  st v_padd. st v_deref. st v_deref. st v_padd. apply IH; lia.
Qed.
Lemma grow_loop_bad M B E c b cb k : live M b cb -> forall fuel i,
  (0 <= i)%Z -> (i + Z.of_nat k < Z.of_nat cb)%Z -> Z.to_nat (i + 1) < fuel ->
  grow_loop fuel (b, i) (b, 0%Z) k (mkVec M B E c) = Fault Outside.
Proof.
  intro L. induction fuel as [| f IH]; intros i H1 H2 H3; [lia |].
  cbn [grow_loop]. st v_pdiff.
  destruct (Z.ltb_spec (i - 0) 0) as [Q | Q]; [lia |].
  st v_padd. st v_deref. st v_deref.
  destruct (Z.eq_dec i 0) as [-> | N].
  - erewrite pbind_fault; [reflexivity | eapply v_padd_out; [exact L | lia]].
  - st v_padd. apply IH; lia.
Qed.
Lemma transfer_ok M B E c b cb t ct on : live M b cb -> live M t ct -> forall fuel i j (k : nat),
  (0 <= i)%Z -> (0 <= j)%Z -> (i + Z.of_nat k <= Z.of_nat cb)%Z -> (j + Z.of_nat k <= Z.of_nat ct)%Z -> k < fuel ->
  transfer fuel on (b, i) (t, j) (if on then (t, j + Z.of_nat k) else (b, i + Z.of_nat k))%Z (mkVec M B E c)
  = Fine ((b, i + Z.of_nat k), (t, j + Z.of_nat k))%Z (mkVec M B E c).
Proof.
  intros L T. induction fuel as [| f IH]; intros i j k H1 H2 H3 H4 H5; [lia |].
  cbn [transfer].
  assert (Q : vchk (fun m => peq m (if on then (t, j) else (b, i))
                (if on then (t, j + Z.of_nat k) else (b, i + Z.of_nat k))%Z) (mkVec M B E c)
              = Fine (k =? 0) (mkVec M B E c)).
  { destruct on.
    - rewrite (v_peq M _ _ _ _ _ _ _ _ _ T T), Nat.eqb_refl. cbn [andb]. f_equal.
      destruct (Z.eqb_spec j (j + Z.of_nat k)), (Nat.eqb_spec k 0); try reflexivity; lia.
    - rewrite (v_peq M _ _ _ _ _ _ _ _ _ L L), Nat.eqb_refl. cbn [andb]. f_equal.
      destruct (Z.eqb_spec i (i + Z.of_nat k)), (Nat.eqb_spec k 0); try reflexivity; lia. }
  rewrite (pbind_fine _ _ _ _ _ Q). clear Q.
  destruct (Nat.eqb_spec k 0) as [-> | N].
  - unfold pret. rewrite !Z.add_0_r. reflexivity.
  - st v_deref. st v_deref. st v_padd. st v_padd.
    specialize (IH (i + 1)%Z (j + 1)%Z (k - 1)).
    replace (i + 1 + Z.of_nat (k - 1))%Z with (i + Z.of_nat k)%Z in IH by lia.
    replace (j + 1 + Z.of_nat (k - 1))%Z with (j + Z.of_nat k)%Z in IH by lia.
    apply IH; lia.
Qed.
Lemma shrink_loop_ok M B E c b cb : live M b cb -> forall fuel i j e,
  (0 <= i <= j)%Z -> (j <= e)%Z -> (e <= Z.of_nat cb)%Z -> Z.to_nat (e - j) < fuel ->
  shrink_loop fuel (b, i) (b, j) (b, e) (mkVec M B E c) = Fine tt (mkVec M B E c).
Proof.
  intro L. induction fuel as [| f IH]; intros i j e H1 H2 H3 H4; [lia |].
  cbn [shrink_loop]. st v_peq. rewrite Nat.eqb_refl. cbn [andb].
  destruct (Z.eqb_spec j e) as [Q | Q]; [reflexivity |].
  st v_deref. st v_deref. st v_padd. st v_padd. apply IH; lia.
Qed.
Lemma move_all_ok M B E c b cb t ct : live M b cb -> live M t ct -> forall k i,
  i + k <= cb -> i + k <= ct ->
  move_all (b, 0%Z) (t, 0%Z) i k (mkVec M B E c) = Fine tt (mkVec M B E c).
Proof.
  intros L T. induction k as [| k IH]; intros i H1 H2; [reflexivity |].
  cbn [move_all]. st v_padd. st v_padd. st v_deref. st v_deref. apply IH; lia.
Qed.
Lemma fill_ok M B E c b cb pos : live M b cb -> forall k i, pos + i + k <= cb ->
  fill (b, Z.of_nat pos) i k (mkVec M B E c) = Fine tt (mkVec M B E c).
Proof.
  intro L. induction k as [| k IH]; intros i H; [reflexivity |].
  cbn [fill]. st v_padd. st v_deref. apply IH. lia.
Qed.
Lemma copy_ok M B E c b cb : live M b cb -> forall k i, (0 <= i)%Z -> (i + Z.of_nat k <= Z.of_nat cb)%Z ->
  copy (b, i) k (mkVec M B E c) = Fine tt (mkVec M B E c).
Proof.
  intro L. induction k as [| k IH]; intros i H1 H2; [reflexivity |].
  cbn [copy]. st v_deref. st v_padd. apply IH; lia.
Qed.
Lemma append_ok M B c t ct : live M t ct -> forall k i, (0 <= i)%Z -> (i + Z.of_nat k <= Z.of_nat ct)%Z ->
  append k (mkVec M B (t, i) c) = Fine tt (mkVec M B (t, i + Z.of_nat k)%Z c).
Proof.
  intro L. induction k as [| k IH]; intros i H1 H2.
  - rewrite Z.add_0_r. reflexivity.
  - cbn [append]. st v_e. st v_deref. st v_padd. st v_set_e. rewrite IH by lia. do 3 f_equal. lia.
Qed.
Lemma cut_ok M B c b cb k : live M b cb -> forall fuel i, (0 <= i)%Z -> (i <= Z.of_nat cb)%Z ->
  Z.to_nat (i - Z.of_nat k) < fuel ->
  cut_while fuel (b, Z.of_nat k) (mkVec M B (b, i) c) = Fine tt (mkVec M B (b, Z.min i (Z.of_nat k)) c).
Proof.
  intro L. induction fuel as [| f IH]; intros i H1 H2 H3; [lia |].
  cbn [cut_while]. st v_e. st v_pdiff.
  destruct (Z.ltb_spec 0 (i - Z.of_nat k)) as [Q | Q].
  - st v_padd. st v_set_e. st v_deref. rewrite IH by lia. do 3 f_equal. lia.
  - unfold pret. do 3 f_equal. lia.
Qed.
Lemma extend_ok M B c b cb k : live M b cb -> k <= cb -> forall fuel i, (0 <= i)%Z -> (i <= Z.of_nat cb)%Z ->
  Z.to_nat (Z.of_nat k - i) < fuel ->
  extend_while fuel (b, Z.of_nat k) (mkVec M B (b, i) c) = Fine tt (mkVec M B (b, Z.max i (Z.of_nat k)) c).
Proof.
  intros L K. induction fuel as [| f IH]; intros i H1 H2 H3; [lia |].
  cbn [extend_while]. st v_e. st v_pdiff.
  destruct (Z.ltb_spec 0 (Z.of_nat k - i)) as [Q | Q].
  - st v_padd. st v_set_e. st v_deref. rewrite IH by lia. do 3 f_equal. lia.
  - unfold pret. do 3 f_equal. lia.
Qed.

Lemma grown_ok : forall fuel cap desired, 0 < cap -> desired - cap <= fuel ->
  exists c', grown fuel cap desired = Some c' /\ desired <= c' /\ cap <= c'.
Proof.
  induction fuel as [| f IH]; intros cap desired H F; cbn [grown].
  - rewrite (proj2 (Nat.ltb_ge cap desired)) by lia. exists cap. split; [reflexivity | lia].
  - destruct (Nat.ltb_spec cap desired) as [Q | Q].
    + assert (G : cap + 1 <= (cap * 3 + 1) / 2) by (apply Nat.div_le_lower_bound; lia).
      destruct (IH ((cap * 3 + 1) / 2) desired) as (c' & E & D); [lia | lia |].
      exists c'. split; [exact E | lia].
    + exists cap. split; [reflexivity | lia].
Qed.

Lemma live_lt M b c : live M b c -> b < length M.
Proof. intro L. apply nth_error_Some. unfold live in L. rewrite L. discriminate. Qed.
Lemma live_app M b c x : live M b c -> live (M ++ x) b c.
Proof. intro L. pose proof (live_lt _ _ _ L). unfold live in *. rewrite nth_error_app1 by assumption. exact L. Qed.
Lemma live_new M c : live (M ++ [Some c]) (length M) c.
Proof. unfold live. rewrite nth_error_app2 by lia. rewrite Nat.sub_diag. reflexivity. Qed.
Lemma live_upd M b c k : live M b c -> b <> k -> live (upd M k None) b c.
Proof.
  unfold live. revert b k. induction M as [| x M IH]; intros [| b] [| k]; cbn; intros H N; try assumption; try congruence.
  apply IH; [exact H | lia].
Qed.
Lemma nth_upd_none (M : mem) b c : live M b c -> nth_error (upd M b None) b = Some None.
Proof.
  unfold live. revert b. induction M as [| x M IH]; intros [| b]; cbn; intro H; try discriminate; [reflexivity |].
  apply IH. exact H.
Qed.

Lemma dealloc_ok M B E c b cb : live M b cb -> b <> 0 ->
  deallocate (b, 0%Z) cb (mkVec M B E c) = Fine tt (mkVec (upd M b None) B E c).
Proof.
  intros L N. unfold deallocate. cbn [vmem fst snd vb ve vcap]. unfold live in L. rewrite L.
  rewrite (proj2 (Nat.ltb_lt 0 b)) by lia. rewrite Nat.eqb_refl. reflexivity.
Qed.

Section Small.
Variable SC RB maxn : nat.
Hypothesis SC_pos : 0 < SC.
Hypothesis RB_le : RB <= SC + 1.

(** A vector of n elements in array b *)
Definition vst (M : mem) (b n c : nat) : vec := mkVec M (b, 0%Z) (b, Z.of_nat n) c.
Definition good (M : mem) (b n c : nat) : Prop :=
  n <= c /\ live M b c /\ live M 0 SC /\ (b <> 0 -> 0 < c).

Lemma wf_good s : wf SC s -> exists M b n c, s = vst M b n c /\ good M b n c.
Proof.
  intros (b & n & H1 & H2 & H3 & H4 & H5 & H6). destruct s as [M B E c]. cbn in *. subst.
  exists M, b, n, c. repeat split; assumption.
Qed.
Lemma good_wf M b n c : good M b n c -> wf SC (vst M b n c).
Proof. intros (H1 & H2 & H3 & H4). exists b, n. cbn. repeat split; assumption. Qed.
Lemma vsize_vst M b n c : vsize (vst M b n c) = n.
Proof. clear. unfold vsize, vst. cbn [ve vb snd]. lia. Qed.
Lemma kept_vst M b n c d : kept RB (vst M b n c) d = (d <=? c) && ((b =? 0) || (RB <=? d)).
Proof. unfold kept, on_heap, vst. cbn [vcap vb fst]. rewrite negb_involutive. reflexivity. Qed.

(** Where d elements go *)
Definition moves_to (M : mem) (b n c d : nat) (M' : mem) (t c' : nat) : Prop :=
  d <= c' /\ live M' t c' /\ t <> b /\ live M' b c /\ live M' 0 SC /\ (t <> 0 -> 0 < c').
Lemma choose_ok M b n c d : good M b n c ->
  (kept RB (vst M b n c) d = true /\ choose_data SC RB maxn d (vst M b n c) = Fine ((b, 0%Z), c) (vst M b n c)) \/
  (kept RB (vst M b n c) d = false /\ c < d /\ choose_data SC RB maxn d (vst M b n c) = Rejected (vst M b n c)) \/
  (kept RB (vst M b n c) d = false /\ exists M' t c', moves_to M b n c d M' t c' /\
     (d <= c -> t = 0 /\ c' = SC /\ M' = M) /\
     choose_data SC RB maxn d (vst M b n c) = Fine ((t, 0%Z), c') (vst M' b n c)).
Proof.
  intros (H & L & L0 & P). rewrite kept_vst. unfold choose_data, vst, static_begin.
  assert (E0 : b = 0 -> c = SC) by (intros ->; unfold live in *; congruence).
  erewrite pbind_fine; [| apply v_b]. erewrite pbind_fine; [| apply v_c].
  erewrite pbind_fine; [| eapply v_static; eauto].
  destruct (Nat.eqb_spec b 0) as [B0 | B0]; cbn [negb orb andb].
  - rewrite andb_true_r, (E0 B0). subst b.
    destruct (Nat.ltb_spec SC d) as [D | D].
    + rewrite (proj2 (Nat.leb_gt d SC)) by lia.
      unfold pbind, allocate. destruct (maxn <? d).
      * right; left. repeat split. exact D.
      * right; right. split; [reflexivity |]. exists (M ++ [Some d]), (length M), d.
        repeat split; try lia; cbn [vmem vb ve vcap].
        -- apply live_new.
        -- pose proof (live_lt _ _ _ L0). lia.
        -- rewrite (E0 eq_refl) in L. apply live_app. exact L.
        -- apply live_app. exact L0.
    + left. rewrite (proj2 (Nat.leb_le d SC)) by lia. split; reflexivity.
  - specialize (P B0).
    destruct (Nat.ltb_spec c d) as [D | D].
    + rewrite (proj2 (Nat.leb_gt d c)) by lia. cbn [andb].
      destruct (grown_ok (S d) c d P ltac:(lia)) as (c' & G & G1 & G2). rewrite G.
      unfold pbind, allocate. destruct (maxn <? c').
      * right; left. repeat split. exact D.
      * right; right. split; [reflexivity |]. exists (M ++ [Some c']), (length M), c'.
        repeat split; try lia; cbn [vmem vb ve vcap].
        -- apply live_new.
        -- pose proof (live_lt _ _ _ L). lia.
        -- apply live_app. exact L.
        -- apply live_app. exact L0.
    + rewrite (proj2 (Nat.leb_le d c)) by lia. cbn [andb].
      destruct (Nat.ltb_spec d RB) as [R | R].
      * right; right. rewrite (proj2 (Nat.leb_gt RB d)) by lia. split; [reflexivity |].
        exists M, 0, SC. unfold moves_to. repeat split; try assumption; try lia.
      * left. rewrite (proj2 (Nat.leb_le RB d)) by lia. split; reflexivity.
Qed.

(** What a call may do, if it does nothing wrong: it leaves n' elements, or is refused for want of memory. *)
Definition ends (s : vec) (n' want : nat) {A} (o : out vec A) : Prop :=
  (exists a M b c, o = Fine a (vst M b n' c) /\ good M b n' c) \/ (o = Rejected s /\ vcap s < want).

(** The old array is given back, unless it is the static one. *)
Lemma free_old M b c t c' E : live M b c -> live M 0 SC -> live M t c' -> t <> b ->
  exists M', live M' t c' /\ live M' 0 SC /\
    forall A (f : P vec A),
      pbind is_static (fun st => pbind (if st : bool then pret tt else deallocate (b, 0%Z) c) (fun _ => f))
        (mkVec M (b, 0%Z) E c)
      = f (mkVec M' (b, 0%Z) E c).
Proof.
  intros L L0 T N.
  destruct (Nat.eqb_spec b 0) as [B0 | B0].
  - exists M. repeat split; try assumption. intros A f.
    erewrite pbind_fine; [| eapply v_static; eauto]. rewrite (proj2 (Nat.eqb_eq b 0) B0). reflexivity.
  - exists (upd M b None). repeat split; try (apply live_upd; try assumption; lia). intros A f.
    erewrite pbind_fine; [| eapply v_static; eauto]. rewrite (proj2 (Nat.eqb_neq b 0) B0).
    rewrite (pbind_fine _ _ _ _ _ (dealloc_ok _ _ _ _ _ _ L B0)). reflexivity.
Qed.

Ltac stv := unfold vst in *.

Lemma grow_at_ok M b n c pos k : good M b n c -> pos <= n ->
  if (pos =? 0) && kept RB (vst M b n c) (n + k)
  then grow_at SC RB maxn (b, Z.of_nat pos) k (vst M b n c) = Fault Outside
  else (exists M' b' c', grow_at SC RB maxn (b, Z.of_nat pos) k (vst M b n c)
                         = Fine (b', Z.of_nat pos) (vst M' b' (n + k) c') /\ good M' b' (n + k) c') \/
       (grow_at SC RB maxn (b, Z.of_nat pos) k (vst M b n c) = Rejected (vst M b n c) /\ c < n + k).
Proof.
  intros G PP. pose proof G as (H & L & L0 & CP).
  pose proof (choose_ok M b n c (n + k) G) as CH.
  unfold grow_at.
  set (K := kept RB (vst M b n c) (n + k)) in *.
  assert (PRE : forall A (f : ptr -> ptr -> nat -> nat -> P vec A),
     pbind get_b (fun b0 => pbind get_e (fun e => pbind get_c (fun c0 =>
       pbind (vchk (fun m => pdiff m (b, Z.of_nat pos) b0)) (fun d1 =>
       pbind (vchk (fun m => pdiff m (b, Z.of_nat pos) e)) (fun d2 =>
       pbind (reject_if ((d1 <? 0) || (0 <? d2))%Z) (fun _ =>
       pbind size (fun s => f b0 e c0 s))))))) (vst M b n c)
     = f (b, 0%Z) (b, Z.of_nat n) c n (vst M b n c)).
  { intros A f. stv. st v_b. st v_e. st v_c. st v_pdiff. st v_pdiff.
    erewrite pbind_fine; [| apply reject_no].
    - erewrite pbind_fine; [| eapply v_size; eauto]. reflexivity.
    - apply orb_false_iff. split; apply Z.ltb_ge; lia. }
  rewrite PRE. clear PRE.
  destruct CH as [[KE E] | [(KE & D & E) | (KE & M' & t & c' & MV & _ & E)]]; rewrite KE in *.
  - rewrite andb_true_r. rewrite (pbind_fine _ _ _ _ _ E). cbn [fst snd]. clear E.
    subst K. rewrite kept_vst in KE. apply andb_prop in KE. destruct KE as [KE _]. apply Nat.leb_le in KE.
    stv. st v_peq. rewrite Nat.eqb_refl. cbn [andb Z.eqb].
    st v_padd. st v_set_e. st v_padd.
    destruct (Nat.eqb_spec pos 0) as [-> | PN].
    + destruct (Nat.eq_dec n 0) as [-> | N0].
      * erewrite pbind_fault; [reflexivity | eapply v_padd_out; [exact L | lia]].
      * st v_padd. erewrite pbind_fault; [reflexivity |].
        apply (grow_loop_bad _ _ _ _ _ _ _ L); lia.
    + left. st v_padd.
      erewrite pbind_fine; [| apply (grow_loop_ok _ _ _ _ _ _ _ _ L); lia].
      exists M, b, c. split; [reflexivity |]. repeat split; try assumption; lia.
  - rewrite andb_false_r. right. split; [| exact D].
    rewrite (pbind_rejected _ _ _ _ E). reflexivity.
  - rewrite andb_false_r. left. rewrite (pbind_fine _ _ _ _ _ E). clear E. cbn [fst snd].
    destruct MV as (D & T & N & Lb & Lz & CP').
    stv. st v_peq. rewrite (proj2 (Nat.eqb_neq t b) N). cbn [andb].
    st v_pdiff. st v_padd.
    pose proof (transfer_ok M' (b, 0%Z) (b, Z.of_nat n) c b c t c' true Lb T (S c) 0 0 pos
                  ltac:(lia) ltac:(lia) ltac:(lia) ltac:(lia) ltac:(lia)) as TR.
    replace (0 + (Z.of_nat pos - 0))%Z with (0 + Z.of_nat pos)%Z by lia.
    rewrite (pbind_fine _ _ _ _ _ TR). clear TR. cbn [fst snd].
    st v_padd.
    pose proof (transfer_ok M' (b, 0%Z) (b, Z.of_nat n) c b c t c' false Lb T (S c)
                  (0 + Z.of_nat pos) (0 + Z.of_nat pos + Z.of_nat k) (n - pos)
                  ltac:(lia) ltac:(lia) ltac:(lia) ltac:(lia) ltac:(lia)) as TR.
    cbv beta iota in TR. replace (0 + Z.of_nat pos + Z.of_nat (n - pos))%Z with (Z.of_nat n) in TR by lia.
    rewrite (pbind_fine _ _ _ _ _ TR). clear TR.
    erewrite pbind_fine; [| apply (destroy_to_ok _ _ _ _ _ _ Lb); lia].
    destruct (free_old M' b c t c' (b, Z.of_nat n) Lb Lz T N) as (M2 & T2 & Z2 & F2).
    rewrite F2. clear F2.
    st v_set_b. st v_padd. st v_set_e. st v_set_c.
    exists M2, t, c'. split.
    + unfold pret. replace (0 + Z.of_nat (n + k))%Z with (Z.of_nat (n + k)) by lia.
      replace (0 + Z.of_nat pos)%Z with (Z.of_nat pos) by lia. reflexivity.
    + repeat split; try assumption.
Qed.

Lemma clear_ok M b n c : good M b n c ->
  exists M' b' c', clear SC RB (vst M b n c) = Fine tt (vst M' b' 0 c') /\ good M' b' 0 c'.
Proof.
  intros (H & L & L0 & CP). unfold clear. stv.
  erewrite pbind_fine; [| apply destroy_all_ok; assumption].
  st v_b. st v_c.
  assert (Q : (if 0 <? RB then is_static else pret true) (mkVec M (b, 0%Z) (b, Z.of_nat n) c)
              = Fine (negb (0 <? RB) || (b =? 0)) (mkVec M (b, 0%Z) (b, Z.of_nat n) c)).
  { destruct (0 <? RB); cbn [negb orb]; [eapply v_static; eauto | reflexivity]. }
  rewrite (pbind_fine _ _ _ _ _ Q). clear Q.
  destruct (negb (negb (0 <? RB) || (b =? 0))) eqn:B.
  - assert (b <> 0) as B0.
    { intros ->. rewrite Nat.eqb_refl, orb_true_r in B. discriminate. }
    rewrite (pbind_fine _ _ _ _ _ (dealloc_ok _ _ _ _ _ _ L B0)).
    st v_set_e. st v_set_b. exists (upd M b None), 0, SC. split; [reflexivity |].
    assert (live (upd M b None) 0 SC) by (apply live_upd; [assumption | lia]).
    repeat split; try assumption; lia.
  - exists M, b, c. split; [reflexivity |]. repeat split; try assumption; lia.
Qed.

Lemma shrink_at_ok M b n c pos k : good M b n c -> pos + k <= n ->
  if (k <? n) && negb (kept RB (vst M b n c) (n - k))
  then shrink_at SC RB maxn (b, Z.of_nat pos) k (vst M b n c) = Fault Dangling
  else exists p M' b' c', shrink_at SC RB maxn (b, Z.of_nat pos) k (vst M b n c) = Fine p (vst M' b' (n - k) c') /\
         good M' b' (n - k) c'.
Proof.
  intros G PP. pose proof G as (H & L & L0 & CP).
  pose proof (choose_ok M b n c (n - k) G) as CH.
  unfold shrink_at.
  set (K := kept RB (vst M b n c) (n - k)) in *.
  assert (PRE : forall A (f : ptr -> ptr -> nat -> nat -> P vec A),
     pbind get_b (fun b0 => pbind get_e (fun e => pbind get_c (fun c0 =>
       pbind (vchk (fun m => pdiff m (b, Z.of_nat pos) b0)) (fun d1 =>
       pbind (vchk (fun m => pdiff m (b, Z.of_nat pos) e)) (fun d2 =>
       pbind (vchk (fun m => padd m (b, Z.of_nat pos) (Z.of_nat k))) (fun q =>
       pbind (vchk (fun m => pdiff m q e)) (fun d3 =>
       pbind (reject_if ((d1 <? 0) || (0 <? d2) || (0 <? d3))%Z) (fun _ =>
       pbind size (fun s => f b0 e c0 s))))))))) (vst M b n c)
     = f (b, 0%Z) (b, Z.of_nat n) c n (vst M b n c)).
  { intros A f. stv. st v_b. st v_e. st v_c. st v_pdiff. st v_pdiff. st v_padd. st v_pdiff.
    erewrite pbind_fine; [| apply reject_no].
    - erewrite pbind_fine; [| eapply v_size; eauto]. reflexivity.
    - apply orb_false_iff. split; [apply orb_false_iff; split |]; apply Z.ltb_ge; lia. }
  rewrite PRE. clear PRE.
  destruct (Nat.eqb_spec (n - k) 0) as [E0 | E0].
  - rewrite (proj2 (Nat.ltb_ge k n)) by lia. cbn [andb].
    destruct (clear_ok M b n c G) as (M' & b' & c' & E & G').
    rewrite (pbind_fine _ _ _ _ _ E). eexists _, M', b', c'. split; [rewrite E0; reflexivity | rewrite E0; exact G'].
  - rewrite (proj2 (Nat.ltb_lt k n)) by lia. cbn [andb].
    destruct CH as [[KE E] | [(KE & D & E) | (KE & M' & t & c' & MV & RV & E)]]; rewrite KE in *; cbn [negb].
    + rewrite (pbind_fine _ _ _ _ _ E). cbn [fst snd]. clear E.
      stv. st v_peq. rewrite Nat.eqb_refl. cbn [andb Z.eqb].
      st v_padd.
      erewrite pbind_fine; [| apply (shrink_loop_ok _ _ _ _ _ _ L); lia].
      st v_padd.
      erewrite pbind_fine; [| apply (destroy_to_ok _ _ _ _ _ _ L); lia].
      st v_padd. st v_set_e.
      eexists _, M, b, c. split.
      * unfold pret. replace (Z.of_nat n + - Z.of_nat k)%Z with (Z.of_nat (n - k)) by lia. reflexivity.
      * repeat split; try assumption; lia.
    + exfalso. lia.
    + rewrite (pbind_fine _ _ _ _ _ E). clear E. cbn [fst snd].
      destruct (RV ltac:(lia)) as (-> & -> & ->). clear RV.
      destruct MV as (D & T & N & Lb & Lz & CP').
      stv. st v_peq. rewrite (proj2 (Nat.eqb_neq 0 b) N). cbn [andb].
      pose proof (transfer_ok M (b, 0%Z) (b, Z.of_nat n) c b c 0 SC false Lb T (S c) 0 0 pos
                    ltac:(lia) ltac:(lia) ltac:(lia) ltac:(lia) ltac:(lia)) as TR.
      cbv beta iota in TR. cbn [Z.add] in TR.
      rewrite (pbind_fine _ _ _ _ _ TR). clear TR. cbn [fst snd].
      st v_padd.
      erewrite pbind_fine; [| apply (destroy_to_ok _ _ _ _ _ _ Lb); lia].
      st v_padd.
      pose proof (transfer_ok M (b, 0%Z) (b, Z.of_nat n) c b c 0 SC true Lb T (S c)
                    (Z.of_nat pos + Z.of_nat k) (Z.of_nat pos) (n - k - pos)
                    ltac:(lia) ltac:(lia) ltac:(lia) ltac:(lia) ltac:(lia)) as TR.
      cbv beta iota in TR. replace (Z.of_nat pos + Z.of_nat (n - k - pos))%Z with (Z.of_nat (n - k)) in TR by lia.
      cbn [Z.add]. rewrite (pbind_fine _ _ _ _ _ TR). clear TR.
      rewrite (pbind_fine _ _ _ _ _ (dealloc_ok _ _ _ _ _ _ Lb (not_eq_sym N))).
      erewrite pbind_fault; [reflexivity |].
      unfold vchk, pdiff, usable. cbn [vmem fst]. rewrite (nth_upd_none _ _ _ Lb). reflexivity.
Qed.

Lemma reserve_ok M b n c k : good M b n c ->
  (exists M' b' c', reserve SC RB maxn k (vst M b n c) = Fine tt (vst M' b' n c') /\ good M' b' n c' /\ k <= c') \/
  (reserve SC RB maxn k (vst M b n c) = Rejected (vst M b n c) /\ c < k).
Proof.
  intros G. pose proof G as (H & L & L0 & CP).
  unfold reserve. erewrite pbind_fine; [| apply v_c]. erewrite pbind_fine; [| apply v_b].
  destruct (Nat.leb_spec k c) as [KC | KC].
  - left. exists M, b, c. repeat split; try assumption.
  - destruct (choose_ok M b n c k G) as [[KE E] | [(KE & D & E) | (KE & M' & t & c' & MV & _ & E)]].
    + exfalso. rewrite kept_vst in KE. apply andb_prop in KE. destruct KE as [KE _]. apply Nat.leb_le in KE. lia.
    + right. split; [| exact D]. rewrite (pbind_rejected _ _ _ _ E). reflexivity.
    + left. rewrite (pbind_fine _ _ _ _ _ E). clear E. cbn [fst snd].
      destruct MV as (D & T & N & Lb & Lz & CP').
      stv. erewrite pbind_fine; [| eapply v_size; eauto].
      erewrite pbind_fine; [| apply (move_all_ok _ _ _ _ _ _ _ _ Lb T); lia].
      erewrite pbind_fine; [| apply (move_all_ok _ _ _ _ _ _ _ _ Lb Lb); lia].
      destruct (free_old M' b c t c' (b, Z.of_nat n) Lb Lz T N) as (M2 & T2 & Z2 & F2).
      rewrite F2. clear F2.
      st v_set_b. st v_padd. st v_set_e.
      exists M2, t, c'. repeat split; try assumption; lia.
Qed.

Lemma shrink_to_fit_ok M b n c : good M b n c ->
  (exists M' b' c', shrink_to_fit SC maxn (vst M b n c) = Fine tt (vst M' b' n c') /\ good M' b' n c') \/
  shrink_to_fit SC maxn (vst M b n c) = Rejected (vst M b n c).
Proof.
  intros G. pose proof G as (H & L & L0 & CP). unfold shrink_to_fit. stv.
  erewrite pbind_fine; [| eapply v_size; eauto]. st v_c. st v_b. st v_e.
  destruct (n =? c).
  { left. exists M, b, c. split; [reflexivity | exact G]. }
  erewrite pbind_fine; [| eapply v_static; eauto].
  destruct (Nat.eqb_spec b 0) as [B0 | B0].
  { left. exists M, b, c. split; [reflexivity | exact G]. }
  assert (REST : forall M' t c', n <= c' -> live M' b c -> live M' t c' -> live M' 0 SC -> t <> b -> 0 < c' ->
     exists M2 b2 c2,
       pbind get_b (fun nb => pbind (transfer (S c) false (b, 0%Z) nb (b, Z.of_nat n)) (fun r =>
         pbind (set_e (snd r)) (fun _ => deallocate (b, 0%Z) c))) (mkVec M' (t, 0%Z) (t, 0%Z) c')
       = Fine tt (mkVec M2 (b2, 0%Z) (b2, Z.of_nat n) c2) /\ good M2 b2 n c2).
  { intros M' t c' A1 Lb T Lz N A2. st v_b.
    pose proof (transfer_ok M' (t, 0%Z) (t, 0%Z) c' b c t c' false Lb T (S c) 0 0 n
                  ltac:(lia) ltac:(lia) ltac:(lia) ltac:(lia) ltac:(lia)) as TR.
    cbv beta iota in TR. cbn [Z.add] in TR.
    rewrite (pbind_fine _ _ _ _ _ TR). clear TR. cbn [snd]. st v_set_e.
    rewrite (dealloc_ok _ _ _ _ _ _ Lb B0).
    exists (upd M' b None), t, c'. split; [reflexivity |].
    repeat split; try (apply live_upd; try assumption; lia); lia. }
  destruct (Nat.ltb_spec n SC) as [NS | NS].
  - left. rewrite pbind_assoc. st v_set_e. rewrite pbind_assoc. st v_set_b. st v_set_c.
    unfold static_begin.
    destruct (REST M 0 SC ltac:(lia) L L0 L0 ltac:(lia) SC_pos) as (M2 & b2 & c2 & E & G2).
    exists M2, b2, c2. split; [exact E | exact G2].
  - rewrite pbind_assoc.
    destruct (maxn <? n) eqn:MX.
    { right. apply pbind_rejected. unfold allocate. rewrite MX. reflexivity. }
    left.
    assert (AE : allocate maxn n (mkVec M (b, 0%Z) (b, Z.of_nat n) c)
                 = Fine (length M, 0%Z) (mkVec (M ++ [Some n]) (b, 0%Z) (b, Z.of_nat n) c))
      by (unfold allocate; rewrite MX; reflexivity).
    rewrite (pbind_fine _ _ _ _ _ AE). clear AE.
    rewrite pbind_assoc. st v_set_e. rewrite pbind_assoc. st v_set_b. st v_set_c.
    pose proof (live_lt _ _ _ L).
    destruct (REST (M ++ [Some n]) (length M) n ltac:(lia) (live_app _ _ _ _ L) (live_new _ _) (live_app _ _ _ _ L0)
                ltac:(lia) ltac:(lia)) as (M2 & b2 & c2 & E & G2).
    exists M2, b2, c2. split; [exact E | exact G2].
Qed.

Lemma resize_ok M b n c k : good M b n c ->
  (exists M' b' c', resize SC RB maxn k (vst M b n c) = Fine tt (vst M' b' k c') /\ good M' b' k c') \/
  (resize SC RB maxn k (vst M b n c) = Rejected (vst M b n c) /\ c < k).
Proof.
  intros G. unfold resize.
  destruct (reserve_ok M b n c k G) as [(M' & b' & c' & E & G' & K) | [E D]].
  - left. rewrite (pbind_fine _ _ _ _ _ E). clear E. destruct G' as (H & L & L0 & CP).
    stv. st v_b. st v_c. st v_padd. cbn [Z.add].
    erewrite pbind_fine; [| apply (cut_ok _ _ _ _ _ _ L); lia].
    exists M', b', c'. split.
    + rewrite (extend_ok _ _ _ _ _ _ L) by lia. do 3 f_equal. lia.
    + repeat split; try assumption.
  - right. split; [| exact D]. rewrite (pbind_rejected _ _ _ _ E). reflexivity.
Qed.

Lemma assign_ok M b n c k : good M b n c ->
  (exists M' b' c', assign SC RB maxn k (vst M b n c) = Fine tt (vst M' b' k c') /\ good M' b' k c') \/
  (assign SC RB maxn k (vst M b n c) = Rejected (vst M b n c) /\ c < k).
Proof.
  intros G. pose proof G as (H & L & L0 & CP). unfold assign.
  erewrite pbind_fine; [| apply destroy_all_ok; assumption].
  destruct (choose_ok M b n c k G) as [[KE E] | [(KE & D & E) | (KE & M' & t & c' & MV & _ & E)]].
  - left. fold (vst M b n c). rewrite (pbind_fine _ _ _ _ _ E). clear E. cbn [fst snd].
    rewrite kept_vst in KE. apply andb_prop in KE. destruct KE as [KE _]. apply Nat.leb_le in KE.
    stv. st v_set_e.
    erewrite pbind_fine; [| apply (append_ok _ _ _ _ _ L); lia].
    st v_b. st v_c. erewrite pbind_fine; [| eapply v_static; eauto].
    assert (Q : (if b =? 0 then pret true else vchk (fun m => peq m (b, 0%Z) (b, 0%Z)))
                  (mkVec M (b, 0%Z) (b, (0 + Z.of_nat k)%Z) c) = Fine true (mkVec M (b, 0%Z) (b, (0 + Z.of_nat k)%Z) c)).
    { destruct (b =? 0); [reflexivity |]. rewrite (v_peq _ _ _ _ _ _ _ _ _ _ L L). rewrite Nat.eqb_refl. reflexivity. }
    rewrite (pbind_fine _ _ _ _ _ Q). clear Q.
    erewrite pbind_fine; [| reflexivity]. st v_set_b. rewrite v_set_c.
    exists M, b, c. split; [reflexivity |]. repeat split; try assumption.
  - right. split; [| exact D]. fold (vst M b n c). rewrite (pbind_rejected _ _ _ _ E). reflexivity.
  - left. fold (vst M b n c). rewrite (pbind_fine _ _ _ _ _ E). clear E. cbn [fst snd].
    destruct MV as (D & T & N & Lb & Lz & CP').
    stv. st v_set_e.
    erewrite pbind_fine; [| apply (append_ok _ _ _ _ _ T); lia].
    st v_b. st v_c. erewrite pbind_fine; [| eapply v_static; eauto].
    destruct (Nat.eqb_spec b 0) as [B0 | B0].
    + erewrite pbind_fine; [| reflexivity]. erewrite pbind_fine; [| reflexivity]. st v_set_b. rewrite v_set_c.
      exists M', t, c'. split; [reflexivity |]. repeat split; assumption.
    + st v_peq. rewrite (proj2 (Nat.eqb_neq b t)) by lia. cbn [andb].
      rewrite (pbind_fine _ _ _ _ _ (dealloc_ok _ _ _ _ _ _ Lb B0)). st v_set_b. rewrite v_set_c.
      exists (upd M' b None), t, c'. split; [reflexivity |].
      repeat split; try (apply live_upd; try assumption; lia); assumption.
Qed.

Lemma at_ok M b n c pos : good M b n c -> pos <= n ->
  at_ pos (vst M b n c) = Fine (b, Z.of_nat pos) (vst M b n c).
Proof.
  intros (H & L & _ & _) P. unfold at_. stv. st v_b. rewrite (v_padd _ _ _ _ _ _ _ _ L) by lia. reflexivity.
Qed.

Definition fits (s : vec) (n' want : nat) (o : out vec unit) : Prop :=
  (exists s', o = Fine tt s' /\ wf SC s' /\ vsize s' = n') \/ (o = Rejected s /\ vcap s < want).

Lemma ins_ok M b n c pos k (w : ptr -> P vec unit) : good M b n c -> pos <= n ->
  (forall M' b' c', good M' b' (n + k) c' -> w (b', Z.of_nat pos) (vst M' b' (n + k) c') = Fine tt (vst M' b' (n + k) c')) ->
  if (pos =? 0) && kept RB (vst M b n c) (n + k)
  then pbind (grow_at SC RB maxn (b, Z.of_nat pos) k) w (vst M b n c) = Fault Outside
  else fits (vst M b n c) (n + k) (n + k) (pbind (grow_at SC RB maxn (b, Z.of_nat pos) k) w (vst M b n c)).
Proof.
  intros G PP W. pose proof (grow_at_ok M b n c pos k G PP) as Q.
  destruct ((pos =? 0) && kept RB (vst M b n c) (n + k)).
  - rewrite (pbind_fault _ _ _ _ Q). reflexivity.
  - destruct Q as [(M' & b' & c' & E & G') | [E D]].
    + left. exists (vst M' b' (n + k) c'). rewrite (pbind_fine _ _ _ _ _ E).
      split; [exact (W _ _ _ G') |]. split; [apply good_wf; exact G' | apply vsize_vst].
    + right. split; [| exact D]. rewrite (pbind_rejected _ _ _ _ E). reflexivity.
Qed.
Lemma er_ok M b n c pos k : good M b n c -> pos + k <= n ->
  if (k <? n) && negb (kept RB (vst M b n c) (n - k))
  then pbind (shrink_at SC RB maxn (b, Z.of_nat pos) k) (fun _ => pret tt) (vst M b n c) = Fault Dangling
  else fits (vst M b n c) (n - k) (n - k) (pbind (shrink_at SC RB maxn (b, Z.of_nat pos) k) (fun _ => pret tt) (vst M b n c)).
Proof.
  intros G PP. pose proof (shrink_at_ok M b n c pos k G PP) as Q.
  destruct ((k <? n) && negb (kept RB (vst M b n c) (n - k))).
  - rewrite (pbind_fault _ _ _ _ Q). reflexivity.
  - destruct Q as (p & M' & b' & c' & E & G').
    left. exists (vst M' b' (n - k) c'). rewrite (pbind_fine _ _ _ _ _ E).
    split; [reflexivity |]. split; [apply good_wf; exact G' | apply vsize_vst].
Qed.
Lemma fine_fits M b n c n' want (o : out vec unit) :
  (exists M' b' c', o = Fine tt (vst M' b' n' c') /\ good M' b' n' c') \/ (o = Rejected (vst M b n c) /\ c < want) ->
  fits (vst M b n c) n' want o.
Proof.
  intros [(M' & b' & c' & E & G') | [E D]].
  - left. exists (vst M' b' n' c'). split; [exact E |]. split; [apply good_wf; exact G' | apply vsize_vst].
  - right. split; [exact E | exact D].
Qed.

Theorem small_call s o : wf SC s -> small_in s (Seq o) ->
  match small_bad RB s o with
  | Some f => call SC RB maxn (Seq o) s = Fault f
  | None => fits s (new_size (vsize s) o) (new_size (vsize s) o) (call SC RB maxn (Seq o) s)
  end.
Proof.
  intros W I. apply wf_good in W. destruct W as (M & b & n & c & -> & G). pose proof G as (H & L & L0 & CP).
  unfold small_bad. cbn [small_in] in I. rewrite !vsize_vst in *.
  destruct o; cbn [call vin insertion erasure new_size] in *.
  - erewrite pbind_fine; [| apply v_e].
    pose proof (ins_ok M b n c n 1 (fun p => vchk (fun m => deref m p)) G (le_n n)) as Q.
    replace (n + 1) with (S n) in Q by lia.
    assert (KN : (n =? 0) && kept RB (vst M b n c) 1 = (n =? 0) && kept RB (vst M b n c) (S n)).
    { destruct (Nat.eqb_spec n 0) as [-> | N]; reflexivity. }
    rewrite KN. change (ve (vst M b n c)) with (b, Z.of_nat n).
    destruct ((n =? 0) && kept RB (vst M b n c) (S n)); apply Q;
      intros M' b' c' (A1 & A2 & _); apply (v_deref _ _ _ _ _ _ _ A2); lia.
  - destruct (Nat.eqb_spec n 0) as [-> | N].
    + stv. st v_e. erewrite pbind_fault; [reflexivity | eapply v_padd_out; [exact L | lia]].
    + pose proof (er_ok M b n c (n - 1) 1 G ltac:(lia)) as Q.
      assert (E : pbind get_e (fun e => pbind (vchk (fun m => padd m e (-1))) (fun p =>
                    pbind (shrink_at SC RB maxn p 1) (fun _ => pret tt))) (vst M b n c)
                  = pbind (shrink_at SC RB maxn (b, Z.of_nat (n - 1)) 1) (fun _ => pret tt) (vst M b n c)).
      { stv. st v_e. st v_padd. replace (Z.of_nat n + -1)%Z with (Z.of_nat (n - 1)) by lia. reflexivity. }
      rewrite E. destruct ((1 <? n) && negb (kept RB (vst M b n c) (n - 1))); exact Q.
  - rewrite (pbind_fine _ _ _ _ _ (at_ok M b n c pos G I)).
    pose proof (ins_ok M b n c pos 1 (fun p => vchk (fun m => deref m p)) G I) as Q.
    replace (n + 1) with (S n) in * by lia.
    destruct ((pos =? 0) && kept RB (vst M b n c) (S n)); apply Q;
      intros M' b' c' (A1 & A2 & _); apply (v_deref _ _ _ _ _ _ _ A2); lia.
  - rewrite (pbind_fine _ _ _ _ _ (at_ok M b n c pos G I)).
    pose proof (ins_ok M b n c pos n0 (fun p => fill p 0 n0) G I) as Q.
    destruct ((pos =? 0) && kept RB (vst M b n c) (n + n0)); apply Q;
      intros M' b' c' (A1 & A2 & _); apply (fill_ok _ _ _ _ _ _ _ A2); lia.
  - rewrite (pbind_fine _ _ _ _ _ (at_ok M b n c pos G I)).
    pose proof (ins_ok M b n c pos (length l) (fun p => copy p (length l)) G I) as Q.
    destruct ((pos =? 0) && kept RB (vst M b n c) (n + length l)); apply Q;
      intros M' b' c' (A1 & A2 & _); apply (copy_ok _ _ _ _ _ _ A2); lia.
  - rewrite (pbind_fine _ _ _ _ _ (at_ok M b n c pos G ltac:(lia))).
    pose proof (er_ok M b n c pos 1 G ltac:(lia)) as Q.
    destruct ((1 <? n) && negb (kept RB (vst M b n c) (n - 1))); exact Q.
  - rewrite (pbind_fine _ _ _ _ _ (at_ok M b n c first G ltac:(lia))).
    rewrite (pbind_fine _ _ _ _ _ (at_ok M b n c last G ltac:(lia))).
    pose proof (er_ok M b n c first (last - first) G ltac:(lia)) as Q.
    erewrite pbind_fine; [| apply (v_pdiff _ _ _ _ _ _ _ _ L)].
    erewrite pbind_fine; [| apply reject_no; apply Z.ltb_ge; lia].
    replace (Z.to_nat (Z.of_nat last - Z.of_nat first)) with (last - first) by lia.
    destruct ((last - first <? n) && negb (kept RB (vst M b n c) (n - (last - first)))); exact Q.
  - apply fine_fits. apply resize_ok. exact G.
  - apply fine_fits. apply resize_ok. exact G.
  - apply fine_fits. left. apply clear_ok. exact G.
  - apply fine_fits. apply assign_ok. exact G.
  - apply fine_fits. apply assign_ok. exact G.
Qed.

Theorem small_call_other s o : wf SC s -> (forall p, o <> Seq p) ->
  exists s', (call SC RB maxn o s = Fine tt s' \/ call SC RB maxn o s = Rejected s /\ s' = s) /\ wf SC s' /\ vsize s' = vsize s.
Proof.
  intros W NS. pose proof W as W0. apply wf_good in W. destruct W as (M & b & n & c & -> & G).
  rewrite vsize_vst.
  assert (STF : forall r, r = shrink_to_fit SC maxn (vst M b n c) -> exists s',
            (r = Fine tt s' \/ r = Rejected (vst M b n c) /\ s' = vst M b n c) /\ wf SC s' /\ vsize s' = n).
  { intros r ->. destruct (shrink_to_fit_ok M b n c G) as [(M' & b' & c' & E & G') | E].
    - exists (vst M' b' n c'). split; [left; exact E | split; [apply good_wf; exact G' | apply vsize_vst]].
    - exists (vst M b n c). split; [right; split; [exact E | reflexivity] | split; [exact W0 | apply vsize_vst]]. }
  destruct o as [o | k | |]; cbn [call].
  - exfalso. exact (NS o eq_refl).
  - destruct (reserve_ok M b n c k G) as [(M' & b' & c' & E & G' & K) | [E D]].
    + exists (vst M' b' n c'). split; [left; exact E | split; [apply good_wf; exact G' | apply vsize_vst]].
    + exists (vst M b n c). split; [right; split; [exact E | reflexivity] | split; [exact W0 | apply vsize_vst]].
  - apply STF. reflexivity.
  - destruct G as (H & L & L0 & CP). unfold revert_to_static.
    assert (E1 : size (vst M b n c) = Fine n (vst M b n c)) by (eapply v_size; eauto).
    rewrite (pbind_fine _ _ _ _ _ E1).
    assert (E2 : is_static (vst M b n c) = Fine (b =? 0) (vst M b n c)) by (eapply v_static; eauto).
    rewrite (pbind_fine _ _ _ _ _ E2).
    destruct (b =? 0); [exists (vst M b n c); split; [left; reflexivity | split; [exact W0 | apply vsize_vst]] |].
    destruct (SC <? n); [exists (vst M b n c); split; [left; reflexivity | split; [exact W0 | apply vsize_vst]] |].
    apply STF. reflexivity.
Qed.
End Small.
