(** Proofs for C115: stride_span. *)
From Coq Require Import List Arith ZArith Bool Lia.
From Verif Require Import Base PtrModel PtrSpec PtrProofs.
Import ListNotations.

Lemma m_padd L i d : (0 <= i + d <= Z.of_nat L)%Z ->
  mchk (fun m => padd m (0, i) d) [Some L] = Fine (0, (i + d)%Z) [Some L].
Proof. intro H. unfold mchk. rewrite (padd_ok _ _ _ _ _ (live0 L) H). reflexivity. Qed.
Lemma m_padd_far L i d : (Z.of_nat L < i + d)%Z -> (0 <= i + d)%Z ->
  mchk (fun m => padd m (0, i) d) [Some L] = Fault Outside.
Proof.
  intros H H0. unfold mchk, padd. cbn [fst snd nth_error].
  rewrite (proj2 (Z.leb_le 0 (i + d))) by lia. rewrite (proj2 (Z.leb_gt _ _)) by lia. reflexivity.
Qed.
Lemma m_peq L i j : mchk (fun m => peq m (0, i) (0, j)) [Some L] = Fine (i =? j)%Z [Some L].
Proof. unfold mchk. rewrite (peq_ok _ _ _ _ _ i j (live0 L) (live0 L)). reflexivity. Qed.
Ltac st L := erewrite pbind_fine; [| eapply L; try lia].

Definition steps (o : Z) (stride from k : nat) : list Z := map (fun i => (o + Z.of_nat (i * stride))%Z) (seq from k).
Lemma steps_S o stride from k : steps o stride from (S k) = (o + Z.of_nat (from * stride))%Z :: steps o stride (S from) k.
Proof. reflexivity. Qed.

Lemma loop_ok L sz s : 0 < ss_stride s -> sz <= ss_stride s -> forall k i fuel, k < fuel ->
  (0 <= ss_begin s)%Z -> (ss_begin s + Z.of_nat ((i + k) * ss_stride s) <= Z.of_nat L)%Z ->
  ss_loop fuel sz s (0, (ss_begin s + Z.of_nat (i * ss_stride s))%Z) (0, (ss_begin s + Z.of_nat ((i + k) * ss_stride s))%Z) [Some L]
  = Fine (steps (ss_begin s) (ss_stride s) i k) [Some L].
Proof.
  intros SP SZ. induction k as [| k IH]; intros i fuel F B0 H; (destruct fuel as [| f]; [lia |]); cbn [ss_loop]; st m_peq.
  - rewrite Nat.add_0_r, Z.eqb_refl. reflexivity.
  - destruct (Z.eqb_spec (ss_begin s + Z.of_nat (i * ss_stride s)) (ss_begin s + Z.of_nat ((i + S k) * ss_stride s))) as [Q | Q]; [nia |].
    assert (i * ss_stride s + ss_stride s <= (i + S k) * ss_stride s) by nia.
    st m_padd. st m_padd.
    replace (ss_begin s + Z.of_nat (i * ss_stride s) + Z.of_nat (ss_stride s))%Z
      with (ss_begin s + Z.of_nat (S i * ss_stride s))%Z by lia.
    replace (i + S k) with (S i + k) in * by lia.
    erewrite pbind_fine; [| apply IH; lia]. rewrite steps_S. reflexivity.
Qed.
Lemma iterate_ok L sz s : 0 < ss_stride s -> sz <= ss_stride s -> (0 <= ss_begin s)%Z ->
  (ss_begin s + Z.of_nat (ss_num s * ss_stride s) <= Z.of_nat L)%Z ->
  ss_iterate sz s [Some L] = Fine (steps (ss_begin s) (ss_stride s) 0 (ss_num s)) [Some L].
Proof.
  intros SP SZ B0 H. unfold ss_iterate, sit. st m_padd.
  pose proof (loop_ok L sz s SP SZ (ss_num s) 0 (S (ss_num s)) ltac:(lia) B0 H) as Q.
  rewrite Nat.mul_0_l, Z.add_0_r in Q. exact Q.
Qed.
Lemma iterate_far L sz s : (0 <= ss_begin s)%Z -> (Z.of_nat L < ss_begin s + Z.of_nat (ss_num s * ss_stride s))%Z ->
  ss_iterate sz s [Some L] = Fault Outside.
Proof. intros B0 H. unfold ss_iterate, sit. apply pbind_fault. apply m_padd_far; lia. Qed.
Lemma index_ok L sz s : (0 <= ss_begin s)%Z -> forall k i,
  (forall j, i <= j < i + k -> (ss_begin s + Z.of_nat (j * ss_stride s) + Z.of_nat sz <= Z.of_nat L)%Z) ->
  ss_index sz s i k [Some L] = Fine (steps (ss_begin s) (ss_stride s) i k) [Some L].
Proof.
  intro B0. induction k as [| k IH]; intros i H; [reflexivity |].
  cbn [ss_index]. unfold sit. pose proof (H i ltac:(lia)).
  st m_padd. st m_padd.
  erewrite pbind_fine; [| apply IH; intros j J; apply H; lia]. rewrite steps_S. reflexivity.
Qed.

Lemma steps_array sz noffset nstride k :
  steps (Z.of_nat (noffset * sz)) (sz * nstride) 0 k = array_offsets sz noffset nstride k.
Proof. unfold steps, array_offsets. apply map_ext. intro i. nia. Qed.
Lemma steps_field ssz field k : steps (Z.of_nat field) ssz 0 k = field_offsets ssz field k.
Proof. unfold steps, field_offsets. apply map_ext. intro i. lia. Qed.

Lemma up_exact a d : 0 < d -> a mod d = 0 -> (a + d - 1) / d = a / d /\ (a / d) * d = a.
Proof.
  intros D M. pose proof (Nat.div_mod a d ltac:(lia)) as E. rewrite M in E.
  split; [| lia]. symmetry. apply (Nat.div_unique _ _ _ (d - 1)); lia.
Qed.
Lemma up_more a d : 0 < d -> a mod d <> 0 -> (a + d - 1) / d = S (a / d) /\ a < S (a / d) * d /\ (a / d) * d < a.
Proof.
  intros D M. pose proof (Nat.div_mod a d ltac:(lia)) as E. pose proof (Nat.mod_upper_bound a d ltac:(lia)) as U.
  split; [| nia]. symmetry. apply (Nat.div_unique _ _ _ (a mod d - 1)); nia.
Qed.

Theorem array_iterate sz len noffset nstride : 0 < sz -> 0 < nstride -> noffset <= len ->
  ss_iterate sz (from_array sz len noffset nstride) [Some (sz * len)]
  = if (len - noffset) mod nstride =? 0
    then Fine (array_offsets sz noffset nstride ((len - noffset) / nstride)) [Some (sz * len)]
    else Fault Outside.
Proof.
  intros SZ NS NO. destruct (Nat.eqb_spec ((len - noffset) mod nstride) 0) as [M | M].
  - destruct (up_exact _ _ NS M) as [U1 U2].
    rewrite iterate_ok; unfold from_array; cbn [ss_begin ss_stride ss_num]; rewrite ?U1; try nia.
    rewrite steps_array. reflexivity.
  - destruct (up_more _ _ NS M) as (U1 & U2 & U3).
    apply iterate_far; unfold from_array; cbn [ss_begin ss_stride ss_num]; rewrite ?U1; try nia.
Qed.
Theorem array_index sz len noffset nstride : 0 < sz -> 0 < nstride -> noffset <= len ->
  let k := (len - noffset + nstride - 1) / nstride in
  ss_index sz (from_array sz len noffset nstride) 0 k [Some (sz * len)]
  = Fine (array_offsets sz noffset nstride k) [Some (sz * len)].
Proof.
  intros SZ NS NO k. subst k. rewrite index_ok.
  - unfold from_array. cbn [ss_begin ss_stride]. rewrite steps_array. reflexivity.
  - unfold from_array. cbn [ss_begin]. lia.
  - intros j J. unfold from_array. cbn [ss_begin ss_stride].
    assert (JL : noffset + j * nstride < len).
    { destruct (Nat.eq_dec ((len - noffset) mod nstride) 0) as [M | M].
      - destruct (up_exact _ _ NS M) as [U1 U2]. rewrite U1 in J. nia.
      - destruct (up_more _ _ NS M) as (U1 & U2 & U3). rewrite U1 in J. nia. }
    assert (sz * (noffset + j * nstride + 1) <= sz * len) by (apply Nat.mul_le_mono_l; lia). nia.
Qed.
Theorem member_iterate sz ssz len field : 0 < sz -> field + sz <= ssz -> 0 < len ->
  ss_iterate sz (member_view ssz len field) [Some (ssz * len)]
  = if field =? 0 then Fine (field_offsets ssz field len) [Some (ssz * len)] else Fault Outside.
Proof.
  intros SZ F LN. destruct (Nat.eqb_spec field 0) as [-> | N].
  - rewrite iterate_ok; unfold member_view; cbn [ss_begin ss_stride ss_num]; try nia.
    rewrite steps_field. reflexivity.
  - apply iterate_far; unfold member_view; cbn [ss_begin ss_stride ss_num]; nia.
Qed.
Theorem member_index sz ssz len field : 0 < sz -> field + sz <= ssz ->
  ss_index sz (member_view ssz len field) 0 len [Some (ssz * len)] = Fine (field_offsets ssz field len) [Some (ssz * len)].
Proof.
  intros SZ F. rewrite index_ok.
  - unfold member_view. cbn [ss_begin ss_stride]. rewrite steps_field. reflexivity.
  - unfold member_view. cbn [ss_begin]. lia.
  - intros j J. unfold member_view. cbn [ss_begin ss_stride]. nia.
Qed.
