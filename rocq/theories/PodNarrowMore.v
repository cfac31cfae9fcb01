(** Proofs about pod_vector with a narrow size_type: what goes wrong without the room. *)
From Coq Require Import List Arith NArith ZArith Bool Lia.
From Verif Require Import Base SeqSpec VecCommon SmallVectorModel SmallVectorProofs PodVectorModel PodVectorSpec PodVectorProofs
  PodNarrowModel PodNarrowSpec PodNarrowProofs.
Import ListNotations.

(** [f] is undefined, or ends normally in [Q]. *)
Definition so {S R} (f : M S R) (s : S) (Q : R -> S -> Prop) : Prop :=
  match f s with
  | Ok r s' => Q r s'
  | UB => True
  | _ => False
  end.
Lemma so_ub {S R} (f : M S R) s : so f s (fun _ _ => False) -> f s = UB.
Proof. unfold so. destruct (f s); tauto. Qed.
Lemma so_bind {S R Q} (f : M S R) (g : R -> M S Q) s P K :
  so f s P -> (forall r s', P r s' -> so (g r) s' K) -> so (bind f g) s K.
Proof. unfold so, bind. intros H G. destruct (f s); auto. now apply G. Qed.
Lemma so_weak {S R} (f : M S R) s (P Q : R -> S -> Prop) : so f s P -> (forall r s', P r s' -> Q r s') -> so f s Q.
Proof. unfold so. intros H G. destruct (f s); auto. Qed.
Lemma so_read {S R Q} (f : M S R) (g : R -> M S Q) s r K :
  f s = Ok r s -> so (g r) s K -> so (bind f g) s K.
Proof. unfold so, bind. now intros ->. Qed.

(** The block [p] points into has less than [n] bytes, or there is none. *)
Definition short (st : pst) (p : bptr) (n : nat) : Prop :=
  match p with
  | None => True
  | Some (b, _) => forall a bytes, nth_error (blks (fst st)) b = Some (MBlk a bytes) -> length bytes < n
  end.

Lemma write_short p l st : short st p (length l) -> write_bytes p l st = UB.
Proof.
  unfold write_bytes, short. destruct p as [[b o]|]; [|reflexivity]. intros H.
  destruct (nth_error _ _) as [[a bytes|a]|]; try reflexivity. specialize (H _ _ eq_refl).
  destruct (Nat.leb_spec (o + length l) (length bytes)); [lia|reflexivity].
Qed.
Lemma padd_short p n st : short st p (N.to_nat n) -> n <> 0%N -> padd p n st = UB.
Proof.
  unfold padd, short. destruct p as [[b o]|].
  - intros H _. destruct (nth_error _ _) as [[a bytes|a]|]; try reflexivity. specialize (H _ _ eq_refl).
    destruct (N.leb_spec (N.of_nat o + n) (N.of_nat (length bytes))); [lia|reflexivity].
  - intros _ H. apply N.eqb_neq in H. now rewrite H.
Qed.
Lemma read_length p n st l st' : read_bytes p n st = Ok l st' -> length l = n /\ st' = st.
Proof.
  unfold read_bytes. destruct p as [[b o]|]; [|discriminate].
  destruct (nth_error _ _) as [[a bytes|a]|]; try discriminate.
  destruct (Nat.leb_spec (o + n) (length bytes)); [|discriminate].
  intros E. injection E as <- <-. split; [|reflexivity]. rewrite firstn_length, skipn_length. lia.
Qed.
Lemma so_read_bytes p n st : so (read_bytes p n) st (fun l st' => length l = n /\ st' = st).
Proof.
  unfold so. destruct (read_bytes p n st) eqn:E; auto; [eapply read_length; eauto|..];
    unfold read_bytes in E; destruct p as [[b o]|]; try discriminate;
    destruct (nth_error _ _) as [[? ?|?]|]; try discriminate; destruct (_ <=? _); discriminate.
Qed.
Lemma memcpy_short p q n st : short st p (N.to_nat n) -> memcpy p q n st = UB.
Proof.
  intros H. unfold memcpy. destruct (overlap _ _ _); [reflexivity|]. apply so_ub. unfold memmove.
  eapply so_bind; [apply so_read_bytes|]. intros l st' (Hl & ->). unfold so.
  rewrite (write_short p l); [exact I|]. now rewrite Hl.
Qed.
Lemma splice_length bytes o l : o + length l <= length bytes -> length (splice bytes o l) = length bytes.
Proof. intros H. unfold splice. rewrite !app_length, firstn_length, skipn_length. lia. Qed.

(** Writing leaves blocks as short as they are. *)
Lemma so_write p l st : so (write_bytes p l) st (fun _ st' => snd st' = snd st /\ forall q n, short st q n -> short st' q n).
Proof.
  unfold so, write_bytes. destruct p as [[b o]|]; [|exact I].
  destruct (nth_error (blks (fst st)) b) as [[a bytes|a]|] eqn:En; try exact I.
  destruct (Nat.leb_spec (o + length l) (length bytes)) as [Hl|]; [|exact I].
  split; [reflexivity|]. intros [[c q]|] n H; [|exact I]. cbn [short fst blks] in *.
  intros a' bytes' E. destruct (Nat.eq_dec c b) as [->|Hne].
  - rewrite nth_error_upd_eq in E by (eapply nth_lt; eauto). injection E as <- <-.
    rewrite splice_length by exact Hl. eapply H; eauto.
  - rewrite nth_error_upd_neq in E by congruence. eapply H; eauto.
Qed.
Lemma so_padd p n st : so (padd p n) st (fun q st' => st' = st /\ forall m, short st p m -> short st q m).
Proof.
  unfold so, padd. destruct p as [[b o]|].
  - destruct (nth_error _ _) as [[a bytes|a]|]; try exact I. destruct (_ <=? _)%N; [|exact I].
    split; [reflexivity|]. auto.
  - destruct (_ =? _)%N; [|exact I]. auto.
Qed.

Lemma so_psize T st : so (psize T) st (fun _ st' => st' = st).
Proof.
  unfold so, psize. destruct (pb (snd st)) as [[b o]|], (pe (snd st)) as [[b' o']|]; try exact I; try reflexivity.
  destruct (_ && _); [reflexivity|exact I].
Qed.

Section Narrow.
Variable W : N.
Variable A : alc.
Variable T : ety.
Hypothesis HT : ety_ok T.
Hypothesis HW : (W <= 64)%N.

Notation SZ := (esz T).
Notation AL := (eal T).
Notation holds := (pod_holds A T).
Notation cut := (cut W).

Lemma pow_pos : (2 ^ W <> 0)%N.
Proof. apply N.pow_nonzero. discriminate. Qed.
Lemma cut_two64 x : cut (x mod two64) = cut x.
Proof.
  unfold PodNarrowModel.cut, two64. change 18446744073709551616%N with (2 ^ 64)%N.
  replace 64%N with (W + (64 - W))%N by lia. rewrite N.pow_add_r.
  rewrite N.mod_mul_r by (apply N.pow_nonzero; discriminate).
  rewrite N.mul_comm, N.mod_add by apply pow_pos. apply N.mod_mod, pow_pos.
Qed.
Lemma cut_plus x y : cut (cut x + y) = cut (x + y).
Proof. unfold PodNarrowModel.cut. apply N.add_mod_idemp_l, pow_pos. Qed.
Lemma cut_mul x y : cut (cut x * y) = cut (x * y).
Proof. unfold PodNarrowModel.cut. apply N.mul_mod_idemp_l, pow_pos. Qed.

(** The number of bytes the allocator is asked for. *)
Lemma bytes_plain n : allocator_aligned A T = true -> cut (e2b T (cut n)) = cut (block_bytes A T n).
Proof.
  intros E. unfold block_bytes. rewrite E, N.add_0_r. unfold e2b. now rewrite cut_two64, cut_mul.
Qed.
Lemma bytes_padded n : allocator_aligned A T = false ->
  cut ((e2b T (cut n) + N.of_nat AL) mod two64) = cut (block_bytes A T n).
Proof.
  intros E. unfold block_bytes. rewrite E, cut_two64. unfold e2b.
  rewrite <- cut_plus, cut_two64, cut_mul, cut_plus. reflexivity.
Qed.

Notation bytes_for n := (N.to_nat (cut (block_bytes A T n))).

Lemma so_alloc_malloc size m st : N.to_nat size < m ->
  so (alloc_malloc A size) st (fun p st' => snd st' = snd st /\ short st' p m).
Proof.
  intros H. unfold so, alloc_malloc. destruct (a_addr A _ _) as [a|]; [|split; [reflexivity|exact I]].
  split; [reflexivity|]. cbn [short fst blks]. intros a' bytes E.
  rewrite nth_error_app_mid in E by reflexivity. injection E as <- <-.
  unfold junk. rewrite map_length, seq_length. exact H.
Qed.
Lemma so_align p m st : short st p m -> so (align_ptr T p) st (fun q st' => snd st' = snd st /\ short st' q m).
Proof.
  intros H. unfold align_ptr. destruct p as [[b o]|]; [|split; [reflexivity|exact I]].
  eapply so_read; [reflexivity|]. cbv zeta.
  eapply so_bind; [apply so_padd|]. intros q s' (-> & Hq).
  eapply so_bind; [apply so_write|]. intros u s' (E & K). cbn beta in *.
  unfold so, ret. split; [exact E|]. apply K, Hq, H.
Qed.
Lemma so_na_malloc n m st : bytes_for n < m ->
  so (na_malloc W A T n) st (fun p st' => snd st' = snd st /\ short st' p m).
Proof.
  intros H. unfold na_malloc. destruct (allocator_aligned A T) eqn:E.
  - rewrite (bytes_plain n E). now apply so_alloc_malloc.
  - rewrite (bytes_padded n E). eapply so_bind; [exact (so_alloc_malloc _ m _ H)|].
    intros p s' (E1 & H1). eapply so_weak; [exact (so_align _ _ _ H1)|]. intros q s2 (E2 & H2).
    split; [congruence|exact H2].
Qed.

Definition left_short (m : nat) (st : pst) : Prop := short st (pb (snd st)) m.

(** A vector which holds [s] elements, and a block too short for them. *)
Section Growing.
Variables (bs : list mblk) (k : nat) (v : pv) (bytes : list N) (s : nat) (c : N).
Hypothesis Hb : buf A T bs v bytes.
Hypothesis Hs : counts T v s.
Hypothesis Hfew : cut (N.of_nat s) = N.of_nat s.
Hypothesis Hs0 : s <> 0.
Hypothesis Hfit : e2b T (N.of_nat s) = (N.of_nat s * N.of_nat SZ)%N.
Hypothesis Hshort : bytes_for c < s * SZ.

Lemma nsize_at st : snd st = v -> nsize W T st = Ok (N.of_nat s) st.
Proof.
  intros E. unfold nsize. destruct st as [m w]. cbn in E. subst w. erewrite bind_ok by apply Hs.
  now rewrite Hfew.
Qed.
Lemma memcpy_all p q st : short st p (s * SZ) -> memcpy p q (e2b T (N.of_nat s)) st = UB.
Proof. intros H. apply memcpy_short. rewrite Hfit. now replace (N.to_nat _) with (s * SZ) by lia. Qed.

Lemma so_nmalloc_copy st : snd st = v -> so (nmalloc_copy W A T c (N.of_nat s)) st (fun _ _ => False).
Proof.
  intros E. unfold nmalloc_copy. eapply so_bind; [apply so_na_malloc, Hshort|].
  intros p s' (E1 & H1). eapply so_read; [reflexivity|].
  destruct (N.eqb_spec (N.of_nat s) 0); [lia|].
  eapply so_bind with (P := fun _ _ => False); [|tauto].
  eapply so_read; [apply nsize_at; congruence|]. unfold so. now rewrite memcpy_all.
Qed.

Lemma so_na_realloc st : st = (mkMem bs k, v) -> so (na_realloc_begin W A T c) st (fun _ st' => left_short (s * SZ) st').
Proof.
  intros Est. assert (snd st = v) as E by now subst. unfold na_realloc_begin. eapply so_read; [reflexivity|]. rewrite E.
  eapply so_bind with (P := fun _ st' => left_short (s * SZ) st');
    [|intros r s' H; exact H].
  destruct (allocator_aligned A T) eqn:Eal.
  - rewrite (bytes_plain c Eal).
    eapply so_bind with (P := fun p st' => short st' p (s * SZ)); [|intros p s' H; exact H].
    unfold alloc_realloc. destruct (pb v) as [[b o]|].
    2:{ eapply so_weak; [exact (so_alloc_malloc _ _ _ Hshort)|]. intros p s' (_ & H). exact H. }
    unfold so. destruct o; [|exact I].
    destruct (nth_error (blks (fst st)) b) as [[a old|a]|] eqn:En; try exact I.
    destruct (a_addr A _ _) as [a2|]; [|exact I].
    cbn [short fst blks]. intros a' bytes' Eb.
    rewrite nth_error_app_mid in Eb by (now rewrite upd_length). injection Eb as <- <-.
    rewrite app_length, firstn_length. unfold junk. rewrite map_length, seq_length. lia.
  - assert (forall n, na_malloc W A T (cut n) = na_malloc W A T n) as Em.
    { intros n. unfold na_malloc. now rewrite (cut_small W (cut n) (cut_lt W n)). }
    rewrite Em. eapply so_bind; [apply so_na_malloc, Hshort|]. intros p s' (E1 & H1).
    destruct (pb v) as [q|] eqn:Eq.
    + eapply so_bind with (P := fun _ _ => False); [|tauto].
      eapply so_read; [apply nsize_at; congruence|].
      eapply so_bind with (P := fun _ _ => False); [|tauto]. unfold so. now rewrite memcpy_all.
    + exact H1.
Qed.

Lemma so_na_expand st : st = (mkMem bs k, v) ->
  so (na_expand_begin W A T c) st (fun ok st' => if ok then left_short (s * SZ) st' else snd st' = v).
Proof.
  intros ->. unfold na_expand_begin. eapply so_read; [reflexivity|]. cbn [snd].
  assert (so (let* p := real_addr A T (pb v) in alloc_expand A p (cut (block_bytes A T c))) (mkMem bs k, v)
    (fun ok st' => snd st' = v /\ (ok = true -> left_short (s * SZ) st'))) as K.
  { destruct (pb v) as [[b o]|] eqn:Ep.
    2:{ unfold real_addr. destruct (allocator_aligned A T); exact I. }
    rewrite <- Ep.
    eapply so_read; [eapply real_addr_spec; eauto|]. unfold so, alloc_expand. cbn [fst blks ncall snd].
    destruct (nth_error bs b) as [[a old|a]|] eqn:En; try exact I.
    destruct (a_grant A k); (split; [reflexivity|]); [|discriminate]. intros _.
    unfold left_short. cbn [snd]. rewrite Ep. cbn [short fst blks]. intros a' bytes' Eb.
    rewrite nth_error_upd_eq in Eb by (eapply nth_lt; eauto). injection Eb as <- <-.
    rewrite app_length, firstn_length. unfold junk. rewrite map_length, seq_length. lia. }
  eapply so_bind with (P := fun ok st' => snd st' = v /\ (ok = true -> left_short (s * SZ) st')).
  - destruct (allocator_aligned A T) eqn:Eal.
    + rewrite (bytes_plain c Eal). unfold real_addr in K. rewrite Eal in K. exact K.
    + rewrite (bytes_padded c Eal). exact K.
  - intros ok s' (E1 & H1). destruct ok; [|exact E1]. specialize (H1 eq_refl). exact H1.
Qed.

Lemma reserve_short desired : pcap v = s -> (N.of_nat s < desired)%N ->
  nget_new_capacity W desired (mkMem bs k, v) = Ok c (mkMem bs k, v) -> 0 < SZ ->
  so (npreserve W A T desired) (mkMem bs k, v) (fun _ _ => False).
Proof.
  intros Hc Hd Hg Hsz. unfold npreserve. eapply so_read; [reflexivity|]. cbn [snd]. rewrite Hc.
  destruct (N.leb_spec desired (N.of_nat s)); [lia|].
  eapply so_read; [reflexivity|]. eapply so_read; [exact Hg|]. eapply so_read; [now apply nsize_at|].
  cbn [snd].
  eapply so_bind with (P := fun _ st' => left_short (s * SZ) st').
  - destruct (a_has_expand A).
    + destruct (pb v) as [q|] eqn:Eq.
      * eapply so_bind; [now apply so_na_expand|]. intros ok s' H1. cbn beta in H1. destruct ok; [exact H1|].
        eapply so_weak; [now apply so_nmalloc_copy|]. intros ? ? [].
      * eapply so_bind; [apply so_na_malloc, Hshort|]. intros p s' (E1 & H1). exact H1.
    + destruct (_ <? _)%N; [|now apply so_na_realloc].
      eapply so_weak; [now apply so_nmalloc_copy|]. intros ? ? [].
  - intros u s' H1. eapply so_bind with (P := fun _ _ => False); [|tauto].
    unfold end_at. eapply so_read; [reflexivity|]. unfold so, bind.
    rewrite padd_short; [exact I| |].
    + unfold left_short in H1. now replace (N.to_nat _) with (s * SZ) by lia.
    + assert (N.of_nat s * N.of_nat SZ > 0)%N by nia. lia.
Qed.
End Growing.

(** One element more than the capacity. *)
Lemma next_capacity bs k v n : pcap v = n -> n <> 0 -> (N.of_nat n + 1 < 2 ^ W)%N -> (3 * N.of_nat n + 1 < two64)%N ->
  nget_new_capacity W (N.of_nat n + 1) (mkMem bs k, v) = Ok (cut ((3 * N.of_nat n + 1) / 2)) (mkMem bs k, v).
Proof.
  intros Hc Hn Hw H3. unfold nget_new_capacity, get_new_capacity. rewrite (cut_small W _ Hw).
  unfold bind at 1. unfold mcap. unfold bind at 1. cbn [snd]. rewrite Hc.
  destruct (Nat.eqb_spec n 0); [contradiction|].
  assert (N.of_nat n + 1 <= (3 * N.of_nat n + 1) / 2)%N as Hle by (apply N.div_le_lower_bound; lia).
  assert (grow_cap (S (N.to_nat (N.of_nat n + 1))) (N.of_nat n) (N.of_nat n + 1) = Some ((3 * N.of_nat n + 1) / 2)%N) as ->;
    [|reflexivity].
  replace (N.to_nat (N.of_nat n + 1)) with (S n) by lia. unfold grow_cap at 1.
  destruct (N.ltb_spec (N.of_nat n) (N.of_nat n + 1)); [|lia].
  replace (((N.of_nat n * 3) mod two64 + 1) mod two64 / 2)%N with ((3 * N.of_nat n + 1) / 2)%N.
  - destruct (N.ltb_spec ((3 * N.of_nat n + 1) / 2) (N.of_nat n + 1)); [lia|]. reflexivity.
  - rewrite (N.mod_small (N.of_nat n * 3)) by lia. rewrite N.mod_small by lia. f_equal. lia.
Qed.

Lemma block_bytes_mono n m : (n <= m)%N -> (block_bytes A T n <= block_bytes A T m)%N.
Proof. unfold block_bytes. intros H. pose proof (N.mul_le_mono_r _ _ (N.of_nat SZ) H). lia. Qed.

Lemma emplace_short bs k v xs : holds bs v xs -> xs <> [] -> pcap v = length xs ->
  (block_bytes A T (N.of_nat (length xs) + 1) < 2 ^ W)%N ->
  (2 ^ W <= block_bytes A T ((3 * N.of_nat (length xs) + 1) / 2))%N ->
  (3 * N.of_nat (length xs) + 1 < two64)%N ->
  so (npemplace_back W A T) (mkMem bs k, v) (fun _ _ => False).
Proof.
  intros Hh Hne Hcap Hlo Hhi H3.
  destruct (holds_parts A T HT _ _ _ Hh) as (rest & Hx & Hb & He & Hc & Hl & Hlen & Hn0 & Hc0).
  assert (length xs <> 0) as Hn by (rewrite length_zero_iff_nil; auto).
  pose proof (holds_counts A T HT _ _ _ Hh) as Hs. pose proof (sz_pos T HT) as Hsz.
  set (n := length xs) in *. set (c := ((3 * N.of_nat n + 1) / 2)%N) in *.
  set (B := (if allocator_aligned A T then 0 else N.of_nat AL)%N).
  assert (forall m, block_bytes A T m = m * N.of_nat SZ + B)%N as Eb by reflexivity.
  rewrite Eb in Hlo, Hhi.
  assert (N.of_nat n + 1 <= (N.of_nat n + 1) * N.of_nat SZ)%N as Hn1.
  { pose proof (N.mul_le_mono_l 1 (N.of_nat SZ) (N.of_nat n + 1) ltac:(lia)). lia. }
  assert (c <= N.of_nat n + N.of_nat n)%N as Hc2.
  { subst c. apply N.div_le_upper_bound; lia. }
  pose proof (N.mul_le_mono_r _ _ (N.of_nat SZ) Hc2) as Hc3.
  pose proof (pow_le_two64 W HW) as H64.
  assert (sum W (N.of_nat n) 1 = N.of_nat n + 1)%N as Esum.
  { unfold sum. destruct (_ <? _)%N; [reflexivity|]. apply cut_small. lia. }
  unfold npemplace_back.
  eapply so_read.
  { apply (nsize_at v n Hs); [apply cut_small; lia|reflexivity]. }
  eapply so_bind with (P := fun _ _ => False); [|tauto]. rewrite Esum.
  eapply (reserve_short bs k v _ n (cut c) Hb Hs); auto.
  - apply cut_small. lia.
  - apply N.mod_small. lia.
  - assert (cut (block_bytes A T (cut c)) = cut (block_bytes A T c)) as ->.
    { rewrite !Eb. rewrite <- cut_plus, cut_mul, cut_plus. reflexivity. }
    assert (cut (block_bytes A T c) = block_bytes A T c - 2 ^ W)%N as ->.
    { rewrite Eb. unfold PodNarrowModel.cut. symmetry. apply (N.mod_unique _ _ 1); lia. }
    rewrite Eb. lia.
  - lia.
  - apply next_capacity; auto; lia.
Qed.

Lemma push_short early bs k v xs x : holds bs v xs -> xs <> [] -> pcap v = length xs ->
  (block_bytes A T (N.of_nat (length xs) + 1) < 2 ^ W)%N ->
  (2 ^ W <= block_bytes A T ((3 * N.of_nat (length xs) + 1) / 2))%N ->
  (3 * N.of_nat (length xs) + 1 < two64)%N ->
  nppush_back W A T early (Val x) (mkMem bs k, v) = UB.
Proof.
  intros Hh Hne Hcap Hlo Hhi H3. apply so_ub.
  pose proof (emplace_short bs k v xs Hh Hne Hcap Hlo Hhi H3) as K. unfold nppush_back. destruct early.
  - eapply so_read; [reflexivity|]. eapply so_bind; [exact K|]. intros ? ? [].
  - eapply so_bind; [exact K|]. intros ? ? [].
Qed.

(** Ranges too long for size_type. *)
Lemma long_elems (l : list (list N)) : Forall (is_elem T) l -> (2 ^ W <= N.of_nat (length l))%N ->
  forall n, bytes_for n < length (concat l).
Proof.
  intros Hl Hlen n. rewrite (concat_length_elems T l Hl). pose proof (sz_pos T HT).
  pose proof (cut_lt W (block_bytes A T n)). nia.
Qed.
Lemma long_nonempty (l : list (list N)) : (2 ^ W <= N.of_nat (length l))%N -> l <> [].
Proof. intros H ->. pose proof pow_pos. cbn in H. lia. Qed.
Lemma copy_short p (l : list (list N)) st : l <> [] -> short st p (length (concat l)) -> copy_not_aliased p l st = UB.
Proof. intros Hne H. unfold copy_not_aliased. destruct l; [contradiction|]. now apply write_short. Qed.

Lemma assign_short bs k l : Forall (is_elem T) l -> (2 ^ W <= N.of_nat (length l))%N ->
  npassign_copy W A T l (mkMem bs k, init_pv) = UB.
Proof.
  intros Hl Hlen. pose proof (long_nonempty l Hlen) as Hne. apply so_ub. unfold npassign_copy.
  eapply so_bind with (P := fun _ st' => left_short (length (concat l)) st').
  - unfold nsafe_grow. eapply so_read; [reflexivity|]. cbn [snd init_pv pcap].
    destruct (N.leb_spec (N.of_nat (length l)) (N.of_nat 0)); [pose proof pow_pos; lia|].
    eapply so_read; [apply free_init|]. eapply so_read; [reflexivity|].
    eapply so_bind with (P := fun _ _ => True); [exact I|]. intros u s' _.
    eapply so_bind; [exact (so_na_malloc _ _ _ (long_elems l Hl Hlen _))|]. intros p s2 (E & H1). exact H1.
  - intros u s' H. eapply so_read; [reflexivity|].
    eapply so_bind with (P := fun _ _ => False); [|tauto]. unfold so. now rewrite copy_short.
Qed.

Lemma insert_short bs k l : Forall (is_elem T) l -> (2 ^ W <= N.of_nat (length l))%N ->
  npinsert_range W A T 0 l (mkMem bs k, init_pv) = UB.
Proof.
  intros Hl Hlen. pose proof (long_nonempty l Hlen) as Hne. apply so_ub. unfold npinsert_range.
  set (m := length (concat l)).
  eapply so_bind with (P := fun p st' => short st' p m).
  2:{ intros p s' H. eapply so_bind with (P := fun _ _ => False); [|tauto]. unfold so. now rewrite copy_short. }
  unfold npgrow_at. cbv zeta. eapply so_read; [reflexivity|]. eapply so_read; [reflexivity|].
  cbn [Nat.eqb].
  eapply so_bind with (P := fun _ st' => left_short m st').
  2:{ intros u s' H. eapply so_bind with (P := fun _ st' => left_short m st').
      - unfold end_at. eapply so_read; [reflexivity|]. eapply so_bind; [apply so_padd|].
        intros q s2 (-> & Hq). exact H.
      - intros u2 s2 H2. eapply so_read; [reflexivity|]. eapply so_weak; [apply so_padd|].
        intros q s3 (-> & Hq). apply Hq. exact H2. }
  eapply so_bind with (P := fun _ st' => left_short m st'); [|intros r s' H; exact H].
  unfold npresize. cbv zeta.
  eapply so_bind with (P := fun _ st' => left_short m st').
  - unfold npreserve. eapply so_read; [reflexivity|]. cbn [snd init_pv pcap].
    destruct (_ <=? _)%N; [exact I|]. eapply so_read; [reflexivity|]. eapply so_read; [reflexivity|].
    eapply so_read; [reflexivity|]. cbn [snd init_pv pb].
    eapply so_bind with (P := fun _ st' => left_short m st').
    + assert (forall n st, so (na_malloc W A T n) st (fun p st' => snd st' = snd st /\ short st' p m)) as Km.
      { intros n st. exact (so_na_malloc n m st (long_elems l Hl Hlen n)). }
      destruct (a_has_expand A).
      * eapply so_bind; [apply Km|]. intros p s' (E & H). exact H.
      * destruct (_ <? _)%N.
        -- unfold nmalloc_copy. eapply so_bind; [apply Km|]. intros p [m1 v1] (E & H). cbn in E. subst v1.
           eapply so_read; [reflexivity|]. eapply so_read; [reflexivity|].
           eapply so_read; [apply free_init|]. exact H.
        -- unfold na_realloc_begin. eapply so_read; [reflexivity|]. cbn [snd init_pv pb].
           eapply so_bind with (P := fun _ st' => left_short m st'); [|intros r s' H; exact H].
           destruct (allocator_aligned A T) eqn:Eal.
           ++ rewrite bytes_plain by exact Eal. cbn [alloc_realloc].
              eapply so_bind; [exact (so_alloc_malloc _ m _ (long_elems l Hl Hlen _))|].
              intros p s' (E & H). exact H.
           ++ eapply so_bind; [apply Km|]. intros p s' (E & H). exact H.
    + intros u s' H. eapply so_bind with (P := fun _ st' => left_short m st').
      * unfold end_at. eapply so_read; [reflexivity|]. eapply so_bind; [apply so_padd|].
        intros q s2 (-> & Hq). exact H.
      * intros u2 s2 H2. exact H2.
  - intros r s' H. unfold nsize.
    eapply so_bind with (P := fun _ st' => left_short m st').
    { eapply so_bind; [apply so_psize|]. intros q s2 ->. exact H. }
    intros q s2 H2. eapply so_read; [reflexivity|].
    eapply so_bind with (P := fun _ st' => left_short m st').
    { destruct (_ && _); [|exact H2]. unfold memset0. eapply so_weak; [apply so_write|].
      intros u s3 (E & K). unfold left_short. rewrite E. apply K. exact H2. }
    intros u s3 H3. eapply so_bind with (P := fun _ st' => left_short m st'); [|intros u2 s4 H4; exact H4].
    unfold end_at. eapply so_read; [reflexivity|]. eapply so_bind; [apply so_padd|].
    intros q2 s4 (-> & Hq). exact H3.
Qed.
Hypothesis HA : alc_ok A.

Lemma few_two63 n : (W <= 63)%N -> few W T n -> (n * N.of_nat SZ + N.of_nat AL < two63)%N.
Proof.
  unfold few. intros H Hf. assert (2 ^ W <= two63)%N; [|lia].
  unfold two63. change 9223372036854775808%N with (2 ^ 63)%N. apply N.pow_le_mono_r; lia.
Qed.

(** reserve cuts what it is asked for. *)
Lemma reserve_cut bs k count : (W <= 63)%N -> (2 ^ W <= count)%N -> few W T (cut count) ->
  exists r m v, npreserve W A T count (mkMem bs k, init_pv) = Ok r (m, v) /\ N.of_nat (pcap v) = cut count.
Proof.
  intros HW' Hc Hf. pose proof (few_two63 _ HW' Hf) as H63. pose proof pow_pos as Hp.
  assert (nget_new_capacity W count (mkMem bs k, init_pv) = Ok (cut count) (mkMem bs k, init_pv)) as Eg.
  { unfold nget_new_capacity, get_new_capacity, bind, mcap, ret. cbn [snd init_pv pcap Nat.eqb].
    now rewrite (cut_small W (cut count) (cut_lt W count)). }
  assert (nsize W T (mkMem bs k, init_pv) = Ok 0%N (mkMem bs k, init_pv)) as En by reflexivity.
  unfold npreserve. unfold mcap at 1. unfold bind at 1. cbn [snd init_pv pcap].
  destruct (N.leb_spec count (N.of_nat 0)); [lia|].
  unfold mbegin at 1. unfold bind at 1. cbn [snd init_pv pb]. fold init_pv.
  rewrite (bind_ok _ _ _ _ _ Eg), (bind_ok _ _ _ _ _ En).
  assert (buf A T bs init_pv []) as Hb by reflexivity.
  assert (exists bs' k' v', (if a_has_expand A
     then let* p := na_malloc W A T (cut count) in set_begin p ;;; set_cap (N.to_nat (cut count))
     else if (a_wasteful A <? e2b T (Z.to_N ((Z.of_nat 0 - Z.of_N 0) mod Z.of_N two64)))%N
          then nmalloc_copy W A T (cut count) 0 else na_realloc_begin W A T (cut count)) (mkMem bs k, init_pv) =
      Ok tt (mkMem bs' k', v') /\ grown A T bs init_pv [] 0 (N.to_nat (cut count)) bs' v') as (bs' & k' & v' & E & G).
  { destruct (a_has_expand A).
    - rewrite (na_malloc_same W A T HT HW _ Hf). apply fresh_spec; auto.
    - change (e2b T (Z.to_N ((Z.of_nat 0 - Z.of_N 0) mod Z.of_N two64))) with 0%N.
      destruct (N.ltb_spec (a_wasteful A) 0); [lia|].
      rewrite (nrealloc_same W A T HT HW (cut count) init_pv 0); auto.
      + apply (realloc_spec A T HT HA bs k init_pv [] 0 (cut count)); auto; cbn; lia.
      + intros m. reflexivity.
      + eapply few_le; [exact HW| |exact Hf]; lia. }
  rewrite (bind_ok _ _ _ _ _ E). destruct G as (bytes' & _ & Ec & _ & _ & Hb' & _).
  pose proof (end_at_spec A T HT bs' k' v' bytes' 0%N Hb' ltac:(cbn; lia)) as E2.
  rewrite (bind_ok _ _ _ _ _ E2).
  eexists _, _, _. split; [reflexivity|]. cbn [pcap]. rewrite Ec. lia.
Qed.

(** assign(n, x) of an empty vector takes exactly [n]. *)
Lemma outside_pfill p n x : outside (pfill T p n x).
Proof.
  revert p. induction n as [|n IH]; intros p; [apply outside_ret|]. cbn [pfill].
  apply outside_bind; [destruct x; [apply outside_ret|apply outside_read]|]. intros y.
  apply outside_bind; [apply outside_write|]. intros u.
  apply outside_bind; [apply outside_padd|]. intros q. apply IH.
Qed.

Lemma assign_exact bs k n x : is_elem T x -> room T n -> few W T (N.of_nat n) ->
  exists bs' k' v', npassign_fill W A T (N.of_nat n) (Val x) (mkMem bs k, init_pv) = Ok tt (mkMem bs' k', v') /\
    holds bs' v' (repeat x n) /\ pcap v' = n.
Proof.
  intros Hx Hr Hf.
  assert (npassign_fill W A T (N.of_nat n) (Val x) (mkMem bs k, init_pv) =
          passign_fill A T (N.of_nat n) (Val x) (mkMem bs k, init_pv)) as Es.
  { unfold npassign_fill, passign_fill. cbv zeta. rewrite (few_cut W T HT HW _ Hf).
    apply bind_same; [|reflexivity]. unfold nsafe_grow, safe_grow.
    apply bind_same; [reflexivity|]. intros c st E. injection E as <- <-. cbn [snd init_pv pcap].
    destruct (_ <=? _)%N; [reflexivity|]. apply bind_same; [reflexivity|]. intros u st E.
    rewrite free_init in E. injection E as <- <-.
    eapply bind_read with (r := N.of_nat n) (r' := N.of_nat n).
    - unfold nget_new_capacity, get_new_capacity, bind, mcap, ret. cbn [snd init_pv pcap Nat.eqb].
      now rewrite !(few_cut W T HT HW _ Hf).
    - reflexivity.
    - now rewrite (na_malloc_same W A T HT HW _ Hf). }
  destruct (passign_fill_spec A T HT HA bs k init_pv [] n x (holds_init A T bs) Hx Hr) as (bs' & k' & v' & E & Hh & _).
  exists bs', k', v'. rewrite Es. split; [exact E|]. split; [exact Hh|].
  unfold passign_fill in E. apply bind_inv in E. destruct E as (u & s1 & E1 & E2).
  assert (pcap (snd s1) = n) as <-.
  { unfold safe_grow in E1. apply bind_inv in E1. destruct E1 as (c & s2 & E1 & E3). injection E1 as <- <-.
    cbn [snd init_pv pcap] in E3. destruct (N.leb_spec (N.of_nat n) (N.of_nat 0)) as [Hle|Hgt].
    - injection E3 as <- <-. cbn. lia.
    - apply bind_inv in E3. destruct E3 as (u2 & s3 & E3 & E4). rewrite free_init in E3. injection E3 as <- <-.
      apply bind_inv in E4. destruct E4 as (nc & s4 & E4 & E5). injection E4 as <- <-.
      apply bind_inv in E5. destruct E5 as (u3 & s5 & E5 & E6). injection E5 as <- <-.
      apply bind_inv in E6. destruct E6 as (p & s6 & E6 & E7). apply outside_a_malloc in E6.
      apply bind_inv in E7. destruct E7 as (u4 & s7 & E7 & E8). injection E7 as <- <-. injection E8 as <- <-.
      cbn [snd pcap fst]. rewrite E6. cbn [snd pcap]. lia. }
  apply bind_inv in E2. destruct E2 as (b & s2 & E2 & E3). injection E2 as <- <-.
  apply bind_inv in E3. destruct E3 as (u2 & s3 & E3 & E4). apply outside_pfill in E3. rewrite <- E3.
  unfold end_at in E4. apply bind_inv in E4. destruct E4 as (b & s4 & E4 & E5). injection E4 as <- <-.
  apply bind_inv in E5. destruct E5 as (e & s5 & E5 & E6). apply outside_padd in E5. injection E6 as _ Ev.
  rewrite <- Ev. cbn. now rewrite E5.
Qed.
End Narrow.
