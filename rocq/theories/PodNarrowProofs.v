(** Proofs about pod_vector with a narrow size_type: with enough room it does what the wide one
    does. *)
From Coq Require Import List Arith NArith ZArith Bool Lia.
From Verif Require Import Base SeqSpec VecCommon SmallVectorModel SmallVectorProofs PodVectorModel PodVectorSpec PodVectorProofs
  PodNarrowModel PodNarrowSpec.
Import ListNotations.

(** Two programs which begin alike and go on alike do alike. *)
Lemma bind_same {S R Q} (f f' : M S R) (g g' : R -> M S Q) s :
  f s = f' s -> (forall r s', f' s = Ok r s' -> g r s' = g' r s') -> bind f g s = bind f' g' s.
Proof. intros E H. unfold bind. rewrite E. destruct (f' s); auto. Qed.
Lemma bind_read {S R R' Q} (f : M S R) (f' : M S R') (g : R -> M S Q) (g' : R' -> M S Q) s r r' :
  f s = Ok r s -> f' s = Ok r' s -> g r s = g' r' s -> bind f g s = bind f' g' s.
Proof. intros E E' H. unfold bind. now rewrite E, E'. Qed.

(** What leaves the vector's three members alone. *)
Definition outside {R} (f : M pst R) : Prop := forall st r st', f st = Ok r st' -> snd st' = snd st.
Lemma outside_ret {R} (r : R) : outside (ret r).
Proof. intros st r' st' E. now injection E as <- <-. Qed.
Lemma outside_bind {R Q} (f : M pst R) (g : R -> M pst Q) : outside f -> (forall r, outside (g r)) -> outside (bind f g).
Proof.
  intros Hf Hg st q st' E. apply bind_inv in E. destruct E as (r & s1 & E1 & E2).
  rewrite (Hg _ _ _ _ E2). eapply Hf; eauto.
Qed.
Lemma outside_read p n : outside (read_bytes p n).
Proof.
  intros st r st'. unfold read_bytes. destruct p as [[b o]|]; [|discriminate].
  destruct (nth_error _ _) as [[a bytes|a]|]; try discriminate. destruct (_ <=? _); [|discriminate].
  intros E. now injection E as _ <-.
Qed.
Lemma outside_write p l : outside (write_bytes p l).
Proof.
  intros st r st'. unfold write_bytes. destruct p as [[b o]|]; [|discriminate].
  destruct (nth_error _ _) as [[a bytes|a]|]; try discriminate. destruct (_ <=? _); [|discriminate].
  intros E. now injection E as _ <-.
Qed.
Lemma outside_padd p n : outside (padd p n).
Proof.
  intros st r st'. unfold padd. destruct p as [[b o]|].
  - destruct (nth_error _ _) as [[a bytes|a]|]; try discriminate. destruct (_ <=? _)%N; [|discriminate].
    intros E. now injection E as _ <-.
  - destruct (_ =? _)%N; [|discriminate]. intros E. now injection E as _ <-.
Qed.
Lemma outside_get : outside (get (S := pst)).
Proof. intros st r st' E. now injection E as _ <-. Qed.
Lemma outside_mbegin : outside mbegin.
Proof. intros st r st' E. now injection E as _ <-. Qed.
Lemma outside_memcpy p q n : outside (memcpy p q n).
Proof.
  unfold memcpy, memmove. destruct (overlap _ _ _); [intros ? ? ?; discriminate|].
  apply outside_bind; [apply outside_read|]. intros; apply outside_write.
Qed.

Section Narrow.
Variable W : N.
Variable A : alc.
Variable T : ety.
Hypothesis HT : ety_ok T.
Hypothesis HA : alc_ok A.
Hypothesis HW : (W <= 64)%N.

Notation SZ := (esz T).
Notation AL := (eal T).
Notation holds := (pod_holds A T).
Notation room := (room T).
Notation nroom := (narrow_room W T).
Notation cut := (cut W).
Notation sum := (sum W).
Notation few := (few W T).

Lemma pow_le_two64 : (2 ^ W <= two64)%N.
Proof. unfold two64. change 18446744073709551616%N with (2 ^ 64)%N. apply N.pow_le_mono_r; lia. Qed.

Lemma cut_small x : (x < 2 ^ W)%N -> cut x = x.
Proof. intros H. unfold PodNarrowModel.cut. now apply N.mod_small. Qed.
Lemma cut_lt x : (cut x < 2 ^ W)%N.
Proof. unfold PodNarrowModel.cut. apply N.mod_lt. apply N.pow_nonzero. discriminate. Qed.

Lemma few_le n m : (n <= m)%N -> few m -> few n.
Proof. unfold PodNarrowSpec.few. intros H K. pose proof (N.mul_le_mono_r _ _ (N.of_nat SZ) H). lia. Qed.
Lemma few_lt n : few n -> (n < 2 ^ W)%N.
Proof.
  unfold PodNarrowSpec.few. pose proof (sz_pos T HT) as Hsz. intros H.
  pose proof (N.mul_le_mono_l 1 (N.of_nat SZ) n ltac:(lia)). lia.
Qed.
Lemma few_cut n : few n -> cut n = n.
Proof. intros H. apply cut_small. now apply few_lt. Qed.
Lemma nroom_few n c : nroom n -> (c <= N.of_nat n + N.of_nat n / 2)%N -> few c.
Proof. unfold narrow_room. intros H Hc. eapply few_le; eauto. Qed.
Lemma nroom_self n : nroom n -> few (N.of_nat n).
Proof. intros H. eapply nroom_few; eauto. pose proof (N.le_0_l (N.of_nat n / 2)). lia. Qed.
Lemma nroom_le n m : n <= m -> nroom m -> nroom n.
Proof.
  unfold narrow_room. intros H.
  assert (N.of_nat n + N.of_nat n / 2 <= N.of_nat m + N.of_nat m / 2)%N as K.
  { pose proof (N.div_le_mono (N.of_nat n) (N.of_nat m) 2 ltac:(lia) ltac:(lia)). lia. }
  pose proof (N.mul_le_mono_r _ _ (N.of_nat SZ) K). lia.
Qed.

Lemma few_e2b n : few n -> e2b T n = (n * N.of_nat SZ)%N.
Proof. unfold PodNarrowSpec.few, e2b. intros H. pose proof pow_le_two64. apply N.mod_small. lia. Qed.
Lemma cut_bytes n : few n -> cut (e2b T (cut n)) = e2b T n.
Proof. intros H. rewrite (few_cut n H), (few_e2b n H). unfold PodNarrowSpec.few in H. apply cut_small. lia. Qed.
Lemma cut_bytes_al n : few n ->
  cut ((e2b T (cut n) + N.of_nat AL) mod two64) = ((e2b T n + N.of_nat AL) mod two64)%N.
Proof.
  intros H. rewrite (few_cut n H), (few_e2b n H). unfold PodNarrowSpec.few in H. pose proof pow_le_two64.
  rewrite N.mod_small by lia. apply cut_small. lia.
Qed.

Lemma cut_bytes0 n : few n -> cut (e2b T n) = e2b T n.
Proof. intros H. rewrite <- (few_cut n H) at 1. now apply cut_bytes. Qed.

(** The allocator's wrappers. *)
Lemma na_malloc_same n : few n -> na_malloc W A T n = a_malloc A T n.
Proof. intros H. unfold na_malloc, a_malloc. now rewrite cut_bytes, cut_bytes_al by exact H. Qed.
Lemma na_expand_same n : few n -> na_expand_begin W A T n = a_expand_begin A T n.
Proof.
  intros H. unfold na_expand_begin, a_expand_begin.
  now rewrite cut_bytes, cut_bytes_al, (few_cut n H) by exact H.
Qed.

Lemma outside_alloc_malloc n : outside (alloc_malloc A n).
Proof.
  intros st r st'. unfold alloc_malloc. destruct (a_addr A _ _); intros E; now injection E as _ <-.
Qed.
Lemma outside_align p : outside (align_ptr T p).
Proof.
  unfold align_ptr. destruct p as [[b o]|]; [|apply outside_ret].
  apply outside_bind; [apply outside_get|]. intros s.
  apply outside_bind; [apply outside_padd|]. intros q.
  apply outside_bind; [apply outside_write|]. intros u. apply outside_ret.
Qed.
Lemma outside_a_malloc n : outside (a_malloc A T n).
Proof.
  unfold a_malloc. destruct (allocator_aligned A T); [apply outside_alloc_malloc|].
  apply outside_bind; [apply outside_alloc_malloc|]. intros p. apply outside_align.
Qed.

(** size() tells the number of elements. *)
Definition counts (v : pv) (n : nat) : Prop := forall m, psize T (m, v) = Ok n (m, v).
Lemma holds_counts bs v xs : holds bs v xs -> counts v (length xs).
Proof.
  intros H m. destruct (holds_parts A T HT _ _ _ H) as (rest & _ & _ & He & _ & _ & _ & Hn0 & _).
  apply psize_spec; auto.
Qed.
Lemma nsize_is v n m : counts v n -> few (N.of_nat n) -> nsize W T (m, v) = Ok (N.of_nat n) (m, v).
Proof.
  intros H Hf. unfold nsize. erewrite bind_ok by apply H. now rewrite (few_cut _ Hf).
Qed.
Lemma at_counts {v n} : counts v n -> forall st : pst, snd st = v -> psize T st = Ok n st.
Proof. intros H [m w] E. cbn in E. subst. apply H. Qed.
Lemma at_nsize {v n} : counts v n -> few (N.of_nat n) -> forall st : pst, snd st = v -> nsize W T st = Ok (N.of_nat n) st.
Proof. intros H Hf [m w] E. cbn in E. subst. now apply nsize_is. Qed.

Lemma nrealloc_same n v s st : snd st = v -> counts v s -> few (N.of_nat s) -> few n ->
  na_realloc_begin W A T n st = a_realloc_begin A T n st.
Proof.
  intros Ev Hs Hfs Hn. unfold na_realloc_begin, a_realloc_begin. rewrite (few_cut n Hn).
  apply bind_same; [reflexivity|]. intros b st1 E1. injection E1 as <- <-.
  apply bind_same; [|reflexivity].
  destruct (allocator_aligned A T); [now rewrite cut_bytes0 by exact Hn|].
  rewrite (na_malloc_same n Hn).
  apply bind_same; [reflexivity|]. intros p st1 E1. pose proof (outside_a_malloc _ _ _ _ E1) as O1.
  apply bind_same; [|reflexivity]. destruct (pb (snd st)) as [q|]; [|reflexivity].
  eapply bind_read; [apply (at_nsize Hs Hfs); congruence|apply (at_counts Hs); congruence|reflexivity].
Qed.

Lemma nmalloc_copy_same n v s st : snd st = v -> counts v s -> few (N.of_nat s) -> few n ->
  nmalloc_copy W A T n (N.of_nat s) st = malloc_copy A T n s st.
Proof.
  intros Ev Hs Hfs Hn. unfold nmalloc_copy, malloc_copy. rewrite (na_malloc_same n Hn).
  apply bind_same; [reflexivity|]. intros p st1 E1. pose proof (outside_a_malloc _ _ _ _ E1) as O1.
  apply bind_same; [reflexivity|]. intros b st2 E2. injection E2 as <- <-.
  apply bind_same; [|reflexivity].
  replace (N.of_nat s =? 0)%N with (s =? 0) by (destruct s; reflexivity).
  destruct (s =? 0); [reflexivity|].
  eapply bind_read; [apply (at_nsize Hs Hfs); congruence|apply (at_counts Hs); congruence|reflexivity].
Qed.

Lemma outside_alloc_expand p n : outside (alloc_expand A p n).
Proof.
  intros st r st'. unfold alloc_expand. destruct p as [[b o]|]; [|discriminate]. cbv zeta.
  destruct o; [|discriminate]. destruct (nth_error _ _) as [[a bytes|a]|]; try discriminate.
  destruct (a_grant A _); intros E; now injection E as _ <-.
Qed.
Lemma outside_real_addr p : outside (real_addr A T p).
Proof.
  unfold real_addr. destruct (allocator_aligned A T); [apply outside_ret|].
  destruct p as [[b [|o]]|]; [intros ? ? ?; discriminate| |apply outside_ret].
  apply outside_bind; [apply outside_read|]. intros l.
  destruct l as [|x [|]]; try (intros ? ? ?; discriminate). destruct (_ <=? _); [apply outside_ret|].
  intros ? ? ?; discriminate.
Qed.
Lemma expand_false n st st' : a_expand_begin A T n st = Ok false st' -> snd st' = snd st.
Proof.
  unfold a_expand_begin. intros E. apply bind_inv in E. destruct E as (b & s1 & E1 & E2). injection E1 as <- <-.
  apply bind_inv in E2. destruct E2 as (ok & s2 & E2 & E3).
  assert (snd s2 = snd st) as <-.
  { destruct (allocator_aligned A T); [eapply outside_alloc_expand; eauto|].
    apply bind_inv in E2. destruct E2 as (p & s3 & E4 & E5).
    rewrite (outside_alloc_expand _ _ _ _ _ E5). eapply outside_real_addr; eauto. }
  destruct ok.
  - apply bind_inv in E3. destruct E3 as (? & ? & _ & E3). discriminate E3.
  - now injection E3 as <-.
Qed.

Lemma diff_e2b a b : (b <= a)%N ->
  e2b T (Z.to_N ((Z.of_N a - Z.of_N b) mod Z.of_N two64)) = e2b T (a - b).
Proof.
  intros H. rewrite <- N2Z.inj_sub by exact H. rewrite <- N2Z.inj_mod.
  rewrite N2Z.id. unfold e2b. rewrite N.mul_mod_idemp_l; [reflexivity|discriminate].
Qed.

Lemma nget_same m v n : pcap v < n -> room n -> nroom n ->
  exists c, nget_new_capacity W (N.of_nat n) (m, v) = Ok c (m, v) /\
    get_new_capacity (N.of_nat n) (m, v) = Ok c (m, v) /\ few c.
Proof.
  intros Hlt Hr Hn. destruct (get_new_capacity_spec T HT m v n Hlt Hr) as (c & E & H1 & H2).
  pose proof (nroom_few _ _ Hn H2) as Hc. exists c. split; [|split; [exact E|exact Hc]].
  unfold nget_new_capacity. rewrite (few_cut _ (nroom_self _ Hn)). erewrite bind_ok by exact E.
  now rewrite (few_cut _ Hc).
Qed.

Lemma npreserve_same bs k v xs n : holds bs v xs -> room n -> nroom n -> nroom (length xs) ->
  npreserve W A T (N.of_nat n) (mkMem bs k, v) = preserve A T (N.of_nat n) (mkMem bs k, v).
Proof.
  intros Hh Hr Hn Hx. pose proof (holds_counts _ _ _ Hh) as Hs. pose proof (nroom_self _ Hx) as Hfs.
  assert (length xs <= pcap v) as Hle by (destruct (holds_parts A T HT _ _ _ Hh) as (rest & _ & _ & _ & Hle & _); exact Hle).
  unfold npreserve, preserve.
  apply bind_same; [reflexivity|]. intros c st E. injection E as <- <-. cbn [snd].
  destruct (N.leb_spec (N.of_nat n) (N.of_nat (pcap v))); [reflexivity|].
  apply bind_same; [reflexivity|]. intros old st E. injection E as <- <-. cbn [snd].
  destruct (nget_same (mkMem bs k) v n ltac:(lia) Hr Hn) as (c & E1 & E2 & Hc).
  eapply bind_read; [exact E1|exact E2|].
  eapply bind_read; [apply (nsize_is _ _ _ Hs Hfs)|apply Hs|].
  apply bind_same; [|reflexivity].
  destruct (a_has_expand A).
  - destruct (pb v) as [p|]; [|now rewrite (na_malloc_same c Hc)].
    rewrite (na_expand_same c Hc). apply bind_same; [reflexivity|]. intros ok st E.
    destruct ok; [reflexivity|]. apply (nmalloc_copy_same c v); auto. now rewrite (expand_false _ _ _ E).
  - rewrite <- (nat_N_Z (pcap v)), diff_e2b by lia. rewrite <- Nat2N.inj_sub.
    destruct (_ <? _)%N; [now apply (nmalloc_copy_same c v)|now apply (nrealloc_same c v (length xs))].
Qed.

Lemma npshrink_same bs k v xs : holds bs v xs -> nroom (length xs) ->
  npshrink_to_fit W A T (mkMem bs k, v) = pshrink_to_fit A T (mkMem bs k, v).
Proof.
  intros Hh Hx. pose proof (holds_counts _ _ _ Hh) as Hs. pose proof (nroom_self _ Hx) as Hfs.
  unfold npshrink_to_fit, pshrink_to_fit.
  eapply bind_read; [apply (nsize_is _ _ _ Hs Hfs)|apply Hs|].
  apply bind_same; [reflexivity|]. intros c st E. injection E as <- <-. cbn [snd].
  replace (N.of_nat (length xs) =? N.of_nat (pcap v))%N with (length xs =? pcap v)
    by (destruct (Nat.eqb_spec (length xs) (pcap v)), (N.eqb_spec (N.of_nat (length xs)) (N.of_nat (pcap v))); lia).
  destruct (length xs =? pcap v); [reflexivity|].
  replace (N.of_nat (length xs) =? 0)%N with (length xs =? 0) by (destruct xs; reflexivity).
  destruct (length xs =? 0); [reflexivity|].
  apply bind_same; [reflexivity|]. intros old st E. injection E as <- <-. cbn [snd].
  apply bind_same; [|reflexivity].
  destruct (a_has_expand A).
  - rewrite (na_expand_same _ Hfs). apply bind_same; [reflexivity|]. intros ok st E.
    destruct ok; [reflexivity|]. rewrite (na_malloc_same _ Hfs), Nat2N.id. reflexivity.
  - now apply (nrealloc_same _ v (length xs)).
Qed.

Lemma npresize_same bs k v xs n : holds bs v xs -> room n -> nroom n -> nroom (length xs) ->
  npresize W A T (N.of_nat n) (mkMem bs k, v) = presize A T (N.of_nat n) (mkMem bs k, v).
Proof.
  intros Hh Hr Hn Hx. unfold npresize, presize. cbv zeta. rewrite (few_cut _ (nroom_self _ Hn)).
  apply bind_same; [now apply (npreserve_same _ _ _ xs)|].
  destruct (preserve_spec A T HT HA bs k v xs n Hh Hr) as (r & bs' & k' & v' & E & Hh' & _).
  rewrite E. intros r1 st E1. injection E1 as <- <-.
  pose proof (holds_counts _ _ _ Hh') as Hs. pose proof (nroom_self _ Hx) as Hfs.
  eapply bind_read; [apply (nsize_is _ _ _ Hs Hfs)|apply Hs|]. reflexivity.
Qed.

Lemma npresize_val_same bs k v xs n x : holds bs v xs -> room n -> nroom n -> nroom (length xs) ->
  npresize_val W A T (N.of_nat n) x (mkMem bs k, v) = presize_val A T (N.of_nat n) x (mkMem bs k, v).
Proof.
  intros Hh Hr Hn Hx. unfold npresize_val, presize_val. cbv zeta. rewrite (few_cut _ (nroom_self _ Hn)).
  apply bind_same; [now apply (npreserve_same _ _ _ xs)|reflexivity].
Qed.

Lemma sum_small a b : few (a + b) -> sum a b = ((a + b) mod two64)%N.
Proof.
  intros H. pose proof (few_lt _ H). pose proof pow_le_two64. unfold PodNarrowModel.sum.
  rewrite N.mod_small by lia. destruct (_ <? _)%N; [reflexivity|now apply cut_small].
Qed.

Lemma npgrow_at_same bs k v xs off num : holds bs v xs -> off <= length xs ->
  room (length xs + num) -> nroom (length xs + num) ->
  npgrow_at W A T off (N.of_nat num) (mkMem bs k, v) = pgrow_at A T off (N.of_nat num) (mkMem bs k, v).
Proof.
  intros Hh Ho Hr Hn. pose proof (holds_counts _ _ _ Hh) as Hs.
  assert (nroom (length xs)) as Hx by (eapply nroom_le; [|exact Hn]; lia).
  assert (nroom num) as Hm by (eapply nroom_le; [|exact Hn]; lia).
  pose proof (nroom_self _ Hx) as Hfs. pose proof (nroom_self _ Hn) as Hfn.
  unfold npgrow_at, pgrow_at. cbv zeta. rewrite (few_cut _ (nroom_self _ Hm)).
  eapply bind_read; [apply (nsize_is _ _ _ Hs Hfs)|apply Hs|]. cbv beta.
  assert (forall Q (g : nat -> M pst Q), bind (psize T) g (mkMem bs k, v) = g (length xs) (mkMem bs k, v)) as Kb.
  { intros Q g. apply bind_ok. apply Hs. }
  rewrite Kb.
  rewrite sum_small by (now rewrite <- Nat2N.inj_add).
  assert ((N.of_nat (length xs) + N.of_nat num) mod two64 = N.of_nat (length xs + num))%N as Emod.
  { rewrite Nat2N.inj_add in *. pose proof (few_lt _ Hfn). pose proof pow_le_two64. apply N.mod_small. lia. }
  rewrite Emod. rewrite <- (nat_N_Z off), diff_e2b, <- Nat2N.inj_sub by lia.
  apply bind_same; [|reflexivity].
  destruct (off =? length xs).
  { apply bind_same; [|reflexivity]. now apply (npresize_same _ _ _ xs). }
  apply bind_same; [reflexivity|]. intros c st E. injection E as <- <-. cbn [snd].
  destruct (N.ltb_spec (N.of_nat (pcap v)) (N.of_nat (length xs + num))); [|reflexivity].
  destruct (nget_same (mkMem bs k) v (length xs + num) ltac:(lia) Hr Hn) as (c & E1 & E2 & Hc).
  eapply bind_read; [exact E1|exact E2|].
  destruct (a_has_expand A).
  - rewrite (na_expand_same c Hc), (na_malloc_same c Hc). reflexivity.
  - destruct (_ <? _)%N; [now rewrite (na_malloc_same c Hc)|].
    apply bind_same; [now apply (nrealloc_same c v (length xs))|reflexivity].
Qed.

Lemma npshrink_at_same bs k v xs off num : holds bs v xs -> off + num <= length xs -> nroom (length xs) ->
  npshrink_at W T off num (mkMem bs k, v) = pshrink_at T off num (mkMem bs k, v).
Proof.
  intros Hh Ho Hx. pose proof (holds_counts _ _ _ Hh) as Hs. pose proof (nroom_self _ Hx) as Hfs.
  assert (nroom num) as Hm by (eapply nroom_le; [|exact Hx]; lia).
  unfold npshrink_at, pshrink_at. cbv zeta. rewrite (few_cut _ (nroom_self _ Hm)).
  eapply bind_read; [apply (nsize_is _ _ _ Hs Hfs)|apply Hs|]. cbv beta.
  replace (N.of_nat (length xs) =? N.of_nat num)%N with (length xs =? num)
    by (destruct (Nat.eqb_spec (length xs) num), (N.eqb_spec (N.of_nat (length xs)) (N.of_nat num)); lia).
  destruct (length xs =? num); [reflexivity|].
  erewrite bind_ok by apply Hs. rewrite nat_N_Z, Nat2N.inj_sub. reflexivity.
Qed.

Lemma npemplace_same bs k v xs : holds bs v xs -> room (length xs + 1) -> nroom (length xs + 1) ->
  npemplace_back W A T (mkMem bs k, v) = pemplace_back A T (mkMem bs k, v).
Proof.
  intros Hh Hr Hn. pose proof (holds_counts _ _ _ Hh) as Hs.
  assert (nroom (length xs)) as Hx by (eapply nroom_le; [|exact Hn]; lia).
  pose proof (nroom_self _ Hx) as Hfs. pose proof (nroom_self _ Hn) as Hfn.
  unfold npemplace_back, pemplace_back.
  eapply bind_read; [apply (nsize_is _ _ _ Hs Hfs)|apply Hs|]. cbv beta.
  assert (N.of_nat (length xs + 1) = N.of_nat (length xs) + 1)%N as Ea by lia.
  rewrite sum_small by (now rewrite <- Ea). rewrite <- Ea.
  rewrite N.mod_small by (pose proof (few_lt _ Hfn); pose proof pow_le_two64; lia).
  apply bind_same; [now apply (npreserve_same _ _ _ xs)|reflexivity].
Qed.

Lemma nppush_same early bs k v xs x : holds bs v xs -> room (length xs + 1) -> nroom (length xs + 1) ->
  nppush_back W A T early (Val x) (mkMem bs k, v) = ppush_back A T early (Val x) (mkMem bs k, v).
Proof.
  intros Hh Hr Hn. unfold nppush_back, ppush_back. destruct early.
  - apply bind_same; [reflexivity|]. intros y st E. injection E as <- <-.
    apply bind_same; [now apply (npemplace_same _ _ _ xs)|reflexivity].
  - apply bind_same; [now apply (npemplace_same _ _ _ xs)|reflexivity].
Qed.

Lemma nppop_same bs k v xs : holds bs v xs -> xs <> [] -> nroom (length xs) ->
  nppop_back W T (mkMem bs k, v) = ppop_back T (mkMem bs k, v).
Proof.
  intros Hh Hne Hx. pose proof (holds_counts _ _ _ Hh) as Hs.
  unfold nppop_back, ppop_back. apply bind_same; [reflexivity|]. intros s st E.
  rewrite Hs in E. injection E as <- <-.
  destruct (Nat.eqb_spec (length xs) 0); [reflexivity|].
  apply bind_same; [|reflexivity]. apply (npshrink_at_same _ _ _ xs); auto. lia.
Qed.

Lemma nsafe_grow_same bs k v xs n : holds bs v xs -> room n -> nroom n ->
  nsafe_grow W A T (N.of_nat n) (mkMem bs k, v) = safe_grow A T (N.of_nat n) (mkMem bs k, v).
Proof.
  intros Hh Hr Hn. destruct (holds_parts A T HT _ _ _ Hh) as (rest & _ & Hb & _).
  unfold nsafe_grow, safe_grow.
  apply bind_same; [reflexivity|]. intros c st E. injection E as <- <-. cbn [snd].
  destruct (N.leb_spec (N.of_nat n) (N.of_nat (pcap v))); [reflexivity|].
  apply bind_same; [reflexivity|]. intros u st E.
  destruct (a_free_spec A T bs k v _ Hb) as (bs1 & Ef & _). rewrite Ef in E. injection E as <- <-.
  destruct (nget_same (mkMem bs1 k) v n ltac:(lia) Hr Hn) as (c & E1 & E2 & Hc).
  eapply bind_read; [exact E1|exact E2|]. now rewrite (na_malloc_same c Hc).
Qed.

Lemma npassign_fill_same bs k v xs n x : holds bs v xs -> room n -> nroom n ->
  npassign_fill W A T (N.of_nat n) x (mkMem bs k, v) = passign_fill A T (N.of_nat n) x (mkMem bs k, v).
Proof.
  intros Hh Hr Hn. unfold npassign_fill, passign_fill. cbv zeta. rewrite (few_cut _ (nroom_self _ Hn)).
  apply bind_same; [now apply (nsafe_grow_same _ _ _ xs)|reflexivity].
Qed.
Lemma npassign_copy_same bs k v xs l : holds bs v xs -> room (length l) -> nroom (length l) ->
  npassign_copy W A T l (mkMem bs k, v) = passign_copy A T l (mkMem bs k, v).
Proof.
  intros Hh Hr Hn. unfold npassign_copy, passign_copy.
  apply bind_same; [now apply (nsafe_grow_same _ _ _ xs)|reflexivity].
Qed.

Lemma npcall_same early o bs k v xs : holds bs v xs -> pod_ok T xs o ->
  nroom (length xs) -> nroom (asked xs o) ->
  npcall W A T early o (mkMem bs k, v) = pcall A T early o (mkMem bs k, v).
Proof.
  intros Hh Hok Hx Hn.
  destruct o as [[x| |pos x|pos n x|pos l|pos|first last|n|n x| |n x|l]| |n|];
    cbn [pod_ok] in Hok; cbn [asked] in Hn; cbn [npcall pcall];
    unfold no_answer, position_answer; (apply bind_same; [|reflexivity]).
  - apply (nppush_same _ _ _ _ xs); tauto.
  - apply (nppop_same _ _ _ xs); tauto.
  - unfold npinsert1, pinsert1. apply bind_same; [|reflexivity].
    apply (npgrow_at_same _ _ _ xs pos 1); tauto.
  - unfold npinsert_n, pinsert_n. assert (nroom n) as Hm by (eapply nroom_le; [|exact Hn]; lia).
    rewrite (few_cut _ (nroom_self _ Hm)). apply bind_same; [|reflexivity].
    apply (npgrow_at_same _ _ _ xs); tauto.
  - unfold npinsert_range, pinsert_range. apply bind_same; [|reflexivity].
    apply (npgrow_at_same _ _ _ xs); tauto.
  - apply (npshrink_at_same _ _ _ xs); auto. lia.
  - apply (npshrink_at_same _ _ _ xs); auto. lia.
  - now apply (npresize_same _ _ _ xs).
  - apply (npresize_val_same _ _ _ xs); tauto.
  - reflexivity.
  - apply (npassign_fill_same _ _ _ xs); tauto.
  - apply (npassign_copy_same _ _ _ xs); tauto.
  - now apply (npemplace_same _ _ _ xs).
  - now apply (npreserve_same _ _ _ xs).
  - now apply (npshrink_same _ _ _ xs).
Qed.

Notation fam := (fam A T).

Lemma npsys_same early o bs k vs cs : fam bs vs cs -> pod_sys_ok T cs o -> narrow_ok W T cs o ->
  npsys_call W A T early o (mkMem bs k, vs) = psys_call A T early o (mkMem bs k, vs).
Proof.
  intros Hfam Hok Hn. pose proof Hfam as (HH & HO1 & HO2). pose proof (Forall2_len _ _ _ HH) as HLen.
  assert (forall i xs, nth_error cs i = Some xs -> exists v, nth_error vs i = Some v /\ holds bs v xs) as Kv.
  { intros i xs E. destruct (nth_error vs i) as [v|] eqn:Ev.
    - exists v. split; [auto|]. eapply Forall2_get; eauto.
    - apply nth_error_None in Ev. apply nth_lt in E. lia. }
  destruct o as [i o|i j|i j|i j]; cbn [pod_sys_ok] in Hok; cbn [narrow_ok] in Hn; cbn [npsys_call psys_call]; try reflexivity.
  - destruct Hok as (xs & Ex & Hok). destruct (Kv _ _ Ex) as (v & Ev & Hv). destruct (Hn _ Ex) as (Hx & Hm).
    unfold pon_one. cbn [fst snd]. rewrite Ev. now rewrite (npcall_same early o bs k v xs Hv Hok Hx Hm).
  - destruct (i =? j); [reflexivity|].
    destruct Hok as (Hi & ys & Ey & Hr). destruct (Kv _ _ Ey) as (b & Eb & Hb).
    destruct (nth_in cs i Hi) as (xs & Ex). destruct (Kv _ _ Ex) as (a & Ea & Ha).
    unfold pon_two. cbn [fst snd]. rewrite Ea, Eb.
    assert (npcopy_assign W A T (mkMem bs k, (a, b)) = pcopy_assign A T (mkMem bs k, (a, b))) as ->; [|reflexivity].
    destruct (pclear_spec A T HT bs k a xs Ha) as (a1 & E1 & Ha1 & F1 & O1).
    unfold npcopy_assign, pcopy_assign.
    pose proof (on_a_ok pclear _ a b _ _ _ E1) as E2.
    pose proof (on_b_ok (pread_all T) _ a1 b _ _ _ (pread_all_spec A T HT bs k b ys Hb)) as E3.
    rewrite (bind_ok _ _ _ _ _ E2), (bind_ok _ _ _ _ _ E2), (bind_ok _ _ _ _ _ E3), (bind_ok _ _ _ _ _ E3).
    unfold on_a. cbn [fst snd]. rewrite (npassign_copy_same bs k a1 [] ys Ha1 Hr (Hn _ Ey)). reflexivity.
Qed.

Lemma narrow_history early os : forall bs k vs cs, fam bs vs cs ->
  pod_sys_along A T cs os -> narrow_along W A T cs os ->
  run_calls (npsys_call W A T early) (mkMem bs k, vs) os = run_calls (psys_call A T early) (mkMem bs k, vs) os.
Proof.
  induction os as [|o os IH]; intros bs k vs cs Hf Hal Hn; [reflexivity|].
  destruct Hal as (Hok & Hal), Hn as (Hnk & Hn).
  destruct (psys_call_spec A T HT HA early bs k vs cs o Hf Hok) as (r & bs1 & k1 & vs1 & cs1 & E & Hs & Hf1).
  cbn [run_calls]. rewrite (npsys_same early o bs k vs cs Hf Hok Hnk), E.
  pose proof (IH bs1 k1 vs1 cs1 Hf1 (Hal _ _ Hs) (Hn _ _ Hs)) as K. destruct r; cbn; now rewrite K.
Qed.

(** The constructor. *)
Lemma npmake_spec bs k count : room (N.to_nat (cut count)) -> nroom (N.to_nat (cut count)) ->
  exists bs' k' v' xs, npmake W A T count (mkMem bs k, init_pv) = Ok tt (mkMem bs' k', v') /\
    holds bs' v' xs /\ N.of_nat (length xs) = cut count.
Proof.
  intros Hr Hn. unfold npmake.
  assert (npresize W A T count (mkMem bs k, init_pv) = presize A T (cut count) (mkMem bs k, init_pv)) as E0.
  { rewrite <- (N2Nat.id (cut count)). rewrite <- (npresize_same bs k init_pv [] _ (holds_init A T bs) Hr Hn).
    - unfold npresize. rewrite N2Nat.id. cbv zeta. now rewrite (cut_small (cut count) (cut_lt count)).
    - eapply nroom_le; [|exact Hn]. cbn. lia. }
  destruct (presize_spec A T HT HA bs k init_pv [] _ (holds_init A T bs) Hr)
    as (r & bs' & k' & v' & new & E & Hl & Hnw & Hz & H & F & _).
  rewrite N2Nat.id in E. exists bs', k', v', new.
  erewrite bind_ok by (rewrite E0; exact E). split; [reflexivity|].
  rewrite firstn_nil in H. split; [exact H|]. rewrite Hl. cbn [length]. lia.
Qed.
End Narrow.
