(** Proofs for AmortSpec, pod_vector. *)
From Coq Require Import List Arith NArith ZArith Bool Lia.
From Verif Require Import Base SeqSpec VecCommon SmallVectorModel SmallVectorSpec SmallVectorProofs
  PodVectorModel PodVectorSpec PodVectorProofs AmortSpec AmortProofs.
From Verif Require SmallBufProofs.
Import ListNotations.
Open Scope nat_scope.

Lemma bind_inv {S A B} (m : M S A) (k : A -> M S B) s b s' :
  bind m k s = Ok b s' -> exists a s1, m s = Ok a s1 /\ k a s1 = Ok b s'.
Proof. unfold bind. destruct (m s); try discriminate. eauto. Qed.
Ltac inv E :=
  let a := fresh "a" in let s1 := fresh "t" in let E1 := fresh "E" in
  apply bind_inv in E; destruct E as (a & s1 & E1 & E).

(** Neither the capacity nor the number of requests changes. *)
Definition same (s s' : pst) : Prop := pcap (snd s') = pcap (snd s) /\ ncall (fst s') = ncall (fst s).
Definition calm {R} (m : M pst R) : Prop := forall s a s', m s = Ok a s' -> same s s'.
(** Nor does the capacity. *)
Definition level {R} (m : M pst R) : Prop := forall s a s', m s = Ok a s' -> pcap (snd s') = pcap (snd s).

Lemma same_trans s s1 s2 : same s s1 -> same s1 s2 -> same s s2.
Proof. intros (A1 & A2) (B1 & B2). split; congruence. Qed.
Lemma calm_bind {R Q} (f : M pst R) (g : R -> M pst Q) : calm f -> (forall r, calm (g r)) -> calm (bind f g).
Proof. intros Hf Hg s q s' E. inv E. eapply same_trans; [eapply Hf|eapply Hg]; eauto. Qed.
Lemma calm_ret {R} (r : R) : calm (ret r).
Proof. intros s a s' E. injection E as _ <-. now split. Qed.
Lemma calm_ub {R} : calm (@ub pst R). Proof. now intros s a s'. Qed.
Lemma calm_get : calm get.
Proof. intros s a s' E. injection E as _ <-. now split. Qed.
Lemma calm_if {R} (c : bool) (m k : M pst R) : calm m -> calm k -> calm (if c then m else k).
Proof. now destruct c. Qed.
Lemma calm_mbegin : calm mbegin. Proof. unfold mbegin. intros s a s' E. injection E as _ <-. now split. Qed.
Lemma calm_mend : calm mend. Proof. unfold mend. intros s a s' E. injection E as _ <-. now split. Qed.
Lemma calm_mcap : calm mcap. Proof. unfold mcap. intros s a s' E. injection E as _ <-. now split. Qed.
Lemma calm_set_begin p : calm (set_begin p). Proof. unfold set_begin. intros s a s' E. injection E as _ <-. now split. Qed.
Lemma calm_set_pend p : calm (set_pend p). Proof. unfold set_pend. intros s a s' E. injection E as _ <-. now split. Qed.
Lemma calm_read p n : calm (read_bytes p n).
Proof.
  intros s a s'. unfold read_bytes. destruct p as [[b o]|]; [|discriminate].
  destruct (nth_error _ _) as [[]|]; try discriminate. destruct (_ <=? _); [|discriminate]. intros E. injection E as _ <-. now split.
Qed.
Lemma calm_write p l : calm (write_bytes p l).
Proof.
  intros s a s'. unfold write_bytes. destruct p as [[b o]|]; [|discriminate].
  destruct (nth_error _ _) as [[]|]; try discriminate. destruct (_ <=? _); [|discriminate]. intros E. injection E as _ <-. now split.
Qed.
Lemma calm_padd p n : calm (padd p n).
Proof.
  intros s a s'. unfold padd. destruct p as [[b o]|].
  - destruct (nth_error _ _) as [[]|]; try discriminate. destruct (_ <=? _)%N; [|discriminate]. intros E. injection E as _ <-. now split.
  - destruct (_ =? _)%N; [|discriminate]. intros E. injection E as _ <-. now split.
Qed.
Lemma calm_psize T : calm (psize T).
Proof.
  intros s a s'. unfold psize.
  destruct (pb (snd s)) as [[b o]|] eqn:E, (pe (snd s)) as [[b' o']|]; try discriminate.
  - destruct ((b =? b') && (o <=? o'))%bool; [|discriminate]. intros F. injection F as _ <-. now split.
  - intros F. injection F as _ <-. now split.
Qed.
Lemma calm_free p : calm (alloc_free p).
Proof.
  intros s a s'. unfold alloc_free. destruct p as [[b o]|]; [|intros E; injection E as _ <-; now split].
  destruct o; [|discriminate]. destruct (nth_error _ _) as [[]|]; try discriminate. intros E. injection E as _ <-. now split.
Qed.
Lemma calm_memmove d s n : calm (memmove d s n).
Proof. unfold memmove. apply calm_bind; [apply calm_read|intros]. apply calm_write. Qed.
Lemma calm_memcpy d s n : calm (memcpy d s n).
Proof. unfold memcpy. apply calm_if; [apply calm_ub|apply calm_memmove]. Qed.
Ltac calm1 :=
  first [apply calm_bind; [|intros] | apply calm_ret | apply calm_ub | apply calm_get | apply calm_if | apply calm_mbegin
        | apply calm_mend | apply calm_mcap | apply calm_set_begin | apply calm_set_pend | apply calm_read | apply calm_write
        | apply calm_padd | apply calm_psize | apply calm_free | apply calm_memmove | apply calm_memcpy | assumption].
Ltac still := repeat calm1.

Lemma calm_level {R} (m : M pst R) : calm m -> level m.
Proof. intros H s a s' E. now destruct (H _ _ _ E). Qed.
Lemma level_bind {R Q} (f : M pst R) (g : R -> M pst Q) : level f -> (forall r, level (g r)) -> level (bind f g).
Proof. intros Hf Hg s q s' E. inv E. rewrite (Hg _ _ _ _ E). eapply Hf; eauto. Qed.

Section Pod.
Variable A : alc.
Variable T : ety.

Lemma calm_real_addr p : calm (real_addr A T p).
Proof. unfold real_addr. apply calm_if; [still|]. destruct p as [[b [|o]]|]; still. destruct r as [|x [|y l]]; still. Qed.
Lemma calm_align_ptr p : calm (align_ptr T p).
Proof. unfold align_ptr. destruct p as [[b o]|]; still. Qed.
Lemma calm_a_free : calm (a_free_begin A T).
Proof. unfold a_free_begin. calm1; [still|]. calm1; [still|]. calm1; [apply calm_real_addr|still]. Qed.
Lemma calm_end_at n : calm (end_at T n).
Proof. unfold end_at. still. Qed.
Lemma calm_begin_changed o : calm (begin_changed o).
Proof. unfold begin_changed. still. Qed.
Lemma level_malloc n : level (alloc_malloc A n).
Proof. intros s a s'. unfold alloc_malloc. destruct (a_addr A _ n); intros E; injection E as _ <-; reflexivity. Qed.
Lemma level_realloc p n : level (alloc_realloc A p n).
Proof.
  destruct p as [[b o]|]; [|apply level_malloc]. intros s a s'. unfold alloc_realloc. destruct o; [|discriminate].
  destruct (nth_error _ _) as [[]|]; try discriminate. destruct (a_addr A _ n); intros E; injection E as _ <-; reflexivity.
Qed.
Lemma level_expand p n : level (alloc_expand A p n).
Proof.
  destruct p as [[b o]|]; [|now intros s a s']. intros s a s'. unfold alloc_expand. destruct o; [|discriminate].
  destruct (nth_error _ _) as [[]|]; try discriminate. destruct (a_grant A _); intros E; injection E as _ <-; reflexivity.
Qed.
Lemma level_a_malloc n : level (a_malloc A T n).
Proof.
  unfold a_malloc. destruct (allocator_aligned A T); [apply level_malloc|].
  apply level_bind; [apply level_malloc|intros; apply calm_level, calm_align_ptr].
Qed.
Lemma set_cap_to c s a s' : set_cap c s = Ok a s' -> pcap (snd s') = c.
Proof. unfold set_cap. intros E. injection E as _ <-. reflexivity. Qed.
Lemma realloc_cap n s a s' : a_realloc_begin A T n s = Ok a s' -> pcap (snd s') = N.to_nat n.
Proof. unfold a_realloc_begin. intros E. inv E. inv E. eapply set_cap_to; eauto. Qed.
Lemma expand_cap n s (a : bool) s' : a_expand_begin A T n s = Ok a s' ->
  pcap (snd s') = if a then N.to_nat n else pcap (snd s).
Proof.
  unfold a_expand_begin. intros E. inv E. apply calm_mbegin in E0. destruct E0 as (E0 & _). inv E.
  assert (pcap (snd t0) = pcap (snd t)) as L.
  { destruct (allocator_aligned A T); [eapply level_expand; eauto|].
    inv E1. apply calm_real_addr in E2. destruct E2 as (E2 & _). rewrite <- E2. eapply level_expand; eauto. }
  destruct a1.
  - inv E. injection E as <- <-. eapply set_cap_to; eauto.
  - injection E as <- <-. congruence.
Qed.
Lemma malloc_copy_cap n k s a s' : malloc_copy A T n k s = Ok a s' -> pcap (snd s') = N.to_nat n.
Proof. unfold malloc_copy. intros E. inv E. inv E. inv E. inv E. inv E. eapply set_cap_to; eauto. Qed.

(** The new capacity when [c] is too small for [d]. *)
Definition enlarged (c d c' : nat) : Prop := (c = 0 /\ c' = d) \/ (0 < c /\ grows (N.of_nat c) (N.of_nat d) (N.of_nat c')).
Lemma new_capacity_inv d s nc s' : (3 * N.of_nat d <= two64 - 1)%N -> pcap (snd s) < d ->
  get_new_capacity (N.of_nat d) s = Ok nc s' -> s' = s /\ enlarged (pcap (snd s)) d (N.to_nat nc).
Proof.
  intros B L E. unfold get_new_capacity in E. inv E. unfold mcap in E0. injection E0 as <- <-.
  destruct (Nat.eqb_spec (pcap (snd s)) 0) as [e|ne].
  - injection E as <- <-. split; [reflexivity|]. left. split; [exact e|lia].
  - destruct (grow_cap_grows (S (N.to_nat (N.of_nat d))) (N.of_nat (pcap (snd s))) (N.of_nat d)) as (g & Eg & G); [lia|exact B|lia|].
    rewrite Eg in E. injection E as <- <-. split; [reflexivity|]. right. split; [lia|]. now rewrite N2Nat.id.
Qed.

(** What a call which needs room for [d] elements does to the capacity. *)
Definition fitted (d : nat) (s s' : pst) : Prop :=
  if d <=? pcap (snd s) then same s s' else enlarged (pcap (snd s)) d (pcap (snd s')).
Lemma fitted_after d s s1 s' : fitted d s s1 -> same s1 s' -> fitted d s s'.
Proof.
  unfold fitted. intros F S. destruct (_ <=? _); [eapply same_trans; eauto|]. destruct S as (-> & _). exact F.
Qed.
Lemma fitted_before d s s1 s' : same s s1 -> fitted d s1 s' -> fitted d s s'.
Proof.
  unfold fitted. intros S F. pose proof S as (Ec & _). rewrite Ec in F. destruct (_ <=? _); [eapply same_trans; eauto|exact F].
Qed.

Lemma preserve_fitted d s r s' : (3 * N.of_nat d <= two64 - 1)%N ->
  preserve A T (N.of_nat d) s = Ok r s' -> fitted d s s'.
Proof.
  intros B E. unfold preserve in E. inv E. unfold mcap in E0. injection E0 as <- <-. unfold fitted.
  destruct (N.leb_spec (N.of_nat d) (N.of_nat (pcap (snd s)))) as [L|G].
  { rewrite (proj2 (Nat.leb_le d _)) by lia. injection E as _ <-. now split. }
  rewrite (proj2 (Nat.leb_gt d _)) by lia. inv E. apply calm_mbegin in E0. destruct E0 as (E0 & _). inv E.
  rewrite <- E0 in *. apply new_capacity_inv in E1; [|auto|lia]. destruct E1 as (-> & En).
  inv E. apply calm_psize in E1. destruct E1 as (E1 & _). inv E. inv E.
  apply calm_end_at in E3. destruct E3 as (E3 & _). apply calm_begin_changed in E. destruct E as (E & _).
  rewrite E, E3. enough (pcap (snd t1) = N.to_nat a0) as -> by exact En. clear - E2 E1 E0.
  destruct (a_has_expand A).
  - destruct a as [bo|].
    + inv E2. apply expand_cap in E. destruct a.
      * injection E2 as _ <-. exact E.
      * eapply malloc_copy_cap; eauto.
    + inv E2. inv E2. eapply set_cap_to; eauto.
  - destruct (_ <? _)%N; [eapply malloc_copy_cap; eauto|eapply realloc_cap; eauto].
Qed.
Lemma presize_fitted d s r s' : (3 * N.of_nat d <= two64 - 1)%N ->
  presize A T (N.of_nat d) s = Ok r s' -> fitted d s s'.
Proof.
  intros B E. unfold presize in E. inv E. apply preserve_fitted in E0; [|auto]. eapply fitted_after; [exact E0|].
  revert E. match goal with |- ?f _ = _ -> _ => assert (calm f) as K end.
  { still. }
  intros E. exact (K _ _ _ E).
Qed.
Lemma psize_is T' s a s' : psize T' s = Ok a s' -> s' = s.
Proof.
  unfold psize.
  destruct (pb (snd s)) as [[b o]|] eqn:E, (pe (snd s)) as [[b' o']|]; try discriminate.
  - destruct ((b =? b') && (o <=? o'))%bool; [|discriminate]. now intros [= _ <-].
  - now intros [= _ <-].
Qed.

Lemma pgrow_fitted off num n s r s' : psize T s = Ok n s -> (3 * N.of_nat (n + num) <= two64 - 1)%N ->
  pgrow_at A T off (N.of_nat num) s = Ok r s' -> fitted (n + num) s s'.
Proof.
  intros Hn B E. unfold pgrow_at in E. inv E. rewrite Hn in E0. injection E0 as <- <-. inv E.
  assert (same t s') as S.
  { revert E. match goal with |- ?f _ = _ -> _ => assert (calm f) as K end; [|intros E; exact (K _ _ _ E)]. still. }
  eapply fitted_after; [|exact S]. clear S E. rewrite SmallBufProofs.mod_sum in E0 by auto.
  destruct (off =? n).
  - inv E0. injection E0 as _ <-. eapply presize_fitted; eauto.
  - set (gap := bind mbegin _) in *. assert (calm gap) as Kg by (unfold gap; still).
    inv E0. unfold mcap in E. injection E as <- <-. unfold fitted.
    destruct (N.ltb_spec (N.of_nat (pcap (snd s))) (N.of_nat (n + num))) as [L|G].
    + rewrite (proj2 (Nat.leb_gt _ _)) by lia. inv E0. apply new_capacity_inv in E; [|auto|lia]. destruct E as (-> & En).
      enough (pcap (snd t) = N.to_nat a0) as -> by exact En.
      destruct (a_has_expand A).
      * inv E0. apply expand_cap in E. destruct a1.
        -- apply Kg in E0. destruct E0 as (E0 & _). congruence.
        -- inv E0. inv E0. inv E0. inv E0. inv E0. inv E0. inv E0. inv E0. eapply set_cap_to; eauto.
      * destruct (_ <? _)%N.
        -- inv E0. inv E0. inv E0. inv E0. inv E0. inv E0. inv E0. inv E0. eapply set_cap_to; eauto.
        -- inv E0. apply realloc_cap in E. apply Kg in E0. destruct E0 as (E0 & _). congruence.
    + rewrite (proj2 (Nat.leb_le _ _)) by lia. eapply Kg; eauto.
Qed.

Hypothesis HT : ety_ok T.
Hypothesis HA : alc_ok A.

Definition pphi (c n : nat) : nat := 3 * n - 2 * c.

Lemma room_bound d : room T d -> (3 * N.of_nat d <= two64 - 1)%N.
Proof.
  destruct HT as (Hs & _). unfold room, two63, two64. intros R.
  pose proof (N.div_mod (N.of_nat d) 2 ltac:(lia)) as D. pose proof (N.mod_lt (N.of_nat d) 2 ltac:(lia)) as D'.
  set (h := (N.of_nat d / 2)%N) in *. assert (1 <= N.of_nat (esz T))%N as S by lia.
  assert (N.of_nat d + h <= (N.of_nat d + h) * N.of_nat (esz T))%N by nia. lia.
Qed.

Lemma psize_of_holds bs v xs : pod_holds A T bs v xs -> psize_of T v = length xs /\ length xs <= pcap v.
Proof.
  intros H. pose proof H as (_ & rest & _ & _ & Hc & _). split; [|exact Hc].
  assert (psize T (mkMem bs 0, v) = Ok (length xs) (mkMem bs 0, v)) as E.
  { destruct (holds_parts A T HT _ _ _ H) as (r & _ & _ & He & _ & _ & _ & Hn0 & _). apply psize_spec; auto. }
  unfold psize in E. unfold psize_of. cbn [snd] in E.
  destruct (pb v) as [[b o]|], (pe v) as [[b' o']|]; try discriminate.
  - destruct ((b =? b') && (o <=? o')); [|discriminate]. now injection E.
  - now injection E.
Qed.

(** What a call has done to the capacity, by the sizes before and after. *)
Ltac ins :=
  match goal with |- context [length (insert_at ?l ?p ?m)] =>
    replace (length (insert_at l p m)) with (length l + length m)
      by (unfold insert_at; rewrite !app_length, firstn_length, skipn_length; lia)
  end; cbn [length]; rewrite ?repeat_length.
Lemma pcall_fitted early o bs k v xs r s' xs' : pod_holds A T bs v xs -> pod_ok T xs o -> pod_op o = true ->
  pcall A T early o (mkMem bs k, v) = Ok r s' -> pod_step A T xs o xs' (answer r) ->
  fitted (length xs') (mkMem bs k, v) s' \/ same (mkMem bs k, v) s'.
Proof.
  intros H Ho Hp E St.
  assert (psize T (mkMem bs k, v) = Ok (length xs) (mkMem bs k, v)) as En.
  { destruct (holds_parts A T HT _ _ _ H) as (r0 & _ & _ & He & _ & _ & _ & Hn0 & _). apply psize_spec; auto. }
  assert (calm_pshrink : forall off num, calm (pshrink_at T off num)).
  { intros off num. unfold pshrink_at, pclear. still. }
  assert (calm_fill : forall n p x, calm (pfill T p n x)).
  { induction n as [|n IH]; intros p x; cbn [pfill]; unfold value_of; [still|].
    destruct x; still; apply IH. }
  assert (emp : forall n t, room T (length xs + 1) -> pemplace_back A T (mkMem bs k, v) = Ok n t -> fitted (length xs + 1) (mkMem bs k, v) t).
  { intros n t R Em. unfold pemplace_back in Em. inv Em. rewrite En in E0. injection E0 as <- <-.
    inv Em. change 1%N with (N.of_nat 1) in E0. rewrite SmallBufProofs.mod_sum in E0 by (now apply room_bound).
    apply preserve_fitted in E0; [|now apply room_bound]. eapply fitted_after; [exact E0|].
    revert Em. match goal with |- ?f _ = _ -> _ => assert (calm f) as K by still end. intros Em. exact (K _ _ _ Em). }
  destruct o as [o| |n|]; try discriminate Hp.
  - destruct o as [x| |pos x|pos n x|pos l|pos|first last|n|n x| |n x|l]; try discriminate Hp; cbn [pod_ok] in Ho; cbn [pcall] in E;
      unfold no_answer, position_answer in E; inv E; injection E as <- <-;
      inversion St as [o' d Hr Ex| | | |]; subst; cbn [spec_step fst fits] in *; clear St.
    + left. rewrite app_length. cbn [length]. unfold ppush_back in E0. destruct early.
      * inv E0. unfold value_of in E. injection E as <- <-. inv E0. apply emp in E; [|tauto].
        apply calm_write in E0. eapply fitted_after; eauto.
      * inv E0. apply emp in E; [|tauto].
        revert E0. match goal with |- ?f _ = _ -> _ => assert (calm f) as K by (unfold value_of; still) end. intros Em.
        eapply fitted_after; [exact E|exact (K _ _ _ Em)].
    + right. unfold ppop_back in E0. revert E0. match goal with |- ?f _ = _ -> _ => assert (calm f) as K end.
      { calm1; [still|]. calm1; [still|]. calm1; [apply calm_pshrink|still]. }
      intros Em. exact (K _ _ _ Em).
    + left. unfold pinsert1 in E0. inv E0. change 1%N with (N.of_nat 1) in E.
      apply (pgrow_fitted _ _ _ _ _ _ En) in E; [|apply room_bound; tauto].
      ins.
      revert E0. match goal with |- ?f _ = _ -> _ => assert (calm f) as K by (unfold value_of; still) end. intros Em.
      eapply fitted_after; [exact E|exact (K _ _ _ Em)].
    + left. unfold pinsert_n in E0. inv E0.
      apply (pgrow_fitted _ _ _ _ _ _ En) in E; [|apply room_bound; tauto].
      ins.
      revert E0. match goal with |- ?f _ = _ -> _ => assert (calm f) as K end.
      { calm1; [apply calm_fill|still]. }
      intros Em. eapply fitted_after; [exact E|exact (K _ _ _ Em)].
    + left. unfold pinsert_range in E0. inv E0.
      apply (pgrow_fitted _ _ _ _ _ _ En) in E; [|apply room_bound; tauto].
      ins.
      revert E0. match goal with |- ?f _ = _ -> _ => assert (calm f) as K end.
      { calm1; [unfold copy_not_aliased; destruct l; still|still]. }
      intros Em. eapply fitted_after; [exact E|exact (K _ _ _ Em)].
    + right. exact (calm_pshrink _ _ _ _ _ E0).
    + right. exact (calm_pshrink _ _ _ _ _ E0).
    + now destruct (Hr n).
    + left. assert (length (firstn n xs ++ new) = n) as ->.
      { rewrite app_length, firstn_length. lia. }
      eapply presize_fitted; [|exact E0]. now apply room_bound.
    + left. destruct Ho as (-> & Hx & R). cbn [resize_to]. 
      assert (length (resize_to [] n x) = n) as ->.
      { unfold resize_to. rewrite app_length, firstn_length, repeat_length. cbn. lia. }
      unfold presize_val in E0. inv E0. apply preserve_fitted in E; [|now apply room_bound].
      revert E0. match goal with |- ?f _ = _ -> _ => assert (calm f) as K end.
      { calm1; [still|]. calm1; [apply calm_fill|]. calm1; [apply calm_end_at|still]. }
      intros Em. eapply fitted_after; [exact E|exact (K _ _ _ Em)].
    + right. revert E0. match goal with |- ?f _ = _ -> _ => assert (calm f) as K by (unfold pclear; still) end. intros Em. exact (K _ _ _ Em).
  - left. cbn [pcall] in E. unfold no_answer in E. inv E. injection E as <- <-. cbn [pod_ok] in Ho.
    inversion St; subst. rewrite app_length. cbn [length]. eapply emp; eauto.
Qed.

Lemma pod_amort early os : forall bs k v xs, pod_holds A T bs v xs -> pod_along A T xs os ->
  exists c a z, pod_cost A T early (mkMem bs k, v) os = Some (c, a, z) /\
    c <= pphi (pcap v) (length xs) + 5 * a.
Proof.
  induction os as [|o os IH]; intros bs k v xs H Al.
  - exists 0, 0, (mkMem bs k, v). split; [reflexivity|lia].
  - destruct Al as ((Ha & Ho) & Al). cbn [pod_cost].
    destruct (pcall_spec A T HT HA early o bs k v xs H Ho) as (r & bs' & k' & v' & xs' & E & St & H' & _).
    rewrite E.
    enough (exists c a z, match pod_cost A T early (mkMem bs' k', v') os with
              | Some (c, a, z) => Some (pcarried T (mkMem bs k, v) (mkMem bs' k', v') + c,
                                        more (psize_of T v) (psize_of T v') + a, z)
              | None => None end = Some (c, a, z) /\ c <= pphi (pcap v) (length xs) + 5 * a) as G
      by (destruct r; exact G).
    destruct (IH bs' k' v' xs' H' (Al _ _ St)) as (c & a & z & Ec & B). rewrite Ec.
    eexists _, _, z. split; [reflexivity|].
    pose proof (pcall_fitted early o bs k v xs r _ xs' H Ho Ha E St) as F.
    destruct (psize_of_holds _ _ _ H) as (S1 & C1). destruct (psize_of_holds _ _ _ H') as (S2 & C2).
    unfold pcarried, more. cbn [fst snd ncall]. rewrite S1, S2. unfold pphi in *.
    assert (same (mkMem bs k, v) (mkMem bs' k', v') \/ (pcap v < length xs' /\ enlarged (pcap v) (length xs') (pcap v'))) as [(G1 & G2)|(G1 & G2)].
    { destruct F as [F|F]; [|auto]. unfold fitted in F. cbn [snd] in F. destruct (Nat.leb_spec (length xs') (pcap v)); auto. }
    + cbn [fst snd ncall] in G1, G2. rewrite G2, Nat.eqb_refl. lia.
    + assert ((if k =? k' then 0 else length xs) <= length xs) by (destruct (k =? k'); lia).
      destruct G2 as [(G2 & G3)|(G2 & G3)]; [lia|].
      apply grows_half in G3; [|lia]. lia.
Qed.
End Pod.
