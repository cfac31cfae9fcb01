(** Proofs about the counter. *)
From Coq Require Import ZArith List Bool Lia Permutation.
From Verif Require Import Base ConcModel ConcSpec ConcProofs AtomicModel AtomicSpec.
Import ListNotations.
Open Scope Z_scope.

Section AtomicProofs.
Variable bits : Z.
Variable sgn : bool.
Hypothesis Hb : 0 < bits.
Notation lo := (lo bits sgn).
Notation hi := (hi bits sgn).
Notation norm := (norm bits sgn).

Lemma pow_split : 2 ^ bits = 2 * 2 ^ (bits - 1).
Proof. rewrite <- Z.pow_succ_r by lia. f_equal. lia. Qed.
Lemma pow_pos' : 0 < 2 ^ (bits - 1).
Proof. apply Z.pow_pos_nonneg; lia. Qed.
Lemma span : hi = lo + 2 ^ bits - 1.
Proof. unfold AtomicModel.hi, AtomicModel.lo. rewrite pow_split. destruct sgn; lia. Qed.

Lemma value_of_iff z a : value_of bits sgn z a <-> lo <= a <= hi /\ exists k, a = z + k * 2 ^ bits.
Proof.
  unfold value_of, AtomicModel.lo, AtomicModel.hi. destruct sgn; split; intros [H K]; (split; [lia|exact K]).
Qed.

Lemma value_of_norm z : value_of bits sgn z (norm z).
Proof.
  apply value_of_iff. unfold AtomicModel.norm. rewrite span.
  pose proof pow_pos'. pose proof pow_split.
  pose proof (Z.mod_pos_bound (z - lo) (2 ^ bits) ltac:(lia)).
  split; [lia|]. exists (- ((z - lo) / 2 ^ bits)).
  pose proof (Z.div_mod (z - lo) (2 ^ bits) ltac:(lia)). lia.
Qed.

Lemma value_of_unique z a b : value_of bits sgn z a -> value_of bits sgn z b -> a = b.
Proof.
  rewrite !value_of_iff, span. intros (Ha & k & Ea) (Hb' & j & Eb).
  pose proof pow_pos'. pose proof pow_split.
  assert (k = j) as -> by nia. lia.
Qed.

Lemma value_of_self a : lo <= a <= hi -> value_of bits sgn a a.
Proof. intros H. apply value_of_iff. split; [exact H|]. exists 0. lia. Qed.

Lemma plus_norm a d r : plus bits sgn a d = Some r -> r = norm (a + d).
Proof.
  unfold plus. destruct (wide_signed bits sgn).
  - destruct (_ && _) eqn:E; [|discriminate]. intros [= <-].
    apply andb_true_iff in E as [E1 E2]. apply Z.leb_le in E1, E2.
    apply (value_of_unique (a + d)); [apply value_of_self; lia|apply value_of_norm].
  - now intros [= <-].
Qed.

Lemma plus_none a d : plus bits sgn a d = None ->
  wide_signed bits sgn = true /\ ~ (lo <= a + d <= hi).
Proof.
  unfold plus. destruct (wide_signed bits sgn); [|discriminate].
  destruct (_ && _) eqn:E; [discriminate|]. intros _. split; [reflexivity|].
  intros [H1 H2]. apply Z.leb_le in H1, H2. now rewrite H1, H2 in E.
Qed.

Variable v0 : Z.
Hypothesis Hv0 : lo <= v0 <= hi.

Definition arun := seq_run (aspec bits sgn) v0.

(** Somewhere among the calls one left the range of its type. *)
Definition overflows (L : list (nat * acall * option Z)) : Prop :=
  wide_signed bits sgn = true /\
  exists L1 L2 t c r v d, L = L1 ++ (t, c, r) :: L2 /\ arun L1 v /\ delta c = Some d /\
    ~ (lo <= v + d <= hi).

Lemma overflows_app L M : overflows L -> overflows (L ++ M).
Proof.
  intros (H & L1 & L2 & t & c & r & v & d & -> & K). split; [exact H|].
  exists L1, (L2 ++ M), t, c, r, v, d. rewrite <- app_assoc. split; [reflexivity|exact K].
Qed.

Definition agh : Type := lst acall (option Z) * bool.
Definition aI (s : Z) (G : nat -> agh) (L : list (nat * acall * option Z)) : Prop :=
  arun L s /\ lo <= s <= hi /\ forall t, snd (G t) = true -> overflows L.

Notation aallowed := (aallowed bits sgn).

Notation asafe := (safeP agh fst aI overflows).
Notation asafe1 := (safe arview agh fst aI overflows).

Lemma aI_set s G L t l b s' M :
  aI s G L -> arun (L ++ M) s' -> lo <= s' <= hi -> (b = true -> overflows (L ++ M)) ->
  aI s' (setm G t (l, b)) (L ++ M).
Proof.
  intros (A & B & C) A' B' Hb'. split; [exact A'|]. split; [exact B'|].
  intros u. destruct (Nat.eq_dec u t) as [->|Hn].
  - rewrite setm_eq. exact Hb'.
  - rewrite setm_neq by auto. intros H. apply overflows_app, (C u H).
Qed.

Lemma returns_ok t c r : returns arview agh fst aI t r (LDone c r, false).
Proof.
  intros s G L HI Hg. split; [exists c; reflexivity|]. exists (LFree, false). split; [reflexivity|].
  rewrite <- (app_nil_r L). apply (aI_set s G L t LFree false s []); auto; try discriminate.
  - rewrite app_nil_r. apply HI.
  - apply HI.
Qed.

(** An operation with one action that is followed by a return or by an overflow. *)
Lemma one_action t c (f : Z -> Z) (g : Z -> ac) :
  (forall v, lo <= v <= hi ->
     lo <= f v <= hi /\
     ((exists r, g v = Ret r /\ aspec bits sgn t v c r (f v)) \/
      (g v = cbad /\ (exists r, aspec bits sgn t v c r (f v)) /\
        wide_signed bits sgn = true /\ exists d, delta c = Some d /\ ~ (lo <= v + d <= hi)))) ->
  asafe1 t (LPend c, false) (Act (fun _ v => Next (f v) (g v))).
Proof.
  intros H. unfold safe. cbn [safeP]. intros _ s G L HI Hg. pose proof HI as (A & B & C).
  destruct (H s B) as (Hf & [(r & -> & Hs)|(-> & (r & Hs) & Hw & d & Hd & Ho)]).
  - exists (LDone c r, false), (L ++ [(t, c, r)]). split; [now apply ef_lin|]. split.
    + apply (aI_set s); auto; [econstructor; eauto|discriminate].
    + cbn [safeP]. apply returns_ok.
  - assert (overflows (L ++ [(t, c, r)])) as Hov.
    { split; [exact Hw|]. exists L, [], t, c, r, s, d. now repeat split. }
    exists (LDone c r, true), (L ++ [(t, c, r)]). split; [now apply ef_lin|]. split.
    + apply (aI_set s); auto. econstructor; eauto.
    + unfold cbad. cbn [safeP]. intros _ s' G' L' HI' Hg'. destruct HI' as (_ & _ & C').
      apply (C' t). now rewrite Hg'.
Qed.

Lemma ret_plus_cases t c v d :
  lo <= v <= hi -> delta c = Some d ->
  (forall a', value_of bits sgn (v + d) a' -> aspec bits sgn t v c (Some a') a') ->
  (exists r, ret_plus bits sgn v d = Ret r /\ aspec bits sgn t v c r (norm (v + d))) \/
  (ret_plus bits sgn v d = cbad /\ (exists r, aspec bits sgn t v c r (norm (v + d))) /\
     wide_signed bits sgn = true /\ exists d, delta c = Some d /\ ~ (lo <= v + d <= hi)).
Proof.
  intros Hv Hd Hs. unfold ret_plus. destruct (plus bits sgn v d) as [r|] eqn:E.
  - left. exists (Some r). split; [reflexivity|]. apply plus_norm in E. subst r.
    apply Hs, value_of_norm.
  - right. split; [reflexivity|]. split.
    + eexists. apply Hs, value_of_norm.
    + apply plus_none in E as [Hw Ho]. split; [exact Hw|]. exists d. now split.
Qed.

Lemma norm_in z : lo <= norm z <= hi.
Proof. pose proof (value_of_norm z) as H. now apply value_of_iff in H as [H _]. Qed.

Lemma asafe_impl t c : aarg bits sgn c -> c <> CSelf -> asafe1 t (LPend c, false) (aimpl bits sgn t c).
Proof.
  intros Ha Hn. destruct c; try congruence; cbn [aimpl];
    unfold conv, load, store, assign, assign_from, pre_inc, post_inc, add_assign, pre_dec, post_dec,
      sub_assign, a_load, a_store, a_fetch_add, a_fetch_sub, atom;
    cbn [cbind fst snd];
    (eapply one_action; intros w Hw; split; [first [exact Hw|exact Ha|apply norm_in]|]);
    try (left; eexists; split; [reflexivity|]; constructor; try apply value_of_norm; fail).
  - apply ret_plus_cases; auto. intros a' H. now constructor.
  - apply ret_plus_cases; auto. intros a' H. now constructor.
  - rewrite <- Z.add_opp_r. apply ret_plus_cases; auto. intros a' H. constructor. exact H.
  - rewrite <- Z.add_opp_r. apply ret_plus_cases; auto. intros a' H. constructor.
    now rewrite Z.add_opp_r in H.
Qed.

Notation areach := (reach (aimpl bits sgn) acview arview aallowed (start v0)).

Lemma areach_good c : areach c ->
  good arview agh fst aI overflows c.
Proof.
  apply (reach_good _ _ _ aallowed agh fst aI overflows) with (G0 := fun _ => (LFree, false)).
  - intros s G L h t k HI Hf _ [Ha Hn]. exists (LPend k, false). split; [reflexivity|]. split.
    + rewrite <- (app_nil_r L). apply (aI_set s); auto; try discriminate; try apply HI.
      rewrite app_nil_r. apply HI.
    + now apply asafe_impl.
  - split; [constructor|]. split; [exact Hv0|]. discriminate.
  - reflexivity.
Qed.

Lemma areach_lin c : areach c ->
  exists x, erase x = hist c /\ (forall t, exists l, runs t x l) /\ arun (lins x) (sh c) /\
    lo <= sh c <= hi.
Proof.
  intros H. destruct (areach_good c H) as (x & G & E & Hr & HI & _). exists x.
  split; [exact E|]. split; [eauto|]. split; apply HI.
Qed.

(** Sums over the calls that took effect. *)
Definition dz (c : acall) : Z := match delta c with Some d => d | None => 0 end.
Definition sumc (f : Z -> Z) (l : list (nat * acall)) : Z :=
  fold_right (fun p z => (match delta (snd p) with Some d => f d | None => 0 end) + z) 0 l.
Lemma sumc_app f l m : sumc f (l ++ m) = sumc f l + sumc f m.
Proof. unfold sumc. induction l as [|p l IH]; simpl in *; [reflexivity|]. rewrite IH. lia. Qed.
Lemma sumc_perm f l m : Permutation l m -> sumc f l = sumc f m.
Proof. unfold sumc. induction 1; simpl in *; lia. Qed.
Lemma total_sumc f h : total f h = sumc f (invs h).
Proof. induction h as [|[t c|t r] h IH]; simpl; [reflexivity| |exact IH]. now rewrite IH. Qed.
Lemma sumc_nonneg f l : (forall d, 0 <= f d) -> 0 <= sumc f l.
Proof. unfold sumc. intros H. induction l as [|[t c] l IH]; simpl in *; [lia|]. destruct (delta c); [specialize (H z)|]; lia. Qed.
Lemma sumc_nonpos f l : (forall d, f d <= 0) -> sumc f l <= 0.
Proof. unfold sumc. intros H. induction l as [|[t c] l IH]; simpl in *; [lia|]. destruct (delta c); [specialize (H z)|]; lia. Qed.
Lemma sumc_split l : sumc (fun d => d) l = sumc (Z.max 0) l + sumc (Z.min 0) l.
Proof. unfold sumc. induction l as [|[t c] l IH]; simpl in *; [lia|]. destruct (delta c); lia. Qed.

Lemma value_of_shift z a d b :
  value_of bits sgn z a -> value_of bits sgn (a + d) b -> value_of bits sgn (z + d) b.
Proof.
  rewrite !value_of_iff. intros (_ & k & ->) (Hr & j & ->). split; [exact Hr|].
  exists (k + j). lia.
Qed.

Lemma arun_sum L a : arun L a -> (forall p, In p L -> delta (snd (fst p)) <> None) ->
  value_of bits sgn (v0 + sumc (fun d => d) (map fst L)) a.
Proof.
  induction 1 as [|L a t c r a' H IH Hs]; intros HD.
  - simpl. rewrite Z.add_0_r. now apply value_of_self.
  - specialize (IH (fun p Hp => HD p (in_or_app _ _ _ (or_introl Hp)))).
    rewrite map_app, sumc_app, Z.add_assoc. simpl. rewrite Z.add_0_r.
    assert (delta c <> None) as Hc by (apply (HD (t, c, r)), in_or_app; right; now left).
    inversion Hs; subst; simpl in *; try congruence;
      try (rewrite Z.add_0_r; exact IH); eapply value_of_shift; eauto;
      now rewrite Z.add_opp_r || idtac.
Qed.

Lemma in_invs t c (h : list (event acall (option Z))) : In (t, c) (invs h) <-> In (EInv t c) h.
Proof.
  induction h as [|[u d|u r] h IH]; simpl; [tauto| |].
  - split; intros [H|H]; try (right; tauto); left; congruence.
  - rewrite IH. split; [now right|]. intros [H|H]; [discriminate|exact H].
Qed.

Lemma lins_calls (c : cfg Z (option Z) acall (option Z)) x : erase x = hist c -> (forall t, exists l, runs t x l) ->
  forall P, all_calls P (hist c) -> forall p, In p (lins x) -> P (snd (fst p)).
Proof.
  intros E Hr P HP p Hp. destruct (invs_lins x Hr) as [R HR]. rewrite E in HR.
  assert (In (fst p) (invs (hist c))) as Hin.
  { apply (Permutation_in _ (Permutation_sym HR)), in_or_app. left. now apply in_map. }
  destruct p as [[t k] r]. simpl in *. apply in_invs in Hin. eapply HP; eauto.
Qed.

Lemma quiet_value c : areach c -> quiet c ->
  all_calls (fun k => delta k <> None) (hist c) ->
  value_of bits sgn (v0 + total (fun d => d) (hist c)) (sh c).
Proof.
  intros H Hq HD. destruct (areach_good c H) as (x & G & E & Hr & HI & Ht).
  assert (forall t, runs t x LFree) as Hfree.
  { intros t. specialize (Ht t). rewrite (Hq t) in Ht. specialize (Hr t). now rewrite Ht in Hr. }
  destruct (quiet_perm x Hfree) as [HP _]. rewrite E in HP.
  rewrite total_sumc, (sumc_perm _ _ _ HP). apply arun_sum; [apply HI|].
  exact (lins_calls c x E (fun t => ex_intro _ _ (Hr t)) _ HD).
Qed.

Lemma narrow_not_bad c : wide_signed bits sgn = false -> areach c -> ~ bad c.
Proof.
  intros Hw H Hbad. destruct (good_bad _ _ _ _ _ c (areach_good c H) Hbad) as (x & _ & _ & Ho & _).
  congruence.
Qed.

(** If the sums stay in range in whatever order, no step leaves it. *)
Lemma sums_in_range L1 L2 t k r v d R : arun L1 v -> delta k = Some d ->
  (forall p, In p (L1 ++ (t, k, r) :: L2) -> delta (snd (fst p)) <> None) ->
  v0 + sumc (Z.max 0) (map fst (L1 ++ (t, k, r) :: L2) ++ R) <= hi ->
  lo <= v0 + sumc (Z.min 0) (map fst (L1 ++ (t, k, r) :: L2) ++ R) -> lo <= v + d <= hi.
Proof.
  intros Hrun Hd HL H1 H2.
  rewrite map_app, !sumc_app in H1, H2. cbn [map fst] in H1, H2.
  pose proof (sumc_nonneg (Z.max 0) (map fst L1) ltac:(intros; lia)).
  pose proof (sumc_nonpos (Z.min 0) (map fst L1) ltac:(intros; lia)).
  pose proof (sumc_nonneg (Z.max 0) (map fst L2) ltac:(intros; lia)).
  pose proof (sumc_nonpos (Z.min 0) (map fst L2) ltac:(intros; lia)).
  pose proof (sumc_nonneg (Z.max 0) R ltac:(intros; lia)).
  pose proof (sumc_nonpos (Z.min 0) R ltac:(intros; lia)).
  pose proof (sumc_split (map fst L1)) as Hsp.
  set (id1 := sumc (fun d => d) (map fst L1)) in *.
  change ((t, k) :: map fst L2) with ([(t, k)] ++ map fst L2) in H1, H2.
  assert (forall f, sumc f [(t, k)] = f d) as H1k.
  { intros f. unfold sumc. cbn [fold_right snd]. rewrite Hd. lia. }
  rewrite sumc_app, H1k in H1. rewrite sumc_app, H1k in H2.
  assert (v = v0 + sumc (fun d => d) (map fst L1)) as Ev.
  { apply (value_of_unique (v0 + sumc (fun d => d) (map fst L1))).
    - apply arun_sum; auto. intros p Hp. apply HL, in_or_app. now left.
    - fold id1. apply value_of_self. rewrite Hsp. revert H1 H2 H H0 H3 H4 H5 H6.
      generalize (sumc (Z.max 0) (map fst L1)), (sumc (Z.min 0) (map fst L1)),
              (sumc (Z.max 0) (map fst L2)), (sumc (Z.min 0) (map fst L2)),
              (sumc (Z.max 0) R), (sumc (Z.min 0) R). clear. intros. lia. }
  rewrite Ev. fold id1. rewrite Hsp. revert H1 H2 H H0 H3 H4 H5 H6.
  generalize (sumc (Z.max 0) (map fst L1)), (sumc (Z.min 0) (map fst L1)),
          (sumc (Z.max 0) (map fst L2)), (sumc (Z.min 0) (map fst L2)),
          (sumc (Z.max 0) R), (sumc (Z.min 0) R). clear. intros. lia.
Qed.

Lemma bounded_not_bad c : areach c ->
  all_calls (fun k => delta k <> None) (hist c) ->
  v0 + total (Z.max 0) (hist c) <= hi -> lo <= v0 + total (Z.min 0) (hist c) -> ~ bad c.
Proof.
  intros H HD H1 H2 Hbad.
  destruct (good_bad _ _ _ _ _ c (areach_good c H) Hbad)
    as (x & E & Hr & _ & L1 & L2 & t & k & r & v & d & EL & Hrun & Hd & Hout).
  destruct (invs_lins x Hr) as [R HR]. rewrite E, EL in HR.
  pose proof (lins_calls c x E Hr _ HD) as HL. rewrite EL in HL.
  rewrite !total_sumc in *. rewrite (sumc_perm _ _ _ HR) in H1. rewrite (sumc_perm _ _ _ HR) in H2.
  apply Hout. eapply (sums_in_range L1 L2 t k r v d R); eauto.
Qed.

Lemma arun_nth L a : arun L a -> (forall p, In p L -> snd (fst p) = CPreInc \/ snd (fst p) = CPostInc) ->
  value_of bits sgn (v0 + Z.of_nat (length L)) a /\
  forall k t c r, nth_error L k = Some (t, c, r) ->
    exists z, r = Some z /\
      value_of bits sgn (v0 + Z.of_nat k + match c with CPreInc => 1 | _ => 0 end) z.
Proof.
  induction 1 as [|L a t c r a' H IH Hs]; intros HD.
  - split; [simpl; rewrite Z.add_0_r; now apply value_of_self|]. intros [|k]; discriminate.
  - destruct (IH (fun p Hp => HD p (in_or_app _ _ _ (or_introl Hp)))) as [IH1 IH2].
    assert (c = CPreInc \/ c = CPostInc) as Hc.
    { apply (HD (t, c, r)), in_or_app. right. now left. }
    assert (value_of bits sgn (v0 + Z.of_nat (length L) + 1) a') as Ha'.
    { eapply value_of_shift; [exact IH1|]. destruct Hc; subst c; now inversion Hs. }
    split.
    + rewrite app_length. cbn [length]. rewrite Nat2Z.inj_add, Z.add_assoc. exact Ha'.
    + intros k u e q Hk. destruct (Nat.lt_ge_cases k (length L)) as [Hl|Hl].
      * rewrite nth_error_app1 in Hk by exact Hl. eapply IH2; eauto.
      * rewrite nth_error_app2 in Hk by exact Hl. destruct (k - length L)%nat eqn:Ek; [|destruct n; discriminate].
        injection Hk as <- <- <-. assert (k = length L) as -> by lia.
        destruct Hc; subst c; inversion Hs; subst; eexists; (split; [reflexivity|]); cbv beta iota.
        -- exact Ha'.
        -- rewrite Z.add_0_r. exact IH1.
Qed.

Lemma calls_invs (h : list (event acall (option Z))) : calls h = length (invs h).
Proof. induction h as [|[t c|t r] h IH]; simpl; auto. Qed.

Lemma distinct c : areach c ->
  all_calls (fun k => k = CPreInc \/ k = CPostInc) (hist c) ->
  Z.of_nat (calls (hist c)) <= 2 ^ bits ->
  forall t i u j k r q,
    nth_error (completed t (hist c)) i = Some (k, r) ->
    nth_error (completed u (hist c)) j = Some (k, q) ->
    (t, i) <> (u, j) -> r <> q.
Proof.
  intros H HD Hn t i u j k r q Hi Hj Hne.
  destruct (areach_lin c H) as (x & E & Hr & Hrun & _).
  assert (forall t i e, nth_error (completed t (hist c)) i = Some e ->
            nth_error (of_thread t (lin3 (lins x))) i = Some e) as Hcl.
  { intros w m e Hm. destruct (Hr w) as [l Hl]. pose proof (runs_tells _ _ _ Hl) as Ht.
    rewrite <- E in Hm. unfold tells in Ht. fold (lins_of w x). destruct l.
    - destruct Ht as (_ & _ & C & _). now rewrite C in Hm.
    - destruct Ht as (_ & _ & C & _). now rewrite C in Hm.
    - destruct Ht as (L' & E' & _ & _ & C & _). rewrite C in Hm. rewrite E'.
      rewrite nth_error_app1; [exact Hm|]. apply nth_error_Some. congruence. }
  apply Hcl in Hi, Hj. apply of_thread_place in Hi as (a & Ha & La), Hj as (b & Hb' & Lb).
  assert (a <> b) as Hab.
  { intros ->. rewrite Ha in Hb'. injection Hb' as <- ->. apply Hne. congruence. }
  assert (forall m w e, nth_error (lin3 (lins x)) m = Some (w, e) ->
            nth_error (lins x) m = Some (w, fst e, snd e)) as Hm.
  { intros m w e He. unfold lin3 in He. rewrite nth_error_map in He.
    destruct (nth_error (lins x) m) as [[[w' e1] e2]|]; [|discriminate]. simpl in He.
    injection He as <- <-. reflexivity. }
  apply Hm in Ha, Hb'. cbn [fst snd] in *.
  destruct (arun_nth _ _ Hrun (lins_calls c x E Hr _ HD)) as [_ Hv].
  destruct (Hv _ _ _ _ Ha) as (z & -> & Hz), (Hv _ _ _ _ Hb') as (y & -> & Hy).
  intros [= <-]. destruct (invs_lins x Hr) as [R HR]. apply Permutation_length in HR.
  rewrite app_length, map_length, E, <- calls_invs in HR.
  assert (a < length (lins x))%nat by (apply nth_error_Some; congruence).
  assert (b < length (lins x))%nat by (apply nth_error_Some; congruence).
  apply value_of_iff in Hz as (_ & k1 & E1), Hy as (_ & k2 & E2).
  assert (Z.of_nat a - Z.of_nat b = (k2 - k1) * 2 ^ bits) as Hd by lia.
  pose proof pow_pos'. pose proof pow_split.
  assert (k2 - k1 = 0) as Hz0 by nia. rewrite Hz0 in Hd. lia.
Qed.
End AtomicProofs.
