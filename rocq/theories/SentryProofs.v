From Coq Require Import List Arith Lia Bool.
From Verif Require Import Base SentryModel SentrySpec.
Import ListNotations.

Section Proofs.
Context {F : Type}.
Variable cxx17 : bool.
Variable moved : F -> F.
Variables ctor_throws move_throws call_throws : F -> bool.
Notation construct := (construct ctor_throws).
Notation move_construct := (move_construct cxx17 moved move_throws).
Notation destroy := (destroy cxx17 call_throws).
Notation destroy_all := (destroy_all cxx17 call_throws).
Notation leave_block := (leave_block cxx17 call_throws).
Notation pass_on := (pass_on cxx17 moved move_throws call_throws).
Notation make_sentry := (make_sentry cxx17 moved ctor_throws move_throws call_throws).
Notation run := (run cxx17 moved ctor_throws move_throws call_throws).
Notation program := (program cxx17 moved ctor_throws move_throws call_throws).

Definition full (o : sentry F) : bool := cxx17 || has_func o.

(** Every store an outcome may carry has the property. *)
Definition all_out (J : store F -> Prop) (o : out F) : Prop :=
  match o with Normal s | Threw s | Returned s | Terminated s => J s | Undefined => True end.
Lemma ends_all J o s : all_out J o -> ends o s -> J s.
Proof. intros H [->|[->|[->| ->]]]; exact H. Qed.
Lemma and_then_all J o k : all_out J o -> (forall s, J s -> all_out J (k s)) -> all_out J (and_then o k).
Proof. destruct o; cbn; auto. Qed.

(** * The invariant of all programs *)
Lemma owns_inv e l (x : nat) (f : F) : owns (e :: l) x f ->
  match e with
  | Made y g => (x = y /\ f = g) \/ (x <> y /\ owns l x f)
  | MovedTo y z => (x = y /\ owns l z f) \/ (x <> y /\ x <> z /\ owns l x f)
  | Destroyed y => x <> y /\ owns l x f
  | Ran _ => owns l x f
  end.
Proof. intros H. inversion H; subst; auto. Qed.

Fixpoint held (P : F -> bool) (m : nat -> option (sentry F)) (L : list nat) : nat :=
  match L with
  | [] => 0
  | x :: L' => match m x with
               | Some o => if P (func o) then S (held P m L') else held P m L'
               | None => held P m L'
               end
  end.
Lemma held_ext P m m' L : (forall x, In x L -> m x = m' x) -> held P m L = held P m' L.
Proof.
  induction L as [|x L IH]; intros H; cbn; auto.
  rewrite (H x) by (cbn; auto). rewrite IH by (intros; apply H; cbn; auto). reflexivity.
Qed.
Lemma held_remove P m L x o : NoDup L -> In x L -> m x = Some o ->
  held P m L = (if P (func o) then 1 else 0) + held P m (remove Nat.eq_dec x L).
Proof.
  induction L as [|y L IH]; intros D i E; [destruct i|].
  inversion D; subst. cbn [remove held].
  destruct (Nat.eq_dec x y) as [->|ne].
  - rewrite E, notin_remove by assumption. destruct (P (func o)); reflexivity.
  - destruct i as [->|i]; [congruence|]. cbn [held]. rewrite IH by assumption.
    destruct (m y) as [o'|]; [destruct (P (func o'))|]; lia.
Qed.
Lemma remove_nodup L x : NoDup L -> NoDup (remove Nat.eq_dec x L).
Proof.
  induction L as [|y L IH]; intros D; cbn; auto. inversion D; subst.
  destruct (Nat.eq_dec x y); auto. constructor; auto.
  intros i. apply in_remove in i. tauto.
Qed.

Definition owner_now (s : store F) (x : nat) (f : F) : Prop :=
  exists o, objs s x = Some o /\ func o = f /\ full o = true.
Definition inv (s : store F) : Prop :=
  on_time (log s) /\
  (forall x f, owns (log s) x f <-> owner_now s x f) /\
  (exists L, NoDup L /\
     (forall x, In x L <-> exists f, owner_now s x f) /\
     forall P, made_count P (log s) = ran_count P (log s) + held P (objs s) L).

Lemma on_time_made l x (f : F) : on_time l -> on_time (Made x f :: l).
Proof.
  intros [A B]. split.
  - intros [|e after] g before E; cbn in E; [discriminate|]. injection E as _ E. eauto.
  - intros [|e after] y g before E O; cbn in E; [discriminate|]. injection E as <- E.
    destruct (B _ _ _ _ E O) as [after' ->]. exists (Made x f :: after'). reflexivity.
Qed.
Lemma on_time_moved l x y : on_time l -> @on_time F (MovedTo x y :: l).
Proof.
  intros [A B]. split.
  - intros [|e after] g before E; cbn in E; [discriminate|]. injection E as _ E. eauto.
  - intros [|e after] z g before E O; cbn in E; [discriminate|]. injection E as <- E.
    destruct (B _ _ _ _ E O) as [after' ->]. exists (MovedTo x y :: after'). reflexivity.
Qed.
Lemma on_time_silent l x : on_time l -> (forall f, ~ owns l x f) -> @on_time F (Destroyed x :: l).
Proof.
  intros [A B] N. split.
  - intros [|e after] g before E; cbn in E; [discriminate|]. injection E as _ E. eauto.
  - intros [|e after] z g before E O; cbn in E.
    + injection E as <- <-. destruct (N _ O).
    + injection E as <- E. destruct (B _ _ _ _ E O) as [after' ->].
      exists (Destroyed x :: after'). reflexivity.
Qed.
Lemma owns_unique l x (f g : F) : owns l x f -> owns l x g -> f = g.
Proof.
  intros H. revert g. induction H; intros g' H'; apply owns_inv in H'; auto.
  - destruct H' as [[_ ->]|[n _]]; congruence.
  - destruct H' as [[_ H']|[n _]]; [auto|congruence].
  - destruct H' as [[E _]|[_ H']]; [congruence|auto].
  - destruct H' as [[E _]|(_ & _ & H')]; [congruence|auto].
  - destruct H' as [_ H']; auto.
Qed.
Lemma on_time_ran l x f : on_time l -> owns l x f -> @on_time F (Ran f :: Destroyed x :: l).
Proof.
  intros [A B] O. split.
  - intros [|e after] g before E; cbn in E.
    + injection E as <- <-. eauto.
    + injection E as <- E. destruct after as [|e' after]; cbn in E; [discriminate|].
      injection E as _ E. eauto.
  - intros [|e after] z g before E O'; cbn in E; [discriminate|]. injection E as <- E.
    destruct after as [|e' after]; cbn in E.
    + injection E as <- <-. rewrite (owns_unique _ _ _ _ O O'). exists []. reflexivity.
    + injection E as <- E. destruct (B _ _ _ _ E O') as [after' ->].
      exists (Ran f :: Destroyed x :: after'). reflexivity.
Qed.

Lemma inv_autos s a : inv s -> inv (mkStore (objs s) a (log s)).
Proof. intros H. exact H. Qed.

Lemma construct_inv x f s : inv s -> all_out inv (construct x f s).
Proof.
  intros I. unfold SentryModel.construct. destruct (objs s x) as [|] eqn:E; [exact Logic.I|].
  destruct (ctor_throws f); [exact I|]. destruct I as (T & O & L & D & HL & C).
  cbn. split; [|split]; cbn.
  - now apply on_time_made.
  - intros y g. unfold owner_now; cbn. split.
    + intros H. apply owns_inv in H. destruct H as [[-> ->]|[n H]].
      * rewrite setm_eq. eexists; split; [reflexivity|]. cbn. unfold full; cbn.
        now rewrite orb_true_r.
      * rewrite setm_neq by assumption. now apply O.
    + intros (o & E1 & E2 & E3). destruct (Nat.eq_dec y x) as [->|n].
      * rewrite setm_eq in E1. injection E1 as <-. cbn in E2. subst. constructor.
      * rewrite setm_neq in E1 by assumption. apply o_made_other; [|assumption].
        apply O. exists o; auto.
  - assert (NI : ~ In x L).
    { rewrite HL. intros (g & o & E1 & _). congruence. }
    exists (x :: L). split; [now constructor|]. split.
    + intros y. cbn. rewrite HL. unfold owner_now; cbn. split.
      * intros [->|(g & o & E1 & E2)].
        -- exists f. rewrite setm_eq. eexists; split; [reflexivity|]. unfold full; cbn.
           now rewrite orb_true_r.
        -- exists g, o. rewrite setm_neq by congruence. auto.
      * intros (g & o & E1 & E2). destruct (Nat.eq_dec y x) as [->|n]; [auto|].
        rewrite setm_neq in E1 by assumption. right. exists g, o; auto.
    + intros P. cbn. rewrite setm_eq. cbn.
      rewrite (held_ext P _ (objs s)) by (intros y i; apply setm_neq; congruence).
      rewrite C. destruct (P f); lia.
Qed.

Lemma move_inv x y s : inv s -> all_out inv (move_construct x y s).
Proof.
  intros I. unfold SentryModel.move_construct. destruct cxx17 eqn:X; [exact Logic.I|].
  destruct (objs s x) as [|] eqn:E; [exact Logic.I|]. destruct (objs s y) as [o|] eqn:Ey; [|exact Logic.I].
  destruct (move_throws (func o)); [exact I|]. destruct I as (T & O & L & D & HL & C).
  assert (ne : x <> y) by congruence.
  assert (FU : forall o, full o = has_func o) by (intros; unfold full; now rewrite X).
  cbn. unfold set_obj. cbn [objs autos log]. set (m := setm (setm (objs s) y (Some (mkSentry (moved (func o)) false))) x
                 (Some (mkSentry (func o) (has_func o)))).
  assert (Ex : m x = Some (mkSentry (func o) (has_func o))) by apply setm_eq.
  assert (Ey' : m y = Some (mkSentry (moved (func o)) false))
    by (unfold m; rewrite setm_neq by congruence; apply setm_eq).
  assert (Ez : forall z, z <> x -> z <> y -> m z = objs s z)
    by (intros; unfold m; rewrite !setm_neq by congruence; reflexivity).
  split; [|split]; cbn.
  - now apply on_time_moved.
  - intros z g. unfold owner_now; cbn. split.
    + intros H. apply owns_inv in H. destruct H as [[-> H]|(n & n' & H)].
      * apply O in H. destruct H as (o' & E1 & E2 & E3). rewrite Ey in E1. injection E1 as <-.
        rewrite Ex. eexists; split; [reflexivity|]. rewrite FU in *. auto.
      * apply O in H. destruct H as (o' & H). exists o'. rewrite Ez by assumption. exact H.
    + intros (o' & E1 & E2 & E3). destruct (Nat.eq_dec z x) as [->|n].
      * rewrite Ex in E1. injection E1 as <-. cbn in E2. subst g. constructor. apply O.
        exists o. rewrite FU in *. auto.
      * destruct (Nat.eq_dec z y) as [->|n'].
        -- rewrite Ey' in E1. injection E1 as <-. rewrite FU in E3. discriminate.
        -- rewrite Ez in E1 by assumption. apply o_moved_other; try assumption. apply O.
           exists o'; auto.
  - assert (NI : ~ In x L) by (rewrite HL; intros (g & o' & E1 & _); congruence).
    destruct (has_func o) eqn:Hf.
    + assert (Iy : In y L) by (apply HL; exists (func o), o; rewrite FU; auto).
      exists (x :: remove Nat.eq_dec y L). split.
      { constructor; [|now apply remove_nodup]. intros i. apply in_remove in i. tauto. }
      split.
      * intros z. cbn. unfold owner_now; cbn. split.
        -- intros [<-|i].
           ++ exists (func o), (mkSentry (func o) true). now rewrite Ex, FU.
           ++ apply in_remove in i. destruct i as [i n]. pose proof i as j. apply HL in j.
              destruct j as (g & o' & H). exists g, o'. rewrite Ez; auto; congruence.
        -- intros (g & o' & E1 & E2 & E3). destruct (Nat.eq_dec z x) as [->|n]; [auto|].
           destruct (Nat.eq_dec z y) as [->|n'].
           ++ rewrite Ey' in E1. injection E1 as <-. rewrite FU in E3. discriminate.
           ++ right. apply in_in_remove; [assumption|]. apply HL. rewrite Ez in E1 by assumption.
              exists g, o'; auto.
      * intros P. cbn. rewrite Ex. cbn. rewrite C.
        rewrite (held_remove P (objs s) L y o) by assumption.
        rewrite (held_ext P m (objs s)).
        -- destruct (P (func o)); lia.
        -- intros z i. apply in_remove in i. apply Ez; [|tauto]. intros ->. tauto.
    + assert (NIy : ~ In y L).
      { rewrite HL. intros (g & o' & E1 & E2 & E3). rewrite Ey in E1. injection E1 as <-.
        rewrite FU in E3. congruence. }
      exists L. split; [assumption|]. split.
      * intros z. rewrite HL. unfold owner_now; cbn. split; intros (g & o' & E1 & E2 & E3).
        -- exists g, o'. rewrite Ez; auto; [congruence|].
           intros ->. rewrite FU in E3. congruence.
        -- destruct (Nat.eq_dec z x) as [->|n].
           { rewrite Ex in E1. injection E1 as <-. rewrite FU in E3. discriminate. }
           destruct (Nat.eq_dec z y) as [->|n'].
           { rewrite Ey' in E1. injection E1 as <-. rewrite FU in E3. discriminate. }
           exists g, o'. rewrite Ez in E1 by assumption. auto.
      * intros P. cbn. rewrite C. f_equal. apply held_ext. intros z i. symmetry. apply Ez; congruence.
Qed.

Lemma destroy_inv x s : inv s -> all_out inv (destroy x s).
Proof.
  intros (T & O & L & D & HL & C). unfold SentryModel.destroy.
  destruct (objs s x) as [o|] eqn:E; [|exact Logic.I]. fold (full o).
  destruct (full o) eqn:Fo.
  - assert (J : inv (mkStore (setm (objs s) x None) (autos s) (Ran (func o) :: Destroyed x :: log s))).
    { assert (Ow : owns (log s) x (func o)) by (apply O; exists o; auto).
      split; [|split]; cbn.
      - now apply on_time_ran.
      - intros y f. unfold owner_now; cbn. split.
        + intros H. apply owns_inv in H. apply owns_inv in H. destruct H as [n H].
          rewrite setm_neq by assumption. now apply O.
        + intros (o' & E1 & E2). destruct (Nat.eq_dec y x) as [->|n].
          { rewrite setm_eq in E1. discriminate. }
          rewrite setm_neq in E1 by assumption. do 2 constructor; [|assumption]. apply O.
          exists o'; auto.
      - assert (Ix : In x L) by (apply HL; exists (func o), o; auto).
        exists (remove Nat.eq_dec x L). split; [now apply remove_nodup|]. split.
        + intros y. unfold owner_now; cbn. split.
          * intros i. apply in_remove in i. destruct i as [i n]. apply HL in i.
            destruct i as (g & o' & H). exists g, o'. now rewrite setm_neq.
          * intros (g & o' & E1 & E2). destruct (Nat.eq_dec y x) as [->|n].
            { rewrite setm_eq in E1. discriminate. }
            apply in_in_remove; [assumption|]. apply HL. rewrite setm_neq in E1 by assumption.
            exists g, o'; auto.
        + intros P. cbn. rewrite C, (held_remove P (objs s) L x o) by assumption.
          rewrite (held_ext P (setm _ _ _) (objs s)).
          * destruct (P (func o)); lia.
          * intros z i. apply in_remove in i. apply setm_neq. tauto. }
    destruct (call_throws (func o)); exact J.
  - assert (NO : forall f, ~ owns (log s) x f).
    { intros f H. apply O in H. destruct H as (o' & E1 & E2 & E3). congruence. }
    assert (Nx : ~ In x L) by (rewrite HL; intros (g & o' & E1 & E2 & E3); congruence).
    cbn. split; [|split]; cbn.
    + now apply on_time_silent.
    + intros y f. unfold owner_now; cbn. split.
      * intros H. apply owns_inv in H. destruct H as [n H].
        rewrite setm_neq by assumption. now apply O.
      * intros (o' & E1 & E2). destruct (Nat.eq_dec y x) as [->|n].
        { rewrite setm_eq in E1. discriminate. }
        rewrite setm_neq in E1 by assumption. constructor; [|assumption]. apply O.
        exists o'; auto.
    + exists L. split; [assumption|]. split.
      * intros y. rewrite HL. unfold owner_now; cbn. split; intros (g & o' & E1 & E2).
        -- exists g, o'. rewrite setm_neq; auto. intros ->. destruct E2. congruence.
        -- destruct (Nat.eq_dec y x) as [->|n]; [rewrite setm_eq in E1; discriminate|].
           rewrite setm_neq in E1 by assumption. exists g, o'; auto.
      * intros P. rewrite C. f_equal. apply held_ext. intros z i. symmetry. apply setm_neq. congruence.
Qed.

(** * Lifting to programs, for any property kept by the three operations *)
Section Lift.
Variable J : store F -> Prop.
Hypothesis J_autos : forall s a, J s -> J (mkStore (objs s) a (log s)).
Hypothesis J_construct : forall x f s, J s -> all_out J (construct x f s).
Hypothesis J_move : forall x y s, J s -> all_out J (move_construct x y s).
Hypothesis J_destroy : forall x s, J s -> all_out J (destroy x s).

Lemma destroy_all_J l s : J s -> all_out J (destroy_all l s).
Proof.
  revert s; induction l as [|x l IH]; intros s H; cbn; auto.
  apply and_then_all; auto.
Qed.
Lemma leave_J outer s : J s -> all_out J (leave cxx17 call_throws outer s).
Proof.
  intros H. unfold leave. apply and_then_all; [now apply destroy_all_J|].
  intros s' H'. now apply J_autos.
Qed.
Lemma leave_block_J outer o : all_out J o -> all_out J (leave_block outer o).
Proof.
  destruct o; cbn; auto using leave_J.
  - intros H. apply and_then_all; [now apply leave_J|auto].
  - intros H. apply and_then_all; [now apply leave_J|auto].
Qed.
Lemma pass_on_J via from x s : J s -> all_out J (pass_on from via x s).
Proof.
  revert from s; induction via as [|t via IH]; intros from s H; cbn.
  - apply and_then_all; auto.
  - apply and_then_all; auto. intros s' H'. apply and_then_all; auto.
Qed.
Lemma make_J via x f s : J s -> all_out J (make_sentry x f via s).
Proof.
  intros H. destruct via as [|t via]; cbn; [auto|].
  apply and_then_all; auto. intros; now apply pass_on_J.
Qed.
Lemma run_J c s : J s -> all_out J (run c s).
Proof.
  revert c s. fix IH 1.
  assert (L : forall b s, J s -> all_out J (run_list run b s)).
  { fix IHb 1. intros [|c b] s H; cbn; [exact H|]. apply and_then_all; auto. }
  intros [x f via|x f|x y|x y|x| | |b|b h|b] s H; cbn.
  - apply and_then_all; [now apply make_J|]. intros s' H'. cbn. now apply J_autos.
  - auto.
  - apply and_then_all; [auto|]. intros s' H'. cbn. now apply J_autos.
  - auto.
  - destruct (existsb _ _); [exact Logic.I|auto].
  - exact H.
  - exact H.
  - apply leave_block_J, L. now apply J_autos.
  - assert (B : all_out J (leave_block (autos s) (run_list run b (enter s))))
      by (apply leave_block_J, L; now apply J_autos).
    destruct (leave_block _ _); auto. cbn in B.
    apply leave_block_J, L. now apply J_autos.
  - assert (B : all_out J (leave_block (autos s) (run_list run b (enter s))))
      by (apply leave_block_J, L; now apply J_autos).
    destruct (leave_block _ _); auto.
Qed.
End Lift.

Lemma inv_init : inv init.
Proof.
  split; [|split].
  - split; intros [|e l]; cbn; intros; discriminate.
  - intros x f. split; [intros H; inversion H|]. intros (o & E & _). discriminate.
  - exists []. split; [constructor|]. split; [|reflexivity].
    intros x. split; [intros []|]. intros (f & o & E & _). discriminate.
Qed.

Lemma program_inv b s : ends (program b) s -> inv s.
Proof.
  intros H. apply (ends_all inv) in H; auto. apply run_J; auto using inv_init.
  - apply construct_inv. - apply move_inv. - apply destroy_inv.
Qed.

Lemma program_on_time b s : ends (program b) s -> on_time (log s).
Proof. intros H. apply program_inv in H. apply H. Qed.

Lemma program_count b s P : ends (program b) s -> (forall x, objs s x = None) ->
  ran_count P (log s) = made_count P (log s).
Proof.
  intros H N. apply program_inv in H. destruct H as (_ & _ & L & _ & HL & C).
  rewrite C. destruct L as [|x L]; [cbn; lia|].
  destruct (proj1 (HL x) (or_introl eq_refl)) as (f & o & E & _). now rewrite N in E.
Qed.
Lemma program_at_most b s P : ends (program b) s -> ran_count P (log s) <= made_count P (log s).
Proof.
  intros H. apply program_inv in H. destruct H as (_ & _ & L & _ & HL & C). rewrite C. lia.
Qed.

(** * No termination *)
Definition not_term (o : out F) : Prop := forall s, o <> Terminated s.
Lemma not_term_then o k : not_term o -> (forall s, not_term (k s)) -> not_term (and_then o k).
Proof. destruct o; cbn; auto. Qed.
Lemma run_not_term c s :
  (forall f, move_throws f = false) -> (forall f, call_throws f = false) -> not_term (run c s).
Proof.
  intros Mt Ct.
  assert (Co : forall x f s, not_term (construct x f s)).
  { intros x f s0 s'. unfold SentryModel.construct. destruct (objs s0 x); [discriminate|].
    destruct (ctor_throws f); discriminate. }
  assert (Mo : forall x y s, not_term (move_construct x y s)).
  { intros x y s0 s'. unfold SentryModel.move_construct. destruct cxx17; [discriminate|].
    destruct (objs s0 x); [discriminate|]. destruct (objs s0 y); [|discriminate].
    rewrite Mt. discriminate. }
  assert (De : forall x s, not_term (destroy x s)).
  { intros x s0 s'. unfold SentryModel.destroy. destruct (objs s0 x) as [o|]; [|discriminate].
    destruct (cxx17 || has_func o); [|discriminate]. rewrite Ct. discriminate. }
  assert (Da : forall l s, not_term (destroy_all l s)).
  { induction l as [|x l IHl]; intros s0; cbn; [discriminate|]. apply not_term_then; auto. }
  assert (Le : forall a s, not_term (leave cxx17 call_throws a s)).
  { intros a s0. unfold leave. apply not_term_then; [auto|]. intros ? ?; discriminate. }
  assert (Lb : forall a o, not_term o -> not_term (leave_block a o)).
  { intros a o H. destruct o; cbn; auto.
    - apply not_term_then; [auto|]. intros ? ?; discriminate.
    - apply not_term_then; [auto|]. intros ? ?; discriminate. }
  assert (Po : forall via from x s, not_term (pass_on from via x s)).
  { induction via as [|t via IHv]; intros from x s0; cbn.
    - apply not_term_then; auto.
    - apply not_term_then; auto. intros s1. apply not_term_then; auto. }
  revert c s. fix IH 1.
  assert (L : forall b s, not_term (run_list run b s)).
  { fix IHb 1. intros [|c b] s; cbn; [discriminate|]. apply not_term_then; auto. }
  intros [x f via|x f|x y|x y|x| | |b|b h|b] s; cbn; auto; try discriminate.
  - apply not_term_then; [|discriminate]. destruct via as [|t via]; cbn; [auto|].
    apply not_term_then; auto.
  - apply not_term_then; [auto|discriminate].
  - destruct (existsb _ _); [discriminate|auto].
  - pose proof (Lb (autos s) _ (L b (enter s))) as Lb1.
    destruct (leave_block _ _); auto; try discriminate.
  - pose proof (Lb (autos s) _ (L b (enter s))) as Lb1.
    destruct (leave_block _ _); auto; try discriminate.
Qed.

(** * Automatic objects only: nothing is left *)
Definition within (O : list nat) (s : store F) : Prop :=
  forall x, objs s x <> None -> In x (autos s) \/ In x O.
(** for the outcomes after which the program goes on *)
Definition going (J : store F -> Prop) (o : out F) : Prop :=
  match o with Normal s | Threw s | Returned s => J s | _ => True end.
Lemma going_then (J K : store F -> Prop) o k :
  going J o -> (forall s, o = Threw s \/ o = Returned s -> J s -> K s) ->
  (forall s, o = Normal s -> J s -> going K (k s)) -> going K (and_then o k).
Proof. destruct o; cbn; auto. Qed.

Lemma construct_going x f s :
  match construct x f s with
  | Normal s' => autos s' = autos s /\ forall y, objs s' y <> None -> y = x \/ objs s y <> None
  | Threw s' => s' = s
  | Returned _ => False
  | _ => True
  end.
Proof.
  unfold SentryModel.construct. destruct (objs s x); [exact Logic.I|].
  destruct (ctor_throws f); [reflexivity|]. split; [reflexivity|].
  intros y H. destruct (Nat.eq_dec y x) as [->|n]; [auto|]. cbn in H.
  rewrite setm_neq in H by assumption. auto.
Qed.
Lemma move_going x y s :
  match move_construct x y s with
  | Normal s' => autos s' = autos s /\ forall z, objs s' z <> None -> z = x \/ objs s z <> None
  | Terminated _ | Undefined => True
  | _ => False
  end.
Proof.
  unfold SentryModel.move_construct. destruct cxx17; [exact Logic.I|].
  destruct (objs s x) eqn:Ex; [exact Logic.I|]. destruct (objs s y) eqn:Ey; [|exact Logic.I].
  destruct (move_throws _); [exact Logic.I|]. split; [reflexivity|].
  intros z H. destruct (Nat.eq_dec z x) as [->|n]; [auto|]. cbn in H.
  rewrite setm_neq in H by assumption. right. destruct (Nat.eq_dec z y) as [->|n'].
  - congruence.
  - now rewrite setm_neq in H.
Qed.
Lemma destroy_going x s :
  match destroy x s with
  | Normal s' => autos s' = autos s /\ forall z, objs s' z <> None -> z <> x /\ objs s z <> None
  | Terminated _ | Undefined => True
  | _ => False
  end.
Proof.
  unfold SentryModel.destroy. destruct (objs s x) eqn:Ex; [|exact Logic.I].
  assert (Z : forall z, setm (objs s) x None z <> None -> z <> x /\ objs s z <> None).
  { intros z H. destruct (Nat.eq_dec z x) as [->|n]; [now rewrite setm_eq in H|].
    rewrite setm_neq in H by assumption. auto. }
  destruct (cxx17 || _).
  - destruct (call_throws _); [exact Logic.I|]. split; [reflexivity|exact Z].
  - split; [reflexivity|exact Z].
Qed.
Lemma destroy_all_going l s :
  match destroy_all l s with
  | Normal s' => forall z, objs s' z <> None -> ~ In z l /\ objs s z <> None
  | Terminated _ | Undefined => True
  | _ => False
  end.
Proof.
  revert s; induction l as [|x l IH]; intros s; cbn.
  - intros z H. auto.
  - pose proof (destroy_going x s) as D. destruct (destroy x s) as [s1|s1|s1|s1|]; cbn; auto.
    destruct D as [_ D]. specialize (IH s1). destruct (destroy_all l s1); auto.
    intros z H. apply IH in H. destruct H as [H1 H2]. apply D in H2. destruct H2 as [H2 H3].
    split; auto. intros [->|i]; auto.
Qed.
Lemma leave_going outer O s : within (outer ++ O) s ->
  match leave cxx17 call_throws outer s with
  | Normal s' => autos s' = outer /\ within O s'
  | Terminated _ | Undefined => True
  | _ => False
  end.
Proof.
  intros W. unfold leave. pose proof (destroy_all_going (autos s) s) as D.
  destruct (destroy_all (autos s) s) as [s1|s1|s1|s1|]; cbn; auto.
  split; [reflexivity|]. intros z H. cbn in *. apply D in H. destruct H as [H1 H2].
  apply W in H2. destruct H2 as [H2|H2]; [tauto|]. now apply in_app_or.
Qed.
Lemma leave_block_going outer O o : going (within (outer ++ O)) o ->
  going (fun s => autos s = outer /\ within O s) (leave_block outer o).
Proof.
  intros G. destruct o; cbn in *; auto; pose proof (leave_going outer O s G) as L;
    destruct (leave _ _ _ _); cbn; auto; destruct L.
Qed.
Lemma pass_on_going via from x s :
  match pass_on from via x s with
  | Normal s' => autos s' = autos s /\ forall z, objs s' z <> None -> z = x \/ (z <> from /\ objs s z <> None)
  | Terminated _ | Undefined => True
  | _ => False
  end.
Proof.
  revert from s; induction via as [|t via IH]; intros from s; cbn.
  - pose proof (move_going x from s) as Mv. destruct (move_construct x from s) as [s1|s1|s1|s1|]; cbn; auto.
    pose proof (destroy_going from s1) as D. destruct (destroy from s1); auto.
    destruct Mv as [A1 Mv], D as [A2 D]. split; [congruence|]. intros z H. apply D in H.
    destruct H as [H1 H2]. apply Mv in H2. tauto.
  - pose proof (move_going t from s) as Mv. destruct (move_construct t from s) as [s1|s1|s1|s1|]; cbn; auto.
    pose proof (destroy_going from s1) as D. destruct (destroy from s1) as [s2|s2|s2|s2|]; cbn; auto.
    specialize (IH t s2). destruct (pass_on t via x s2); auto.
    destruct Mv as [A1 Mv], D as [A2 D], IH as [A3 P]. split; [congruence|].
    intros z H. apply P in H. destruct H as [H|[H1 H2]]; [auto|]. right.
    apply D in H2. destruct H2 as [H2 H3]. apply Mv in H3. tauto.
Qed.
Lemma make_going via x f s :
  match make_sentry x f via s with
  | Normal s' => autos s' = autos s /\ forall z, objs s' z <> None -> z = x \/ objs s z <> None
  | Threw s' => s' = s
  | Returned _ => False
  | _ => True
  end.
Proof.
  destruct via as [|t via]; cbn.
  - apply construct_going.
  - pose proof (construct_going t f s) as C. destruct (construct t f s) as [s1|s1|s1|s1|]; cbn; auto.
    pose proof (pass_on_going via t x s1) as P. destruct (pass_on t via x s1); auto; try contradiction.
    destruct C as [A1 C], P as [A2 P]. split; [congruence|]. intros z H. apply P in H.
    destruct H as [H|[H1 H2]]; [auto|]. apply C in H2. tauto.
Qed.

Lemma run_within c s O : automatic c -> within O s -> going (within O) (run c s).
Proof.
  revert c s O. fix IH 1.
  assert (L : forall b s O, fold_right (fun c r => automatic c /\ r) True b ->
            within O s -> going (within O) (run_list run b s)).
  { fix IHb 1. intros [|c b] s O A W; cbn; [exact W|]. destruct A as [A1 A2].
    apply (going_then (within O)); auto. }
  assert (Add : forall s s' O x, within O s -> autos s' = autos s ->
            (forall z, objs s' z <> None -> z = x \/ objs s z <> None) ->
            within O (mkStore (objs s') (x :: autos s') (log s'))).
  { intros s s' O x W A H z Hz. cbn in *. apply H in Hz. destruct Hz as [->|Hz]; [auto|].
    apply W in Hz. rewrite A. tauto. }
  assert (En : forall s O, within O s -> within (autos s ++ O) (enter s)).
  { intros s O W z Hz. right. apply in_or_app. apply W. exact Hz. }
  assert (Blk : forall b s O, fold_right (fun c r => automatic c /\ r) True b -> within O s ->
            going (fun s' => autos s' = autos s /\ within O s')
                  (leave_block (autos s) (run_list run b (enter s)))).
  { intros b s O A W. apply leave_block_going, L; auto. }
  intros [x f via|x f|x y|x y|x| | |b|b h|b] s O A W; cbn; cbn in A; try contradiction; auto.
  - pose proof (make_going via x f s) as Mk. destruct (make_sentry x f via s) as [s1|s1|s1|s1|]; cbn; auto.
    + destruct Mk as [A1 Mk]. now apply (Add s).
    + subst; auto.
    + contradiction.
  - pose proof (move_going x y s) as Mv. destruct (move_construct x y s) as [s1|s1|s1|s1|]; cbn; auto.
    + destruct Mv as [A1 Mv]. now apply (Add s).
    + contradiction. + contradiction.
  - destruct (existsb _ _); [exact Logic.I|]. pose proof (destroy_going x s) as D.
    destruct (destroy x s) as [s1|s1|s1|s1|]; cbn; auto; try contradiction.
    destruct D as [A1 D]. intros z Hz. apply D in Hz. destruct Hz as [_ Hz]. apply W in Hz.
    now rewrite A1.
  - pose proof (Blk b s O A W) as B. destruct (leave_block _ _); cbn in *; tauto.
  - destruct A as [A1 A2]. pose proof (Blk b s O A1 W) as B. destruct (leave_block _ _) as [s1|s1|s1|s1|] eqn:E; cbn in *; try tauto.
    destruct B as [_ B]. pose proof (Blk h s1 O A2 B) as B'. destruct (leave_block (autos s1) _); cbn in *; tauto.
  - pose proof (Blk b s O A W) as B. destruct (leave_block _ _); cbn in *; tauto.
Qed.

Lemma program_automatic b s : fold_right (fun c r => automatic c /\ r) True b ->
  program b = Normal s \/ program b = Threw s -> forall x, objs s x = None.
Proof.
  intros A E x.
  assert (W : within [] (@init F)) by (intros z H; now cbn in H).
  assert (G : going (fun s' => autos s' = [] /\ within [] s') (program b)).
  { unfold SentryModel.program. cbn.
    assert (B : going (fun s' => autos s' = [] /\ within [] s')
                  (leave_block [] (run_list run b init))).
    { apply leave_block_going. cbn.
      assert (R := run_within (Block b) init [] A W). clear R.
      revert A. clear E. revert W. generalize (@init F). induction b as [|c b IH]; intros s0 W A; cbn; [exact W|].
      destruct A as [A1 A2]. apply (going_then (within [])); auto. now apply run_within. }
    destruct (leave_block _ _); cbn in *; auto. }
  assert (G' : autos s = [] /\ within [] s) by (destruct E as [E|E]; rewrite E in G; exact G).
  destruct G' as [A' W']. destruct (objs s x) eqn:Ex; [|reflexivity].
  destruct (W' x) as [H|H]; [congruence| |destruct H]. rewrite A' in H. destruct H.
Qed.
End Proofs.
