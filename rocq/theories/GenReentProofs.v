From Coq Require Import List Arith Bool Lia.
From Verif Require Import Base GenReentModel GenReentSpec.
Import ListNotations.

Section Proofs.
Context {St V E : Type}.
Variable run : St -> act St V E.
Variable moved : V -> V.
Notation store := (store (St := St) (V := V) (E := E)).
Notation agens := (agens St).
Notation R := (has_gens (St := St) (V := V) (E := E)).
Implicit Types (s : store) (a : agens).

Lemma R_ext s a a' : (forall g, a g = a' g) -> R s a -> R s a'.
Proof. intros X (P & Q). split; [|exact Q]. intros g. rewrite <- X. apply P. Qed.

Lemma at_none s a g : R s a -> a g = None -> gens s g = None.
Proof. intros (P & _) H. specialize (P g). now rewrite H in P. Qed.
Lemma at_empty s a g : R s a -> a g = Some Empty -> gens s g = Some None.
Proof. intros (P & _) H. specialize (P g). now rewrite H in P. Qed.
Lemma at_some s a g x : R s a -> a g = Some x -> x <> Empty ->
  exists h f, gens s g = Some (Some h) /\ frames s h = Some f /\ fits x f.
Proof. intros (P & _) H N. specialize (P g). rewrite H in P. destruct x; [congruence|exact P..]. Qed.
Lemma at_any s a g x : R s a -> a g = Some x -> exists h, gens s g = Some h.
Proof.
  intros H A. destruct x; [exists None; eapply at_empty; eauto|..];
    (destruct (at_some _ _ _ _ H A) as (h & f & G & _); [congruence|eauto]).
Qed.

(** The frame of [g] changes. *)
Lemma R_put s a g h f x : R s a -> gens s g = Some (Some h) -> frames s h <> None -> x <> Empty -> fits x f ->
  R (mkStore (setm (frames s) h (Some f)) (fresh s) (gens s)) (setm a g (Some x)).
Proof.
  intros (P & I & F & O) G A N X. repeat apply conj; cbn [frames fresh gens].
  - intros g'. destruct (Nat.eq_dec g' g) as [->|D].
    + rewrite setm_eq. destruct x; [congruence|..]; exists h, f; rewrite setm_eq; auto.
    + rewrite setm_neq by auto. specialize (P g'). destruct (a g') as [[]|]; auto;
        destruct P as (h' & f' & G' & F' & X'); exists h', f'; rewrite setm_neq; auto; intros ->; apply D; eauto.
  - exact I.
  - intros h' L. rewrite setm_neq; auto. intros ->. now apply A, F.
  - intros h' f' H. destruct (Nat.eq_dec h' h) as [->|D]; [eauto|]. rewrite setm_neq in H by auto. eauto.
Qed.

(** The handle of [g] is destroyed, and [g] empty or gone. *)
Lemma destroy_ok s a g y : R s a -> a g = Some y -> free y = true ->
  exists old s', gens s g = Some old /\ destroy_handle old s = Ok tt s' /\ gens s' = gens s /\ fresh s' = fresh s /\
    forall x ax, (x = None /\ ax = None) \/ (x = Some None /\ ax = Some Empty) ->
      R (mkStore (frames s') (fresh s') (setm (gens s') g x)) (setm a g ax).
Proof.
  intros H A Y. destruct y as [|st| |]; try discriminate Y.
  - exists None, s. pose proof (at_empty _ _ _ H A) as G. repeat apply conj; auto. intros x ax X.
    destruct H as (P & I & F & O). repeat apply conj; cbn [frames fresh gens]; auto.
    + intros g'. destruct (Nat.eq_dec g' g) as [->|D].
      * rewrite !setm_eq. destruct X as [(-> & ->)|(-> & ->)]; auto.
      * rewrite !setm_neq by auto. apply P.
    + intros g1 g2 h. unfold setm. destruct (Nat.eqb_spec g1 g), (Nat.eqb_spec g2 g); subst; auto;
        destruct X as [(-> & _)|(-> & _)]; try discriminate; eauto.
    + intros h f Z. destruct (O h f Z) as (g' & G'). exists g'. rewrite setm_neq; auto. congruence.
  - all: cycle 0.
    destruct (at_some _ _ _ _ H A) as (h & f & G & Fr & X0); [congruence|].
    exists (Some h), (mkStore (setm (frames s) h None) (fresh s) (gens s)). cbn in X0. destruct X0 as (X1 & _).
    repeat apply conj; auto.
    { unfold destroy_handle, destroy_frame, get_frame, bind. now rewrite Fr, X1. }
    intros x ax X. destruct H as (P & I & F & O). repeat apply conj; cbn [frames fresh gens]; auto.
    + intros g'. destruct (Nat.eq_dec g' g) as [->|D].
      * rewrite !setm_eq. destruct X as [(-> & ->)|(-> & ->)]; auto.
      * rewrite !setm_neq by auto. specialize (P g'). destruct (a g') as [[]|]; auto;
          destruct P as (h' & f' & G' & F' & X'); exists h', f'; rewrite setm_neq; auto; intros ->; apply D; eauto.
    + intros g1 g2 h'. unfold setm. destruct (Nat.eqb_spec g1 g), (Nat.eqb_spec g2 g); subst; auto;
        destruct X as [(-> & _)|(-> & _)]; try discriminate; eauto.
    + intros h' L. unfold setm. destruct (h' =? h); auto.
    + intros h' f' Z. destruct (Nat.eq_dec h' h) as [->|D]; [rewrite setm_eq in Z; discriminate|].
      rewrite setm_neq in Z by auto. destruct (O h' f' Z) as (g' & G'). exists g'. rewrite setm_neq; auto. congruence.
  - destruct (at_some _ _ _ _ H A) as (h & f & G & Fr & X1); [congruence|].
    exists (Some h), (mkStore (setm (frames s) h None) (fresh s) (gens s)). cbn in X1.
    repeat apply conj; auto.
    { unfold destroy_handle, destroy_frame, get_frame, bind. now rewrite Fr, X1. }
    intros x ax X. destruct H as (P & I & F & O). repeat apply conj; cbn [frames fresh gens]; auto.
    + intros g'. destruct (Nat.eq_dec g' g) as [->|D].
      * rewrite !setm_eq. destruct X as [(-> & ->)|(-> & ->)]; auto.
      * rewrite !setm_neq by auto. specialize (P g'). destruct (a g') as [[]|]; auto;
          destruct P as (h' & f' & G' & F' & X'); exists h', f'; rewrite setm_neq; auto; intros ->; apply D; eauto.
    + intros g1 g2 h'. unfold setm. destruct (Nat.eqb_spec g1 g), (Nat.eqb_spec g2 g); subst; auto;
        destruct X as [(-> & _)|(-> & _)]; try discriminate; eauto.
    + intros h' L. unfold setm. destruct (h' =? h); auto.
    + intros h' f' Z. destruct (Nat.eq_dec h' h) as [->|D]; [rewrite setm_eq in Z; discriminate|].
      rewrite setm_neq in Z by auto. destruct (O h' f' Z) as (g' & G'). exists g'. rewrite setm_neq; auto. congruence.
Qed.

(** The handle of [from] goes to [g], which had none. *)
Lemma R_move s a g from x hx : R s a -> a g = None \/ a g = Some Empty -> g <> from -> a from = Some x ->
  gens s from = Some hx ->
  R (mkStore (frames s) (fresh s) (setm (setm (gens s) from (Some None)) g (Some hx)))
    (setm (setm a from (Some Empty)) g (Some x)).
Proof.
  intros H A N B G.
  assert (NG : forall h, gens s g <> Some (Some h)).
  { intros h Z. destruct A as [A|A]; [rewrite (at_none _ _ _ H A) in Z|rewrite (at_empty _ _ _ H A) in Z]; congruence. }
  destruct H as (P & I & F & O). repeat apply conj; cbn [frames fresh gens]; auto.
  - intros g'. destruct (Nat.eq_dec g' g) as [->|D].
    + rewrite !setm_eq. specialize (P from). rewrite B in P. rewrite G in P. destruct x; auto.
    + rewrite !(setm_neq _ g) by auto. destruct (Nat.eq_dec g' from) as [->|D']; [now rewrite !setm_eq|].
      rewrite !setm_neq by auto. apply P.
  - intros g1 g2 h. unfold setm.
    destruct (Nat.eqb_spec g1 g), (Nat.eqb_spec g2 g), (Nat.eqb_spec g1 from), (Nat.eqb_spec g2 from); subst;
      intros Z1 Z2; try congruence; try (now apply (I _ _ h)).
    all: exfalso; first [injection Z1 as -> | injection Z2 as ->];
      match goal with X : _ <> _ |- _ => apply X; now apply (I _ _ h) end.
  - intros h f Z. destruct (O h f Z) as (g' & G'). destruct (Nat.eq_dec g' from) as [->|D].
    + exists g. rewrite setm_eq. congruence.
    + exists g'. rewrite !setm_neq; auto. intros ->. now apply (NG h).
Qed.

Lemma R_create s a g st : R s a -> a g = None ->
  R (mkStore (setm (frames s) (fresh s) (Some (mkFrame st Suspended None None))) (S (fresh s))
             (setm (gens s) g (Some (Some (fresh s))))) (setm a g (Some (Rest st))).
Proof.
  intros H A. pose proof (at_none _ _ _ H A) as G. destruct H as (P & I & F & O).
  assert (U : forall g', gens s g' <> Some (Some (fresh s))).
  { intros g' Z. specialize (P g'). pose proof (F (fresh s) (le_n _)) as Q.
    destruct (a g') as [[]|]; try congruence; destruct P as (h' & f' & G' & F' & _); congruence. }
  repeat apply conj; cbn [frames fresh gens].
  - intros g'. destruct (Nat.eq_dec g' g) as [->|D].
    + rewrite setm_eq. exists (fresh s), (mkFrame st Suspended None None). rewrite !setm_eq. now cbn.
    + rewrite !(setm_neq _ g) by auto. specialize (P g'). destruct (a g') as [[]|]; auto;
        destruct P as (h' & f' & G' & F' & X'); exists h', f'; rewrite setm_neq; auto; intros ->; now apply (U g').
  - intros g1 g2 h. unfold setm. destruct (Nat.eqb_spec g1 g), (Nat.eqb_spec g2 g); subst; auto; intros Z1 Z2.
    + injection Z1 as <-. now apply U in Z2.
    + injection Z2 as <-. now apply U in Z1.
    + now apply (I _ _ h).
  - intros h L. rewrite setm_neq by lia. apply F. lia.
  - intros h f Z. destruct (Nat.eq_dec h (fresh s)) as [->|D].
    + exists g. now rewrite setm_eq.
    + rewrite setm_neq in Z by auto. destruct (O h f Z) as (g' & G'). exists g'. rewrite setm_neq; auto. congruence.
Qed.

(** A busy generator stays busy. *)
Definition stays a a' : Prop := forall g, a g = Some Busy -> a' g = Some Busy.
Lemma acall_stays (runs : St -> agens -> option (stop St V E * agens)) o a x a' :
  (forall st b e b', runs st b = Some (e, b') -> stays b b') ->
  acall_with runs o a = Some (x, a') -> stays a a'.
Proof.
  intros K H g B. destruct o; cbn [acall_with] in H.
  - destruct (a g0) eqn:A; [discriminate|]. injection H as <- <-. rewrite setm_neq; congruence.
  - destruct (a g0) eqn:A; [discriminate|]. destruct (a from) as [y|] eqn:A'; [|discriminate].
    destruct (free y) eqn:Y; [|discriminate]. injection H as <- <-.
    rewrite setm_neq by congruence. rewrite setm_neq; [auto|]. intros ->. rewrite A' in B. injection B as ->. discriminate.
  - destruct (a g0) as [z|] eqn:A; [|discriminate]. destruct (a from) as [y|] eqn:A'; [|discriminate].
    destruct (free z) eqn:Z; [|discriminate]. destruct (free y) eqn:Y; [|discriminate].
    destruct (Nat.eqb_spec g0 from); [discriminate|]. injection H as <- <-.
    rewrite setm_neq by (intros ->; rewrite A in B; injection B as ->; discriminate).
    rewrite setm_neq; [auto|]. intros ->. rewrite A' in B. injection B as ->. discriminate.
  - destruct (a g0) as [z|] eqn:A; [|discriminate]. destruct (free z) eqn:Z; [|discriminate]. injection H as <- <-.
    rewrite setm_neq; [auto|]. intros ->; rewrite A in B; injection B as ->; discriminate.
  - destruct (a g0) as [z|] eqn:A; [|discriminate]. destruct (free z) eqn:Z; [|discriminate]. injection H as <- <-.
    rewrite setm_neq; [auto|]. intros ->; rewrite A in B; injection B as ->; discriminate.
  - destruct (a g0) as [[]|]; try discriminate; now injection H as <- <-.
  - destruct (a g0) as [[]|]; try discriminate; now injection H as <- <-.
  - destruct (a g0) as [[|st| |]|] eqn:A; try discriminate; [|now injection H as <- <-].
    destruct (runs st (setm a g0 (Some Busy))) as [(e, b')|] eqn:Q; [|discriminate]. injection H as <- <-.
    assert (g <> g0) by congruence. rewrite setm_neq by auto. apply (K _ _ _ _ Q). now rewrite setm_neq.
Qed.
Lemma ago_stays n : forall st a (e : stop St V E) a', ago run n st a = Some (e, a') -> stays a a'.
Proof.
  induction n as [|n IH]; intros st a e a' H; [discriminate|]. cbn [ago] in H.
  destruct (run st); try (injection H as <- <-; now intros g).
  destruct (acall_with (ago run n) o a) as [(x, b)|] eqn:Q; [|discriminate].
  intros g B. apply (IH _ _ _ _ H). now apply (acall_stays _ _ _ _ _ IH Q).
Qed.

Definition val (e : stop St V E) : option V := match e with Yield v _ => Some v | _ => None end.
Definition exc (e : stop St V E) : option E := match e with Throw_ x => Some x | _ => None end.
Definition keeps a s s' : Prop := forall g, a g = Some Busy -> gens s' g = gens s g.

Definition go_ok (goes : nat -> St -> M store unit) (runs : St -> agens -> option (stop St V E * agens)) : Prop :=
  forall st a e a' s g h, runs st a = Some (e, a') -> R s a -> a g = Some Busy -> gens s g = Some (Some h) ->
  exists s' f, goes h st s = Ok tt s' /\ R s' (setm a' g (Some (rest e))) /\ keeps a s s' /\
    frames s' h = Some f /\ m_val f = val e /\ m_exception f = exc e.

Lemma rest_not_empty (e : stop St V E) : rest e <> Empty.
Proof. destruct e; discriminate. Qed.

(** The store in which a suspended coroutine runs on. *)
Lemma R_running s a g h f st : R s a -> a g = Some (Rest st) -> gens s g = Some (Some h) -> frames s h = Some f ->
  fits (Rest st) f ->
  R (mkStore (setm (setm (frames s) h (Some (mkFrame (body f) (state f) None (m_exception f)))) h (Some (mkFrame (body f) Running (@None V) (m_exception f))))
                    (fresh s) (gens s)) (setm a g (Some Busy)).
Proof.
  intros HR A G F X. cbn in X. destruct X as (X1 & X2 & X3). subst st.
  set (f1 := mkFrame (body f) Running (@None V) (m_exception f)).
    destruct (R_put s a g h f1 Busy HR G) as (P & I & Fr & O); [congruence|discriminate|cbn; auto|].
    cbn [frames fresh gens] in P, I, Fr, O.
    assert (EQ : forall k, setm (setm (frames s) h (Some (mkFrame (body f) (state f) None (m_exception f)))) h (Some f1) k
       = setm (frames s) h (Some f1) k) by (intros k; unfold setm; now destruct (k =? h)).
    repeat apply conj; cbn [frames fresh gens]; auto.
    - intros g'. specialize (P g'). destruct (setm a g (Some Busy) g') as [[]|]; auto;
        destruct P as (h' & f' & P1 & P2 & P3); exists h', f'; rewrite EQ; auto.
    - intros k L. rewrite EQ. auto.
    - intros k f' Z. rewrite EQ in Z. eauto.
Qed.

(** A suspended coroutine is resumed. *)
Lemma resume_ok goes runs s a g h st e b' : go_ok goes runs -> R s a -> a g = Some (Rest st) -> gens s g = Some (Some h) ->
  runs st (setm a g (Some Busy)) = Some (e, b') ->
  exists s2 f2, safe_resume goes h s = Ok (exc e) s2 /\ R s2 (setm b' g (Some (rest e))) /\ keeps a s s2 /\
    gens s2 g = Some (Some h) /\ frames s2 h = Some f2 /\ m_val f2 = val e /\ fits (rest e) f2.
Proof.
  intros GO HR A G Q. destruct (at_some _ _ _ _ HR A) as (h0 & f & G0 & F & X); [congruence|].
  assert (h0 = h) by congruence. subst h0. clear G0. cbn in X. destruct X as (X1 & X2 & X3). subst st.
  pose proof (R_running s a g h f (body f) HR A G F (conj X1 (conj eq_refl X3))) as R1.
  set (f1 := mkFrame (body f) Running (@None V) (m_exception f)) in *.
  destruct (GO _ _ _ _ _ g h Q R1 (setm_eq _ _ _) G) as (s2 & f2 & E2 & R2 & K2 & F2 & V2 & X2').
  assert (G2 : gens s2 g = Some (Some h)) by (rewrite K2 by apply setm_eq; exact G).
  assert (RUN : safe_resume goes h s = Ok (exc e) s2).
  { unfold safe_resume, resume, bind, get_frame, put_frame. rewrite F. cbn [frames]. rewrite setm_eq.
    cbn [state body m_val m_exception fresh gens]. rewrite X1. fold f1. rewrite X1 in E2.
    cbn [frames fresh gens].
    rewrite E2. rewrite F2, X2'. reflexivity. }
  assert (KK : keeps a s s2).
  { intros g' B. apply K2. rewrite setm_neq by congruence. exact B. }
  assert (FI : fits (rest e) f2).
  { destruct (at_some _ _ g (rest e) R2 (setm_eq _ _ _) (rest_not_empty e)) as (h' & f' & Q1 & Q2 & Q3).
    assert (h' = h) by congruence. subst h'. assert (f' = f2) by congruence. now subst. }
  exists s2, f2. split; [exact RUN|]. split; [exact R2|]. split; [exact KK|]. auto.
Qed.

Lemma call_ok goes runs o a x a' s :
  (forall st b e b', runs st b = Some (e, b') -> stays b b') -> go_ok goes runs ->
  acall_with runs o a = Some (x, a') -> R s a ->
  exists s', call_with moved goes o s = Ok x s' /\ R s' a' /\ keeps a s s'.
Proof.
  intros K GO H HR. destruct o; cbn [acall_with] in H.
  - destruct (a g) eqn:A; [discriminate|]. injection H as <- <-. pose proof (at_none _ _ _ HR A) as G.
    eexists. split; [|split; [now apply (R_create s a g st)|]].
    + cbn [call_with]. unfold bind, create, ret. now rewrite G.
    + intros g' B. cbn [gens]. rewrite setm_neq; congruence.
  - destruct (a g) eqn:A; [discriminate|]. destruct (a from) as [y|] eqn:A'; [|discriminate].
    destruct (free y) eqn:Y; [|discriminate]. injection H as <- <-.
    pose proof (at_none _ _ _ HR A) as G. destruct (at_any _ _ _ _ HR A') as (h & G').
    eexists. split; [|split; [apply (R_move s a g from y h); auto; congruence|]].
    + cbn [call_with]. unfold bind, move_ctor, bind, get_gen, put_gen, ret. now rewrite G, G'.
    + intros g' B. cbn [gens]. rewrite setm_neq by congruence. rewrite setm_neq; [auto|].
      intros ->. rewrite A' in B. injection B as ->. discriminate.
  - destruct (a g) as [z|] eqn:A; [|discriminate]. destruct (a from) as [y|] eqn:A'; [|discriminate].
    destruct (free z) eqn:Z; [|discriminate]. destruct (free y) eqn:Y; [|discriminate].
    destruct (Nat.eqb_spec g from) as [|N]; [discriminate|]. injection H as <- <-.
    destruct (destroy_ok _ _ _ _ HR A Z) as (old & s1 & G & D & G1 & _ & X).
    specialize (X (Some None) (Some Empty) (or_intror (conj eq_refl eq_refl))).
    destruct (at_any _ _ _ _ HR A') as (h & G').
    pose proof (R_move _ _ g from y h X) as Q. rewrite setm_eq in Q. rewrite setm_neq in Q by auto.
    cbn [frames fresh gens] in Q. rewrite setm_neq in Q by auto. rewrite G1 in Q.
    specialize (Q (or_intror eq_refl) N A' G').
    eexists (mkStore (frames s1) (fresh s1) (setm (setm (gens s) from (Some None)) g (Some h))). split; [|split].
    + cbn [call_with]. unfold bind, move_assign, bind, get_gen at 1. rewrite G. rewrite D. unfold get_gen, put_gen, ret.
      rewrite G1, G'. cbn [frames fresh gens]. now rewrite G1.
    + destruct Q as (P & I & F & O). assert (EQ : forall g', setm (setm (setm (gens s) g (Some None)) from (Some None)) g (Some h) g'
        = setm (setm (gens s) from (Some None)) g (Some h) g').
      { intros g'. unfold setm. now destruct (g' =? g), (g' =? from). }
      cbn [frames fresh gens] in P, I, F, O. repeat apply conj; cbn [frames fresh gens]; auto.
      * intros g'. specialize (P g'). rewrite EQ in P.
        assert (EA : setm (setm (setm a g (Some Empty)) from (Some Empty)) g (Some y) g' = setm (setm a from (Some Empty)) g (Some y) g').
        { unfold setm. now destruct (g' =? g), (g' =? from). }
        rewrite EA in P. exact P.
      * intros g1 g2 h'. rewrite <- !EQ. apply I.
      * intros h' f' Z'. destruct (O h' f' Z') as (g' & Q'). exists g'. now rewrite <- EQ.
    + intros g' B. cbn [gens]. rewrite setm_neq by (intros ->; rewrite A in B; injection B as ->; discriminate).
      rewrite setm_neq; [auto|]. intros ->. rewrite A' in B. injection B as ->. discriminate.
  - destruct (a g) as [z|] eqn:A; [|discriminate]. destruct (free z) eqn:Z; [|discriminate]. injection H as <- <-.
    destruct (destroy_ok _ _ _ _ HR A Z) as (old & s1 & G & D & G1 & _ & X).
    eexists. split; [|split; [apply (X None None); auto|]].
    + cbn [call_with]. unfold bind, destroy, bind, get_gen. rewrite G, D. reflexivity.
    + intros g' B. cbn [gens]. rewrite G1. rewrite setm_neq; [auto|].
      intros ->. rewrite A in B. injection B as ->. discriminate.
  - destruct (a g) as [z|] eqn:A; [|discriminate]. destruct (free z) eqn:Z; [|discriminate]. injection H as <- <-.
    destruct (destroy_ok _ _ _ _ HR A Z) as (old & s1 & G & D & G1 & _ & X).
    eexists. split; [|split; [apply (X (Some None) (Some Empty)); auto|]].
    + cbn [call_with]. unfold bind, reset, bind, get_gen. rewrite G, D. reflexivity.
    + intros g' B. cbn [gens]. rewrite G1. rewrite setm_neq; [auto|].
      intros ->. rewrite A in B. injection B as ->. discriminate.
  - exists s. cbn [call_with]. unfold bind, get_gen, ret.
    destruct (a g) as [z|] eqn:A; [|discriminate]. destruct z.
    + injection H as <- <-. rewrite (at_empty _ _ _ HR A). repeat split; auto. all: apply HR || (intros ? ?; auto).
    + injection H as <- <-. destruct (at_some _ _ _ _ HR A) as (h & f & -> & _); [congruence|]. repeat split; auto; apply HR.
    + injection H as <- <-. destruct (at_some _ _ _ _ HR A) as (h & f & -> & _); [congruence|]. repeat split; auto; apply HR.
    + injection H as <- <-. destruct (at_some _ _ _ _ HR A) as (h & f & -> & _); [congruence|]. repeat split; auto; apply HR.
  - exists s. cbn [call_with]. unfold handle, handle_done, bind, get_gen, get_frame, ret.
    destruct (a g) as [[]|] eqn:A; try discriminate; injection H as <- <-;
      (destruct (at_some _ _ _ _ HR A) as (h & f & -> & F & X); [congruence|]); cbn in X; rewrite F.
    + destruct X as (-> & _). split; [reflexivity|]. split; [exact HR|]. now intros ? ?.
    + rewrite X. split; [reflexivity|]. split; [exact HR|]. now intros ? ?.
  - destruct (a g) as [[|st| |]|] eqn:A; try discriminate.
    + destruct (runs st (setm a g (Some Busy))) as [(e, b')|] eqn:Q; [|discriminate]. injection H as <- <-.
      destruct (at_some _ _ _ _ HR A) as (h & f & G & F & X); [congruence|]. cbn in X. destruct X as (X1 & X2 & X3). subst st.
      destruct (resume_ok goes runs s a g h (body f) e b' GO HR A G Q) as (s2 & f2 & RUN & R2 & KK & G2 & F2 & V2 & FI).
      cbn [call_with]. unfold next. unfold handle at 1, handle_done, bind at 1 2 3 4, get_gen at 1, get_frame at 1.
      rewrite G. cbn [ret]. unfold ret at 1. rewrite F, X1. unfold ret at 1. unfold bind at 1. rewrite RUN.
      destruct (exc e) as [e'|] eqn:EX.
      * destruct e; try discriminate EX. injection EX as ->. exists s2. cbn [answer]. auto.
      * assert (AN : answer e = Value (val e)) by (destruct e; auto; discriminate EX). rewrite AN.
        unfold handle, bind, get_gen, get_frame, put_frame, ret. rewrite G2, F2, V2. eexists. split; [reflexivity|]. split.
        -- apply (R_ext _ (setm (setm b' g (Some (rest e))) g (Some (rest e)))).
           { intros g'. unfold setm. now destruct (g' =? g). }
           rewrite <- V2. apply R_put; auto; [congruence|apply rest_not_empty|]. destruct e; cbn in FI |- *; auto.
        -- exact KK.
    + injection H as <- <-. destruct (at_some _ _ _ _ HR A) as (h & f & G & F & X); [congruence|]. cbn in X.
      exists s. cbn [call_with]. unfold next, handle, handle_done, bind, get_gen, get_frame, ret. rewrite G, F, X.
      split; [reflexivity|]. split; [exact HR|]. now intros ? ?.
Qed.

Lemma go_is_ok n : go_ok (go run moved n) (ago run n).
Proof.
  induction n as [|n IH]; intros st a e a' s g h H HR B G; [discriminate|].
  destruct (at_some _ _ _ _ HR B) as (h0 & f & G0 & F & X); [discriminate|].
  assert (h0 = h) by congruence. subst h0. clear G0. cbn in X. destruct X as (X1 & X2 & X3).
  cbn [ago] in H. cbn [go]. destruct (run st) as [v st'| |e'|o k] eqn:RN.
  - injection H as <- <-. unfold bind, get_frame, put_frame. rewrite F. eexists _, _. split; [reflexivity|split; [|split; [|split; [|split]]]].
    + apply R_put; auto; [congruence|discriminate|]. cbn. now rewrite X3.
    + now intros ? ?.
    + cbn [frames]. apply setm_eq.
    + reflexivity.
    + exact X3.
  - injection H as <- <-. unfold bind, get_frame, put_frame. rewrite F. eexists _, _. split; [reflexivity|split; [|split; [|split; [|split]]]].
    + apply R_put; auto; [congruence|discriminate|]. now cbn.
    + now intros ? ?.
    + cbn [frames]. apply setm_eq.
    + exact X2.
    + exact X3.
  - injection H as <- <-. unfold bind, get_frame, put_frame. rewrite F. eexists _, _. split; [reflexivity|split; [|split; [|split; [|split]]]].
    + apply R_put; auto; [congruence|discriminate|]. now cbn.
    + now intros ? ?.
    + cbn [frames]. apply setm_eq.
    + exact X2.
    + reflexivity.
  - destruct (acall_with (ago run n) o a) as [(x, b)|] eqn:Q; [|discriminate].
    destruct (call_ok _ _ _ _ _ _ s (ago_stays n) IH Q HR) as (s1 & C1 & R1 & K1).
    pose proof (acall_stays _ _ _ _ _ (ago_stays n) Q) as ST.
    destruct (IH _ _ _ _ s1 g h H R1 (ST _ B)) as (s2 & f2 & C2 & R2 & K2 & Z); [now rewrite K1|].
    exists s2, f2. unfold bind. rewrite C1. split; [exact C2|]. split; [exact R2|]. split; [|exact Z].
    intros g' B'. rewrite K2 by (now apply ST). now apply K1.
Qed.

Lemma calls_ok fuel os : forall a xs a' s, acalls run fuel os a = Some (xs, a') -> R s a ->
  exists s', calls run moved fuel os s = Ok xs s' /\ R s' a'.
Proof.
  induction os as [|o os IH]; intros a xs a' s H HR; cbn [acalls] in H.
  - injection H as <- <-. exists s. auto.
  - destruct (acall run fuel o a) as [(x, b)|] eqn:Q; [|discriminate].
    destruct (acalls run fuel os b) as [(ys, c)|] eqn:Q'; [|discriminate]. injection H as <- <-.
    destruct (call_ok _ _ _ _ _ _ s (ago_stays fuel) (go_is_ok fuel) Q HR) as (s1 & C1 & R1 & _).
    destruct (IH _ _ _ _ Q' R1) as (s2 & C2 & R2). exists s2. split; [|exact R2].
    cbn [calls]. unfold bind, call. rewrite C1, C2. reflexivity.
Qed.
Lemma R_init : R init ainit.
Proof. repeat apply conj; cbn; congruence. Qed.

(** More steps change nothing. *)
Lemma acall_more (r1 r2 : St -> agens -> option (stop St V E * agens)) o a x :
  (forall st b y, r1 st b = Some y -> r2 st b = Some y) -> acall_with r1 o a = Some x -> acall_with r2 o a = Some x.
Proof.
  intros K H. destruct o; cbn [acall_with] in *; auto. destruct (a g) as [[|st| |]|]; auto.
  destruct (r1 st (setm a g (Some Busy))) as [(e, b)|] eqn:Q; [|discriminate]. now rewrite (K _ _ _ Q).
Qed.
Lemma ago_more n : forall m st a (x : stop St V E * agens), n <= m -> ago run n st a = Some x -> ago run m st a = Some x.
Proof.
  induction n as [|n IH]; intros [|m] st a x L H; try discriminate; try lia. cbn [ago] in *.
  destruct (run st); auto. destruct (acall_with (ago run n) o a) as [(y, b)|] eqn:Q; [|discriminate].
  rewrite (acall_more _ (ago run m) _ _ _ (fun st b y => IH m st b y (le_S_n _ _ L)) Q). apply IH; [lia|exact H].
Qed.
Lemma acalls_more n m os : n <= m -> forall a x, acalls run n os a = Some x -> acalls run m os a = Some x.
Proof.
  intros L. induction os as [|o os IH]; intros a x H; cbn [acalls] in *; auto.
  destruct (acall run n o a) as [(y, b)|] eqn:Q; [|discriminate].
  unfold acall in *. rewrite (acall_more _ (ago run m) _ _ _ (fun st b y => ago_more n m st b y L) Q).
  destruct (acalls run n os b) as [(ys, c)|] eqn:Q'; [|discriminate]. now rewrite (IH _ _ Q').
Qed.

(** What a body may not do to its own generator. *)
Lemma busy_ub goes s a g o : R s a -> a g = Some Busy ->
  o = Next g \/ o = IsDone g \/ o = Clear g \/ o = Destroy g \/ (exists from, o = MoveAssign g from) ->
  call_with moved goes o s = UB.
Proof.
  intros HR B H. destruct (at_some _ _ _ _ HR B) as (h & f & G & F & X & _); [discriminate|].
  destruct H as [->|[->|[->|[->|(from & ->)]]]]; cbn [call_with];
    unfold next, reset, destroy, move_assign, handle, destroy_handle, destroy_frame, handle_done, bind, get_gen, get_frame, ret;
    rewrite G; cbn; rewrite F, X; reflexivity.
Qed.

(** A body moves its own generator away and yields. *)
Lemma moved_away_ub s a g g' st k v st' fuel : R s a -> a g = Some (Rest st) -> a g' = None ->
  run st = Calls (MoveCtor g' g) k -> run (k Nothing) = Yields v st' ->
  call run moved (S (S fuel)) (Next g) s = UB.
Proof.
  intros HR A A' C Y. destruct (at_some _ _ _ _ HR A) as (h & f & G & F & X1 & X2 & X3); [discriminate|].
  pose proof (at_none _ _ _ HR A') as G'. subst st.
  unfold call, call_with, next, handle, handle_done, safe_resume, resume, bind, get_gen, get_frame, put_frame, ret.
  repeat first [rewrite G | rewrite F | rewrite X1 | rewrite setm_eq | progress cbn [frames fresh gens state body m_val m_exception]].
  remember (S fuel) as n. cbn [go]. rewrite C. cbn [call_with]. unfold move_ctor, bind, get_gen, put_gen, ret.
  cbn [frames fresh gens]. rewrite G', G. subst n. cbn [go]. rewrite Y. unfold bind, get_frame, put_frame.
  repeat first [rewrite setm_eq | rewrite X3 | rewrite setm_neq by congruence | progress cbn [frames fresh gens state body m_val m_exception]].
  reflexivity.
Qed.

(** A body puts another generator in the place of its own and yields: next() answers what is in the promise of the
    other one. *)
Lemma replaced s a g g' o st k k' v st' ho fo fuel : R s a -> a g = Some (Rest st) -> a g' = None ->
  gens s o = Some (Some ho) -> frames s ho = Some fo -> o <> g ->
  run st = Calls (MoveCtor g' g) k -> run (k Nothing) = Calls (MoveAssign g o) k' -> run (k' Nothing) = Yields v st' ->
  exists s', call run moved (S (S (S fuel))) (Next g) s = Ok (Value (m_val fo)) s' /\ gens s' g = Some (Some ho).
Proof.
  intros HR A A' Go Fo N C C' Y. destruct (at_some _ _ _ _ HR A) as (h & f & G & F & X1 & X2 & X3); [discriminate|].
  pose proof (at_none _ _ _ HR A') as G'. subst st.
  assert (NH : ho <> h). { intros ->. apply N. destruct HR as (_ & I & _). eapply I; eauto. }
  assert (g <> g') by congruence. assert (o <> g') by congruence.
  unfold call, call_with, next, handle, handle_done, safe_resume, resume, bind, get_gen, get_frame, put_frame, ret.
  repeat first [rewrite G | rewrite F | rewrite X1 | rewrite setm_eq | progress cbn [frames fresh gens state body m_val m_exception]].
  remember (S (S fuel)) as n. cbn [go]. rewrite C. cbn [call_with]. unfold move_ctor, bind, get_gen, put_gen, ret.
  cbn [frames fresh gens]. rewrite G', G. subst n. remember (S fuel) as n. cbn [go]. rewrite C'.
  cbn [call_with]. unfold move_assign, bind, get_gen, put_gen, ret.
  cbn [frames fresh gens]. rewrite setm_neq by congruence. rewrite setm_eq. cbn [destroy_handle]. unfold ret. cbn [frames fresh gens].
  rewrite setm_neq by congruence. rewrite setm_neq by congruence. rewrite Go. subst n. cbn [go].
  rewrite Y. unfold bind, get_frame, put_frame. cbn [frames fresh gens].
  repeat first [rewrite setm_eq | rewrite X3 | rewrite setm_neq by congruence | progress cbn [frames fresh gens state body m_val m_exception]].
  rewrite Fo. eexists. split; [reflexivity|]. cbn [gens]. apply setm_eq.
Qed.

(** range-for: the loop when the coroutine has just been resumed and stopped so. *)
Lemma loop_ok fuel g h n : forall e a s f, exc e = None -> R s a -> a g = Some (rest e) -> gens s g = Some (Some h) ->
  frames s h = Some f -> m_val f = val e ->
  match e with
  | Yield v _ => forall vs x a', draw run fuel n g a = Some (vs, x, a') ->
      exists s', loop run moved fuel (S n) (Some h) s = Ok (v :: vs, x) s' /\ R s' a'
  | _ => loop run moved fuel (S n) (Some h) s = Ok ([], None) s
  end.
Proof.
  induction n as [|n IH]; intros e a s f X HR A G F V0;
    (destruct (at_some _ _ _ _ HR A (rest_not_empty e)) as (h0 & f0 & G0 & F0 & FI);
     assert (h0 = h) by congruence; subst h0; assert (f0 = f) by congruence; subst f0; clear G0 F0).
  - destruct e as [v st| |]; [intros vs x a' H; discriminate H| |discriminate X]. cbn in FI.
    cbn [loop]. unfold at_end, the_handle, handle_done, bind, get_frame, ret. now rewrite F, FI.
  - destruct e as [v st| |]; [|cbn in FI; cbn [loop]; unfold at_end, the_handle, handle_done, bind, get_frame, ret;
      now rewrite F, FI|discriminate X].
    intros vs x a' H. cbn [rest] in A. cbn [rest fits] in FI. destruct FI as (X1 & _). cbn [val] in V0.
    cbn [draw] in H. unfold acall in H. cbn [acall_with] in H. rewrite A in H.
    destruct (ago run fuel st (setm a g (Some Busy))) as [(e, b)|] eqn:Q; [|discriminate].
    destruct (resume_ok _ _ s a g h st e b (go_is_ok fuel) HR A G Q) as (s2 & f2 & RUN & R2 & _ & G2 & F2 & V2 & _).
    assert (STEP : loop run moved fuel (S (S n)) (Some h) s =
      match exc e with
      | Some y => Ok ([v], Some y) s2
      | None => (let* r := loop run moved fuel (S n) (Some h) in ret (v :: fst r, snd r)) s2
      end).
    { remember (S n) as m. cbn [loop]. unfold at_end, deref, advance, the_handle, handle_done.
      unfold bind at 1 2 3, ret at 1, get_frame at 1. rewrite F, X1. unfold ret at 1.
      unfold bind at 1 2 3, ret at 1, get_frame at 1. rewrite F, V0. unfold ret at 1.
      unfold bind at 1 2, ret at 1. rewrite RUN. destruct (exc e); reflexivity. }
    rewrite STEP. pose proof (IH e (setm b g (Some (rest e))) s2 f2) as Z.
    destruct e as [v' st'| |y]; cbn [exc answer rest] in *.
    + destruct (draw run fuel n g (setm b g (Some (Rest st')))) as [[(vs', x') c]|] eqn:D; [|discriminate].
      injection H as <- <- <-.
      destruct (Z eq_refl R2 (setm_eq _ _ _) G2 F2 V2 vs' x' c eq_refl) as (s' & L & R').
      exists s'. unfold bind. rewrite L. split; [reflexivity|exact R'].
    + injection H as <- <- <-. exists s2. unfold bind. rewrite (Z eq_refl R2 (setm_eq _ _ _) G2 F2 V2).
      split; [reflexivity|exact R2].
    + injection H as <- <- <-. exists s2. split; [reflexivity|exact R2].
Qed.
Lemma range_ok fuel n g s a st vs x a' : R s a -> a g = Some (Rest st) -> draw run fuel n g a = Some (vs, x, a') ->
  exists s', range_for run moved fuel n g s = Ok (vs, x) s' /\ R s' a'.
Proof.
  intros HR A H. destruct n as [|n]; [discriminate|]. cbn [draw] in H. unfold acall in H. cbn [acall_with] in H.
  rewrite A in H. destruct (at_some _ _ _ _ HR A) as (h & f & G & _); [discriminate|].
  destruct (ago run fuel st (setm a g (Some Busy))) as [(e, b)|] eqn:Q; [|discriminate].
  destruct (resume_ok _ _ s a g h st e b (go_is_ok fuel) HR A G Q) as (s2 & f2 & RUN & R2 & _ & G2 & F2 & V2 & _).
  assert (STEP : range_for run moved fuel (S n) g s =
    match exc e with Some y => Ok ([], Some y) s2 | None => loop run moved fuel (S n) (Some h) s2 end).
  { unfold range_for, begin, handle. unfold bind at 1 2 3, get_gen at 1. rewrite G. unfold ret at 1. unfold bind at 1.
    rewrite RUN. destruct (exc e); [reflexivity|]. unfold bind, get_gen. rewrite G2. reflexivity. }
  rewrite STEP. pose proof (loop_ok fuel g h n e (setm b g (Some (rest e))) s2 f2) as Z.
  destruct e as [v' st'| |y]; cbn [exc answer rest] in *.
  - destruct (draw run fuel n g (setm b g (Some (Rest st')))) as [[(vs', x') c]|] eqn:D; [|discriminate].
    injection H as <- <- <-. exact (Z eq_refl R2 (setm_eq _ _ _) G2 F2 V2 vs' x' c eq_refl).
  - injection H as <- <- <-. exists s2. split; [exact (Z eq_refl R2 (setm_eq _ _ _) G2 F2 V2)|exact R2].
  - injection H as <- <- <-. exists s2. split; [reflexivity|exact R2].
Qed.

(** A body moves its own generator away and yields, resumed by an iterator. *)
Lemma moved_away_advance s a g g' h st k v st' fuel : R s a -> a g = Some (Rest st) -> a g' = None ->
  gens s g = Some (Some h) -> run st = Calls (MoveCtor g' g) k -> run (k Nothing) = Yields v st' ->
  exists s', advance run moved (S (S fuel)) (Some h) s = Ok None s' /\
    R s' (setm (setm a g (Some Empty)) g' (Some (Rest st'))) /\ gens s' g' = Some (Some h) /\
    at_end (Some h) s' = Ok false s' /\ deref (Some h) s' = Ok v s'.
Proof.
  intros HR A A' G C Y. destruct (at_some _ _ _ _ HR A) as (h0 & f & G0 & F & X1 & X2 & X3); [discriminate|].
  assert (h0 = h) by congruence. subst h0. clear G0.
  pose proof (at_none _ _ _ HR A') as G'. subst st. assert (g <> g') by congruence.
  set (f1 := mkFrame st' Suspended (Some v) (@None E)).
  set (s1 := mkStore (setm (frames s) h (Some f1)) (fresh s) (gens s)).
  assert (R1 : R s1 (setm a g (Some (Rest st')))).
  { apply R_put; auto; [congruence|discriminate|]. now cbn. }
  pose proof (R_move s1 _ g' g (Rest st') (Some h) R1) as R2.
  rewrite (setm_neq _ _ g') in R2 by auto. specialize (R2 (or_introl A') (not_eq_sym H) (setm_eq _ _ _) G).
  exists (mkStore (setm (setm (setm (frames s) h (Some (mkFrame (body f) (state f) None (m_exception f)))) h
            (Some (mkFrame (body f) Running None (m_exception f)))) h (Some (mkFrame st' Suspended (Some v) (m_exception f))))
          (fresh s) (setm (setm (gens s) g (Some None)) g' (Some (Some h)))).
  split.
  { unfold advance, the_handle, safe_resume, resume, bind, get_gen, get_frame, put_frame, ret.
    repeat first [rewrite G | rewrite F | rewrite X1 | rewrite setm_eq | progress cbn [frames fresh gens state body m_val m_exception]].
    remember (S fuel) as n. cbn [go]. rewrite C. cbn [call_with]. unfold move_ctor, bind, get_gen, put_gen, ret.
    cbn [frames fresh gens]. rewrite G', G. subst n. cbn [go]. rewrite Y. unfold bind, get_frame, put_frame.
    repeat first [rewrite setm_eq | progress cbn [frames fresh gens state body m_val m_exception]]. now rewrite X3. }
  split.
  { apply (R_ext _ (setm (setm (setm a g (Some (Rest st'))) g (Some Empty)) g' (Some (Rest st')))).
    { intros j. unfold setm. now destruct (j =? g'), (j =? g). }
    assert (EQ : forall j, setm (setm (setm (frames s) h (Some (mkFrame (body f) (state f) None (m_exception f)))) h
            (Some (mkFrame (body f) Running None (m_exception f)))) h (Some (mkFrame st' Suspended (Some v) (m_exception f))) j
          = frames s1 j).
    { intros j. unfold s1, f1, setm. cbn [frames]. rewrite X3. now destruct (j =? h). }
    destruct R2 as (P & I & Fr & O). repeat apply conj; cbn [frames fresh gens] in *; auto.
    - intros j. specialize (P j). destruct (setm (setm (setm a g (Some (Rest st'))) g (Some Empty)) g' (Some (Rest st')) j) as [[]|]; auto;
        destruct P as (hh & ff & P1 & P2 & P3); exists hh, ff; rewrite EQ; auto.
    - intros j L. rewrite EQ. auto.
    - intros j ff Z. rewrite EQ in Z. eauto. }
  split; [cbn [gens]; apply setm_eq|].
  unfold at_end, deref, the_handle, handle_done, bind, ret, get_frame. cbn [frames]. rewrite setm_eq. split; reflexivity.
Qed.
(** The same, resumed by begin(): the iterator which comes out is null. *)
Lemma moved_away_begin s a g g' st k v st' fuel : R s a -> a g = Some (Rest st) -> a g' = None ->
  run st = Calls (MoveCtor g' g) k -> run (k Nothing) = Yields v st' ->
  forall n, range_for run moved (S (S fuel)) (S n) g s = UB.
Proof.
  intros HR A A' C Y n. destruct (at_some _ _ _ _ HR A) as (h & f & G & F & X1 & X2 & X3); [discriminate|].
  pose proof (at_none _ _ _ HR A') as G'. subst st.
  unfold range_for, begin, handle, safe_resume, resume, bind, get_gen, get_frame, put_frame, ret.
  repeat first [rewrite G | rewrite F | rewrite X1 | rewrite setm_eq | progress cbn [frames fresh gens state body m_val m_exception]].
  remember (S fuel) as m. cbn [go]. rewrite C. cbn [call_with]. unfold move_ctor, bind, get_gen, put_gen, ret.
  cbn [frames fresh gens]. rewrite G', G. subst m. cbn [go]. rewrite Y. unfold bind, get_frame, put_frame.
  repeat first [rewrite setm_eq | rewrite X3 | rewrite setm_neq by congruence | progress cbn [frames fresh gens state body m_val m_exception]].
  reflexivity.
Qed.

(** Undefined calls. *)
Lemma call_bad goes (bd : St -> agens -> bool) o a s :
  (forall st b s0 g h, bd st b = true -> R s0 b -> b g = Some Busy -> gens s0 g = Some (Some h) -> goes h st s0 = UB) ->
  bad_with bd o a = true -> R s a -> call_with moved goes o s = UB.
Proof.
  intros K H HR. destruct o; cbn [bad_with] in H.
  - destruct (a g) eqn:A; [|discriminate]. destruct (at_any _ _ _ _ HR A) as (h & G).
    cbn [call_with]. unfold bind, create. now rewrite G.
  - cbn [call_with]. unfold bind, move_ctor. destruct (a g) eqn:A.
    + destruct (at_any _ _ _ _ HR A) as (h & G). now rewrite G.
    + rewrite (at_none _ _ _ HR A). destruct (a from) eqn:A'; [discriminate|]. unfold bind, get_gen.
      now rewrite (at_none _ _ _ HR A').
  - cbn [call_with]. unfold bind at 1, move_assign. destruct (a g) as [y|] eqn:A.
    + destruct (free y) eqn:Y.
      * destruct (a from) eqn:A'; [discriminate|].
        destruct (destroy_ok _ _ _ _ HR A Y) as (old & s1 & G & D & G1 & _).
        unfold bind, get_gen. rewrite G, D, G1. now rewrite (at_none _ _ _ HR A').
      * destruct y; try discriminate Y. pose proof (busy_ub goes s a g (MoveAssign g from) HR A) as Q.
        cbn [call_with] in Q. unfold bind at 1, move_assign in Q. apply Q. eauto 6.
    + unfold bind, get_gen. now rewrite (at_none _ _ _ HR A).
  - destruct (a g) as [y|] eqn:A.
    + destruct y; try discriminate H. apply (busy_ub goes s a g); auto.
    + cbn [call_with]. unfold bind, destroy, bind, get_gen. now rewrite (at_none _ _ _ HR A).
  - destruct (a g) as [y|] eqn:A.
    + destruct y; try discriminate H. apply (busy_ub goes s a g); auto.
    + cbn [call_with]. unfold bind, reset, bind, get_gen. now rewrite (at_none _ _ _ HR A).
  - destruct (a g) as [y|] eqn:A; [discriminate|]. cbn [call_with]. unfold bind, get_gen. now rewrite (at_none _ _ _ HR A).
  - destruct (a g) as [[]|] eqn:A; try discriminate H.
    + cbn [call_with]. unfold handle, bind, get_gen. now rewrite (at_empty _ _ _ HR A).
    + apply (busy_ub goes s a g); auto.
    + cbn [call_with]. unfold handle, bind, get_gen. now rewrite (at_none _ _ _ HR A).
  - destruct (a g) as [[|st| |]|] eqn:A; try discriminate H.
    + cbn [call_with]. unfold next, handle, bind, get_gen. now rewrite (at_empty _ _ _ HR A).
    + destruct (at_some _ _ _ _ HR A) as (h & f & G & F & X); [discriminate|].
      pose proof (R_running s a g h f st HR A G F X) as R1. pose proof (K _ _ _ g h H R1 (setm_eq _ _ _) G) as Q.
      cbn in X. destruct X as (X1 & X2 & X3). subst st.
      cbn [call_with]. unfold next, handle, handle_done, safe_resume, resume, bind, get_gen, get_frame, put_frame, ret.
      rewrite X1 in Q.
      repeat first [rewrite G | rewrite F | rewrite X1 | rewrite setm_eq | progress cbn [frames fresh gens state body m_val m_exception]].
      now rewrite Q.
    + apply (busy_ub goes s a g); auto.
    + cbn [call_with]. unfold next, handle, bind, get_gen. now rewrite (at_none _ _ _ HR A).
Qed.
Lemma go_bad n : forall st a s g h, bad_body run n st a = true -> R s a -> a g = Some Busy -> gens s g = Some (Some h) ->
  go run moved n h st s = UB.
Proof.
  induction n as [|n IH]; intros st a s g h H HR B G; [discriminate|]. cbn [bad_body] in H. cbn [go].
  destruct (run st) as [v st'| |e'|o k]; try discriminate H. apply orb_prop in H. destruct H as [H|H].
  - unfold bind. now rewrite (call_bad (go run moved n) (bad_body run n) o a s IH H HR).
  - destruct (acall_with (ago run n) o a) as [(x, b)|] eqn:Q; [|discriminate].
    destruct (call_ok _ _ _ _ _ _ s (ago_stays n) (go_is_ok n) Q HR) as (s1 & C1 & R1 & K1).
    unfold bind. rewrite C1. apply (IH (k x) b s1 g h H R1); [exact (acall_stays _ _ _ _ _ (ago_stays n) Q g B)|].
    now rewrite K1.
Qed.
Lemma calls_app fuel pre o : forall s xs s1, calls run moved fuel pre s = Ok xs s1 -> call run moved fuel o s1 = UB ->
  forall post, calls run moved fuel (pre ++ o :: post) s = UB.
Proof.
  induction pre as [|p pre IH]; intros s xs s1 H U post; cbn [calls app] in *.
  - injection H as <- <-. unfold bind. now rewrite U.
  - unfold bind in H |- *. destruct (call run moved fuel p s) as [x s2| | |]; try discriminate H.
    destruct (calls run moved fuel pre s2) as [ys s3| | |] eqn:Q; try discriminate H. injection H as <- <-.
    now rewrite (IH _ _ _ Q U post).
Qed.

Lemma resume_bad goes s a g h x : R s a -> a g = Some x -> x = Busy \/ x = Done -> gens s g = Some (Some h) ->
  safe_resume goes h s = UB.
Proof.
  intros HR A X G. destruct (at_some _ _ _ _ HR A) as (h0 & f & G0 & F & FI); [destruct X; congruence|].
  assert (h0 = h) by congruence. subst h0.
  unfold safe_resume, resume, bind, get_frame, put_frame. rewrite F. cbn [frames]. rewrite setm_eq. cbn [state].
  destruct X as [-> | ->]; cbn in FI; [destruct FI as (-> & _)|rewrite FI]; reflexivity.
Qed.
End Proofs.
