(** Proofs about strong_try_rec_mutex. *)
From Coq Require Import ZArith List Bool Lia.
From Verif Require Import Base ConcModel ConcSpec ConcProofs MutexModel MutexSpec.
Import ListNotations.
Open Scope Z_scope.

Section MutexProofs.
Variable dmax : Z.
Hypothesis Hdmax : 0 < dmax.

Notation lent := (nat * mcall * option bool)%type.

Lemma held_app t L M : held t (L ++ M) = held t L + held t M.
Proof. unfold held. induction L as [|p L IH]; simpl in *; [reflexivity|]. rewrite IH. lia. Qed.
Lemma held_one t c r : held t [(t, c, r)] = one c r.
Proof. unfold held; simpl. rewrite Nat.eqb_refl. lia. Qed.
Lemma held_other t u c r : u <> t -> held t [(u, c, r)] = 0.
Proof. intros H. unfold held; simpl. now rewrite (proj2 (Nat.eqb_neq _ _)). Qed.
Lemma held_balance t (L : list lent) : held t L = balance (of_thread t (lin3 L)).
Proof.
  unfold held, balance, of_thread, lin3. induction L as [|[[u c] r] L IH]; simpl; [reflexivity|].
  destruct (u =? t)%nat; simpl; now rewrite IH.
Qed.

(** What owner and depth mean. *)
Definition means (o : option nat) (d : Z) (L : list lent) : Prop :=
  match o with
  | None => d = 0 /\ forall u, held u L = 0
  | Some t => 0 < d /\ held t L = d /\ forall u, u <> t -> held u L = 0
  end.

(** A thread inside m_mutex changes the owner only if there is none or it is the owner. *)
Definition leaves (t : nat) (o0 o : option nat) : Prop := forall u, u <> t -> o0 = Some u -> o = Some u.

(** Where a thread is: its call, and, when it is inside m_mutex, the values of the members now
    and when it entered. *)
Definition mgh : Type := lst mcall (option bool) * option (option nat * Z * option nat * Z).

Definition pend_ok (t : nat) (l : lst mcall (option bool)) (L : list lent) : Prop :=
  match l with
  | LPend CTry => held t L < dmax
  | LPend CUnlock => 0 < held t L
  | _ => True
  end.
Definition idle_ok (g : mgh) : Prop := fst g = LFree -> snd g = None.

Definition mI (s : mst) (G : nat -> mgh) (L : list lent) : Prop :=
  (forall t, snd (G t) <> None -> inner s = Some t) /\
  match inner s with
  | None => means (owner s) (depth s) L
  | Some t => exists o0 d0, snd (G t) = Some (owner s, depth s, o0, d0) /\ means o0 d0 L /\ leaves t o0 (owner s)
  end /\
  rec_mutex L /\ forall t, pend_ok t (fst (G t)) L /\ idle_ok (G t).

Notation msafeP := (safeP mgh fst mI (fun _ => False)).
Notation msafe := (safe mrview mgh fst mI (fun _ => False)).

Lemma mI_inner s G L t x : mI s G L -> snd (G t) = Some x -> inner s = Some t.
Proof. intros (A & _) E. apply A. congruence. Qed.

Lemma mI_vals s G L t o d o0 d0 : mI s G L -> snd (G t) = Some (o, d, o0, d0) ->
  s = Mst (Some t) o d /\ means o0 d0 L /\ leaves t o0 o.
Proof.
  intros HI E. pose proof (mI_inner _ _ _ _ _ HI E) as Ei. destruct HI as (_ & B & _).
  rewrite Ei in B. destruct B as (o1 & d1 & E1 & Hm). rewrite E in E1. injection E1 as -> -> <- <-.
  split; [destruct s; simpl in *; congruence|exact Hm].
Qed.

(** A step of the thread inside, which changes the members only. *)
Lemma inside_step s G L t l o d o0 d0 o' d' :
  mI s G L -> G t = (l, Some (o, d, o0, d0)) -> o' = o \/ leaves t o0 o' ->
  mI (Mst (Some t) o' d') (setm G t (l, Some (o', d', o0, d0))) L.
Proof.
  intros HI E Ho. destruct (mI_vals s G L t o d o0 d0 HI) as [-> [Hm Hl]]; [now rewrite E|].
  destruct HI as (A & _ & C & D). split; [|split; [|split; [exact C|]]].
  - intros u. destruct (Nat.eq_dec u t) as [->|Hn]; [reflexivity|]. rewrite setm_neq by auto. apply A.
  - simpl. exists o0, d0. rewrite setm_eq. split; [reflexivity|]. split; [exact Hm|].
    destruct Ho as [->|Ho]; [exact Hl|exact Ho].
  - intros u. destruct (Nat.eq_dec u t) as [->|Hn].
    + rewrite setm_eq. specialize (D t). rewrite E in D. split; [apply D|].
      intros H. destruct D as [_ D]. specialize (D H). discriminate.
    + rewrite setm_neq by auto. apply D.
Qed.

Lemma holds_self t o d : holds t (Mst (Some t) o d) = true.
Proof. unfold holds; simpl. apply Nat.eqb_refl. Qed.

Lemma safe_get_owner t l o d o0 d0 (Q : _ -> mgh -> Prop) :
  Q o (l, Some (o, d, o0, d0)) -> msafeP t (l, Some (o, d, o0, d0)) (get_owner t) Q.
Proof.
  intros HQ. unfold get_owner. cbn [safeP]. intros _ s G L HI E.
  destruct (mI_vals s G L t o d o0 d0 HI) as [-> Hm]; [now rewrite E|]. rewrite holds_self.
  exists (l, Some (o, d, o0, d0)), L. split; [apply ef_none|]. split; [|exact HQ].
  eapply inside_step; eauto.
Qed.
Lemma safe_get_depth t l o d o0 d0 (Q : _ -> mgh -> Prop) :
  Q d (l, Some (o, d, o0, d0)) -> msafeP t (l, Some (o, d, o0, d0)) (get_depth t) Q.
Proof.
  intros HQ. unfold get_depth. cbn [safeP]. intros _ s G L HI E.
  destruct (mI_vals s G L t o d o0 d0 HI) as [-> Hm]; [now rewrite E|]. rewrite holds_self.
  exists (l, Some (o, d, o0, d0)), L. split; [apply ef_none|]. split; [|exact HQ].
  eapply inside_step; eauto.
Qed.
Lemma safe_set_owner t l o d o0 d0 o' (Q : _ -> mgh -> Prop) :
  o0 = None \/ o0 = Some t ->
  Q tt (l, Some (o', d, o0, d0)) -> msafeP t (l, Some (o, d, o0, d0)) (set_owner t o') Q.
Proof.
  intros Ho HQ. unfold set_owner. cbn [safeP]. intros _ s G L HI E.
  destruct (mI_vals s G L t o d o0 d0 HI) as [-> Hm]; [now rewrite E|]. rewrite holds_self.
  exists (l, Some (o', d, o0, d0)), L. split; [apply ef_none|]. split; [|exact HQ].
  eapply inside_step; eauto. right. intros u Hu Eu. destruct Ho as [->| ->]; congruence.
Qed.
Lemma safe_set_depth t l o d o0 d0 d' (Q : _ -> mgh -> Prop) :
  Q tt (l, Some (o, d', o0, d0)) -> msafeP t (l, Some (o, d, o0, d0)) (set_depth t d') Q.
Proof.
  intros HQ. unfold set_depth. cbn [safeP]. intros _ s G L HI E.
  destruct (mI_vals s G L t o d o0 d0 HI) as [-> Hm]; [now rewrite E|]. rewrite holds_self.
  exists (l, Some (o, d', o0, d0)), L. split; [apply ef_none|]. split; [|exact HQ].
  eapply inside_step; eauto.
Qed.
Lemma safe_inc_depth t l o d o0 d0 (Q : _ -> mgh -> Prop) :
  d < dmax ->
  Q tt (l, Some (o, d + 1, o0, d0)) -> msafeP t (l, Some (o, d, o0, d0)) (inc_depth dmax t) Q.
Proof.
  intros Hd HQ. apply safeP_bind, safe_get_depth. rewrite (proj2 (Z.ltb_lt _ _) Hd).
  now apply safe_set_depth.
Qed.
Lemma safe_dec_depth t l o d o0 d0 (Q : _ -> mgh -> Prop) :
  0 < d ->
  Q tt (l, Some (o, d - 1, o0, d0)) -> msafeP t (l, Some (o, d, o0, d0)) (dec_depth dmax t) Q.
Proof.
  intros Hd HQ. apply safeP_bind, safe_get_depth.
  rewrite (proj2 (Z.ltb_lt _ _)) by lia. now apply safe_set_depth.
Qed.

(** Entering: what is found agrees with the calls made so far, and the call may be made. *)
Lemma safe_m_lock t c (Q : _ -> mgh -> Prop) :
  (forall o d, (match c with
                | CTry => forall k, o = Some k -> k = t -> d < dmax
                | CUnlock => o = Some t /\ 0 < d
                end) -> (o = None -> d = 0) ->
    Q tt (LPend c, Some (o, d, o, d))) ->
  msafeP t (LPend c, None) (m_lock t) Q.
Proof.
  intros HQ. unfold m_lock. cbn [safeP]. intros _ s G L HI E.
  destruct (inner s) as [u|] eqn:Ei; [exact Logic.I|].
  exists (LPend c, Some (owner s, depth s, owner s, depth s)), L. split; [apply ef_none|].
  pose proof HI as (A & B & C & D). rewrite Ei in B. split.
  - split; [|split; [|split; [exact C|]]].
    + intros u. destruct (Nat.eq_dec u t) as [->|Hn]; [reflexivity|]. rewrite setm_neq by auto.
      intros H. apply A in H. congruence.
    + simpl. exists (owner s), (depth s). rewrite setm_eq. split; [reflexivity|]. split; [exact B|]. now intros u _.
    + intros u. destruct (Nat.eq_dec u t) as [->|Hn].
      * rewrite setm_eq. specialize (D t). rewrite E in D. split; [apply D|]. discriminate.
      * rewrite setm_neq by auto. apply D.
  - cbn [safeP]. specialize (D t). rewrite E in D. destruct D as [D _]. apply HQ.
    + destruct c; cbn [fst pend_ok] in D.
      * intros k Ek ->. rewrite Ek in B. destruct B as (_ & B & _). lia.
      * destruct (owner s) as [k|].
        -- destruct B as (B0 & B1 & B2). destruct (Nat.eq_dec k t) as [->|Hn]; [now split|].
           specialize (B2 t (not_eq_sym Hn)). lia.
        -- destruct B as [_ B]. specialize (B t). lia.
    + intros Eo. rewrite Eo in B. apply B.
Qed.

(** Leaving: the call takes effect here. *)
Lemma safe_m_unlock t c o d o0 d0 r (Q : _ -> mgh -> Prop) :
  (forall L, rec_mutex L -> pend_ok t (LPend c) L -> means o0 d0 L ->
     rec_mutex (L ++ [(t, c, r)]) /\ means o d (L ++ [(t, c, r)])) ->
  Q tt (LDone c r, None) ->
  msafeP t (LPend c, Some (o, d, o0, d0)) (m_unlock t) Q.
Proof.
  intros HL HQ. unfold m_unlock. cbn [safeP]. intros _ s G L HI E.
  destruct (mI_vals s G L t o d o0 d0 HI) as [-> [Hm _]]; [now rewrite E|]. rewrite holds_self.
  destruct HI as (A & _ & C & D). pose proof (proj1 (D t)) as Dt. rewrite E in Dt.
  destruct (HL L C Dt Hm) as [HL1 HL2].
  exists (LDone c r, None), (L ++ [(t, c, r)]). split; [now apply ef_lin|]. split; [|exact HQ].
  split; [|split; [exact HL2|split; [exact HL1|]]].
  - intros u. destruct (Nat.eq_dec u t) as [->|Hn].
    + rewrite setm_eq. simpl. congruence.
    + rewrite setm_neq by auto. intros H. apply A in H. simpl in H. congruence.
  - intros u. destruct (Nat.eq_dec u t) as [->|Hn].
    + rewrite setm_eq. split; [exact Logic.I|intros H; discriminate].
    + rewrite setm_neq by auto. specialize (D u). unfold pend_ok in *.
      rewrite held_app, (held_other u t) by auto. now rewrite Z.add_0_r.
Qed.

Lemma returns_m t c r : returns mrview mgh fst mI t r (LDone c r, None).
Proof.
  intros s G L HI Hg. split; [exists c; reflexivity|]. exists (LFree, None). split; [reflexivity|].
  destruct HI as (A & B & C & D). split; [|split; [|split; [exact C|]]].
  - intros u. destruct (Nat.eq_dec u t) as [->|Hn].
    + rewrite setm_eq. simpl. congruence.
    + rewrite setm_neq by auto. apply A.
  - destruct (inner s) as [u|]; [|exact B]. destruct B as (o0 & d0 & E & Hm).
    exists o0, d0. destruct (Nat.eq_dec u t) as [->|Hn].
    + rewrite Hg in E. discriminate.
    + rewrite setm_neq by auto. now split.
  - intros u. destruct (Nat.eq_dec u t) as [->|Hn].
    + rewrite setm_eq. split; [exact Logic.I|intros _; reflexivity].
    + rewrite setm_neq by auto. apply D.
Qed.

Lemma rec_mutex_snoc L t c r : rec_mutex L ->
  match c with
  | CTry => exists b, r = Some b /\ (b = true <-> forall u, u <> t -> held u L = 0)
  | CUnlock => r = None /\ 0 < held t L
  end -> rec_mutex (L ++ [(t, c, r)]).
Proof.
  intros H Hc L1 u k q L2 E. destruct L2 as [|e L2 _] using rev_ind.
  - apply app_inj_tail in E as [<- [= <- <- <-]]. exact Hc.
  - rewrite app_comm_cons, app_assoc in E. apply app_inj_tail in E as [E _]. now apply (H L1 u k q L2).
Qed.

Ltac nth t u := destruct (Nat.eq_dec t u) as [?|?]; [subst|].

Lemma safe_try t : msafe t (LPend CTry, None) (try_lock dmax t).
Proof.
  unfold safe, try_lock. apply safeP_bind, safe_m_lock. intros o d Hpre H0.
  apply safeP_bind, safe_get_owner. destruct o as [k|].
  - apply safeP_bind, safe_get_owner. unfold is_thread. destruct (k =? t)%nat eqn:Ek; cbn [negb].
    + apply Nat.eqb_eq in Ek. subst k.
      apply safeP_bind, safe_inc_depth; [apply (Hpre t); reflexivity|].
      apply safeP_bind, safe_m_unlock with (r := Some true).
      * intros L HL Hp (M0 & M1 & M2). split.
        -- apply rec_mutex_snoc; auto. exists true. split; [reflexivity|]. split; auto.
        -- split; [lia|]. split.
           ++ rewrite held_app, held_one. simpl. lia.
           ++ intros u Hu. rewrite held_app, held_other by auto. rewrite (M2 u Hu). reflexivity.
      * cbn [safeP]. apply returns_m.
    + apply Nat.eqb_neq in Ek.
      apply safeP_bind, safe_m_unlock with (r := Some false).
      * intros L HL Hp (M0 & M1 & M2). split.
        -- apply rec_mutex_snoc; auto. exists false. split; [reflexivity|]. split; [discriminate|].
           intros H. specialize (H k Ek). lia.
        -- split; [exact M0|]. split.
           ++ rewrite held_app, held_other by auto. lia.
           ++ intros u Hu. rewrite held_app. rewrite (M2 u Hu). nth t u.
              ** rewrite held_one. reflexivity.
              ** rewrite held_other by auto. reflexivity.
      * cbn [safeP]. apply returns_m.
  - specialize (H0 eq_refl). subst d.
    apply safeP_bind, safe_get_depth. cbn [assert_that Z.eqb cbind].
    apply safeP_bind, safe_set_owner; [now left|]. apply safeP_bind, safe_inc_depth; [exact Hdmax|].
    apply safeP_bind, safe_m_unlock with (r := Some true).
    + intros L HL Hp (M0 & M1). split.
      * apply rec_mutex_snoc; auto. exists true. split; [reflexivity|]. split; auto.
      * split; [lia|]. split.
        -- rewrite held_app, held_one, (M1 t). reflexivity.
        -- intros u Hu. rewrite held_app, held_other by auto. rewrite (M1 u). reflexivity.
    + cbn [safeP]. apply returns_m.
Qed.

Lemma safe_unlock t : msafe t (LPend CUnlock, None) (unlock dmax t).
Proof.
  unfold safe, unlock. apply safeP_bind, safe_m_lock. intros o d [-> Hd] _.
  apply safeP_bind, safe_get_owner. unfold is_thread. rewrite Nat.eqb_refl. cbn [assert_that cbind].
  apply safeP_bind, safe_get_depth. rewrite (proj2 (Z.ltb_lt _ _) Hd). cbn [assert_that cbind].
  apply safeP_bind, safe_dec_depth; [exact Hd|]. apply safeP_bind, safe_get_depth.
  apply safeP_bind. destruct (d - 1 =? 0) eqn:E1.
  - apply Z.eqb_eq in E1. apply safe_set_owner; [now right|]. apply safeP_bind, safe_m_unlock with (r := None).
    + intros L HL Hp (M0 & M1 & M2). split.
      * apply rec_mutex_snoc; auto.
      * split; [exact E1|]. intros u. rewrite held_app. nth t u.
        -- rewrite held_one. simpl. lia.
        -- rewrite held_other, M2 by auto. reflexivity.
    + cbn [safeP]. apply returns_m.
  - apply Z.eqb_neq in E1. cbn [safeP]. apply safeP_bind, safe_m_unlock with (r := None).
    + intros L HL Hp (M0 & M1 & M2). split.
      * apply rec_mutex_snoc; auto.
      * split; [lia|]. split.
        -- rewrite held_app, held_one. simpl. lia.
        -- intros u Hu. rewrite held_app, held_other, M2 by auto. reflexivity.
    + cbn [safeP]. apply returns_m.
Qed.

Notation mreach := (reach (mimpl dmax) mcview mrview (mallowed dmax) (start mst0)).

Lemma mreach_good c : mreach c -> good mrview mgh fst mI (fun _ => False) c.
Proof.
  apply (reach_good _ _ _ (mallowed dmax) mgh fst mI (fun _ => False)) with (G0 := fun _ => (LFree, None)).
  - intros s G L h t k HI Hf HC Ha. exists (LPend k, None). split; [reflexivity|].
    assert (pend_ok t (LPend k) L) as Hp.
    { unfold pend_ok. rewrite held_balance, <- HC. destruct k; exact Ha. }
    split.
    + destruct HI as (A & B & C & D). split; [|split; [|split; [exact C|]]].
      * intros u. destruct (Nat.eq_dec u t) as [->|Hn].
        -- rewrite setm_eq. simpl. congruence.
        -- rewrite setm_neq by auto. apply A.
      * destruct (inner s) as [u|]; [|exact B]. destruct B as (o0 & d0 & E & Hm).
        exists o0, d0. destruct (Nat.eq_dec u t) as [->|Hn].
        -- rewrite (proj2 (D t) Hf) in E. discriminate.
        -- rewrite setm_neq by auto. now split.
      * intros u. destruct (Nat.eq_dec u t) as [->|Hn].
        -- rewrite setm_eq. split; [exact Hp|intros H; discriminate].
        -- rewrite setm_neq by auto. apply D.
    + destruct k; [apply safe_try|apply safe_unlock].
  - split; [|split; [|split]].
    + simpl. congruence.
    + simpl. auto.
    + intros L1 t c0 r L2 E. destruct L1; discriminate.
    + intros t. split; [exact Logic.I|intros _; reflexivity].
  - reflexivity.
Qed.

Lemma mreach_lin c : mreach c -> linearizable rec_mutex (hist c).
Proof.
  intros H. destruct (mreach_good c H) as (x & G & E & Hr & HI & _). exists x.
  split; [exact E|]. split; [eauto|]. apply HI.
Qed.

Lemma mreach_not_bad c : mreach c -> ~ bad c.
Proof.
  intros H Hb. destruct (good_bad _ _ _ _ _ c (mreach_good c H) Hb) as (x & _ & _ & []).
Qed.

(** At any moment at most one thread holds it. *)
Lemma rec_mutex_one L : rec_mutex L -> (forall t, 0 <= held t L) /\
  forall t u, t <> u -> 0 < held t L -> held u L = 0.
Proof.
  induction L as [|[[t c] r] L IH] using rev_ind; intros H.
  - unfold held; simpl. split; intros; lia.
  - assert (rec_mutex L) as HL.
    { intros L1 u k q L2 ->. apply (H L1 u k q (L2 ++ [(t, c, r)])). now rewrite <- app_assoc. }
    destruct (IH HL) as [P Q]. specialize (H L t c r [] eq_refl).
    assert (forall u, held u (L ++ [(t, c, r)]) = held u L + if Nat.eq_dec t u then one c r else 0) as Hh.
    { intros u. rewrite held_app. destruct (Nat.eq_dec t u) as [->|Hn].
      - now rewrite held_one.
      - now rewrite held_other. }
    assert (one c r = 0 \/ (one c r = 1 /\ forall u, u <> t -> held u L = 0) \/
            (one c r = -1 /\ 0 < held t L)) as Hone.
    { destruct c.
      - destruct H as (b & -> & Hb). destruct b; simpl; [right; left; split; [reflexivity|now apply Hb]|now left].
      - destruct H as [-> H]. right; right. now split. }
    split.
    + intros u. rewrite Hh. specialize (P u). destruct (Nat.eq_dec t u) as [->|]; lia.
    + intros a b Hab. rewrite !Hh. specialize (Q a b Hab). pose proof (P a). pose proof (P b).
      destruct (Nat.eq_dec t a) as [e1|Ha], (Nat.eq_dec t b) as [e2|Hb]; try congruence; try lia;
        [subst a|subst b].
      * destruct Hone as [->|[[-> Hz]|[-> Hz]]]; intros; [rewrite Q; lia| |rewrite Q; lia].
        rewrite (Hz b) by auto. reflexivity.
      * destruct Hone as [->|[[-> Hz]|[-> Hz]]]; intros.
        -- rewrite Q by lia. reflexivity.
        -- specialize (Hz a (not_eq_sym Ha)). lia.
        -- lia.
Qed.

Lemma mreach_exclusion c t u : mreach c -> th c t = None -> th c u = None -> t <> u ->
  0 < balance (completed t (hist c)) -> balance (completed u (hist c)) = 0.
Proof.
  intros H Et Eu Hn Hp. destruct (mreach_good c H) as (x & G & E & Hr & HI & Ht).
  assert (forall v, th c v = None -> balance (completed v (hist c)) = held v (lins x)) as Hv.
  { intros v Ev. specialize (Ht v). rewrite Ev in Ht. pose proof (runs_tells _ _ _ (Hr v)) as Htl.
    rewrite Ht in Htl. destruct Htl as (_ & _ & C & _). rewrite E in C.
    rewrite held_balance, C. reflexivity. }
  rewrite Hv in * by assumption. apply (rec_mutex_one (lins x)) with t; auto. apply HI.
Qed.

Lemma mreach_depth c t : mreach c -> quiet c ->
  (0 < balance (completed t (hist c)) -> owner (sh c) = Some t /\ depth (sh c) = balance (completed t (hist c))) /\
  ((forall u, balance (completed u (hist c)) = 0) -> owner (sh c) = None /\ depth (sh c) = 0).
Proof.
  intros H Hq. destruct (mreach_good c H) as (x & G & E & Hr & HI & Ht).
  assert (forall v, balance (completed v (hist c)) = held v (lins x)) as Hv.
  { intros v. specialize (Ht v). rewrite (Hq v) in Ht. pose proof (runs_tells _ _ _ (Hr v)) as Htl.
    rewrite Ht in Htl. destruct Htl as (_ & _ & C & _). rewrite E in C.
    rewrite held_balance, C. reflexivity. }
  destruct HI as (A & B & C & D). assert (means (owner (sh c)) (depth (sh c)) (lins x)) as Hm.
  { destruct (inner (sh c)) as [v|]; [|exact B]. destruct B as (o0 & d0 & Ev & _).
    specialize (Ht v). rewrite (Hq v) in Ht. rewrite (proj2 (D v) Ht) in Ev. discriminate. }
  rewrite Hv. unfold means in Hm. destruct (owner (sh c)) as [v|].
  - destruct Hm as (M0 & M1 & M2). split.
    + intros Hp. destruct (Nat.eq_dec t v) as [->|Hn]; [now split|]. rewrite (M2 t Hn) in Hp. lia.
    + intros Ha. specialize (Ha v). rewrite Hv in Ha. lia.
  - destruct Hm as (M0 & M1). split.
    + rewrite M1. lia.
    + now split.
Qed.

(** The owner, when no call of it is under way. *)
Lemma mreach_owner c t : mreach c -> th c t = None ->
  0 < balance (completed t (hist c)) -> owner (sh c) = Some t.
Proof.
  intros H Et Hp. destruct (mreach_good c H) as (x & G & E & Hr & HI & Ht).
  specialize (Ht t). rewrite Et in Ht. pose proof (runs_tells _ _ _ (Hr t)) as Htl.
  rewrite Ht in Htl. destruct Htl as (_ & _ & C & _). rewrite E in C.
  assert (balance (completed t (hist c)) = held t (lins x)) as Hh by (rewrite held_balance, C; reflexivity).
  rewrite Hh in Hp. clear Hh. rename Hp into Hh.
  destruct HI as (A & B & _ & D).
  assert (forall o d, means o d (lins x) -> o = Some t) as Hm.
  { intros [v|] d M; [|destruct M as [_ M]; specialize (M t); lia].
    destruct M as (_ & _ & M). destruct (Nat.eq_dec t v) as [->|Hn]; [reflexivity|].
    specialize (M t Hn). lia. }
  destruct (inner (sh c)) as [v|] eqn:Ei; [|eapply Hm; exact B].
  destruct B as (o0 & d0 & Ev & M & Hl). destruct (Nat.eq_dec t v) as [->|Hn].
  - rewrite (proj2 (D v) Ht) in Ev. discriminate.
  - apply (Hl t Hn). eapply Hm. exact M.
Qed.

Lemma try_alone c t : mreach c -> quiet c -> balance (completed t (hist c)) < dmax ->
  exists s' b, crun (mimpl dmax t CTry) (sh c) = Some (s', Some b) /\
    (b = true <-> forall u, u <> t -> balance (completed u (hist c)) = 0).
Proof.
  intros H Hq Hb. destruct (mreach_good c H) as (x & G & E & Hr & HI & Ht).
  assert (forall v, balance (completed v (hist c)) = held v (lins x)) as Hv.
  { intros v. specialize (Ht v). rewrite (Hq v) in Ht. pose proof (runs_tells _ _ _ (Hr v)) as Htl.
    rewrite Ht in Htl. destruct Htl as (_ & _ & C & _). rewrite E in C.
    rewrite held_balance, C. reflexivity. }
  destruct HI as (A & B & C & D).
  destruct (inner (sh c)) as [v|] eqn:Ei.
  { destruct B as (o0 & d0 & Ev & _). specialize (Ht v). rewrite (Hq v) in Ht.
    rewrite (proj2 (D v) Ht) in Ev. discriminate. }
  rewrite Hv in Hb. destruct (sh c) as [i o d]. cbn [inner owner depth] in *. subst i.
  unfold mimpl, try_lock, m_lock, get_owner, get_depth, set_owner, inc_depth, get_depth, set_depth, m_unlock, assert_that.
  destruct o as [k|]; cbn [cbind crun inner owner depth]; rewrite holds_self; cbn [cbind crun].
  - rewrite holds_self. cbn [cbind crun is_thread owner]. destruct B as (B0 & B1 & B2).
    destruct (k =? t)%nat eqn:Ek; cbn [negb].
    + apply Nat.eqb_eq in Ek. subst k. cbn [cbind crun]. rewrite holds_self. cbn [cbind crun depth].
      rewrite (proj2 (Z.ltb_lt _ _)) by lia. cbn [cbind crun]. rewrite holds_self. cbn [cbind crun inner owner].
      rewrite holds_self. cbn [cbind crun].
      eexists _, true. split; [reflexivity|]. split; [|auto]. intros _ u Hu. rewrite Hv. auto.
    + apply Nat.eqb_neq in Ek. cbn [cbind crun]. rewrite holds_self. cbn [cbind crun].
      eexists _, false. split; [reflexivity|]. split; [discriminate|].
      intros Hz. specialize (Hz k Ek). rewrite Hv in Hz. lia.
  - destruct B as [-> B]. rewrite holds_self. cbn [cbind crun depth Z.eqb]. rewrite holds_self.
    cbn [cbind crun inner depth]. rewrite holds_self. cbn [cbind crun depth].
    rewrite (proj2 (Z.ltb_lt _ _) Hdmax). cbn [cbind crun]. rewrite holds_self. cbn [cbind crun inner owner].
    rewrite holds_self. cbn [cbind crun].
    eexists _, true. split; [reflexivity|]. split; [|auto]. intros _ u Hu. rewrite Hv. apply B.
Qed.
End MutexProofs.

(** Locking again and again. *)
Definition tries (n : nat) : list (event mcall (option bool)) :=
  concat (repeat [EInv 0%nat CTry; ERes 0%nat (Some true)] n).
Lemma tries_snoc n : tries (S n) = tries n ++ [EInv 0%nat CTry; ERes 0%nat (Some true)].
Proof.
  unfold tries. induction n as [|n IH]; [reflexivity|].
  change (repeat ?x (S (S n))) with (x :: repeat x (S n)). cbn [concat]. rewrite IH at 1. reflexivity.
Qed.
Lemma completed_tries n rest : completed 0 (tries n ++ rest) = repeat (CTry, Some true) n ++ completed 0 rest.
Proof.
  unfold completed, tries. induction n as [|n IH]; [reflexivity|]. simpl in *. now rewrite IH.
Qed.
Lemma balance_repeat n : balance (repeat (CTry, Some true) n) = Z.of_nat n.
Proof.
  unfold balance. induction n as [|n IH]; [reflexivity|].
  change (repeat ?x (S n)) with (x :: repeat x n). cbn [fold_right]. rewrite IH. cbn [one fst snd]. lia.
Qed.

Lemma tries_reach dmax n : 0 < dmax -> Z.of_nat n <= dmax ->
  exists T, (forall t, T t = None) /\
    reach (mimpl dmax) mcview mrview (mallowed (dmax + 1)) (start mst0)
      (Cfg (if (n =? 0)%nat then mst0 else Mst None (Some 0%nat) (Z.of_nat n)) T (tries n)).
Proof.
  intros Hd. induction n as [|n IH]; intros Hn.
  - exists (fun _ => None). split; [reflexivity|apply r_refl].
  - destruct IH as (T & HT & HR); [lia|].
    destruct (run_alone (mimpl dmax) mcview mrview (mallowed (dmax + 1)) 0%nat CTry
      (if (n =? 0)%nat then mst0 else Mst None (Some 0%nat) (Z.of_nat n)) T (tries n)
      (Mst None (Some 0%nat) (Z.of_nat (S n))) (Some true) (HT 0%nat)) as (T' & H1 & H2).
    + cbn [mallowed]. pose proof (completed_tries n []) as Hc. rewrite !app_nil_r in Hc.
      rewrite Hc, balance_repeat. lia.
    + destruct n as [|n].
      * cbn. rewrite (proj2 (Z.ltb_lt 0 dmax)) by lia. reflexivity.
      * unfold mimpl, try_lock, m_lock, get_owner, get_depth, set_owner, inc_depth, get_depth, set_depth, m_unlock.
        cbn [Nat.eqb cbind crun inner owner depth holds is_thread negb].
        rewrite (proj2 (Z.ltb_lt _ dmax)) by lia.
        cbn [Nat.eqb cbind crun inner owner depth holds]. repeat f_equal. lia.
    + exists T'. split; [intros t; rewrite H1; apply HT|].
      eapply reach_trans; [exact HR|]. rewrite tries_snoc. exact H2.
Qed.

Lemma depth_overflow dmax : 0 < dmax ->
  exists c, reach (mimpl dmax) mcview mrview (mallowed (dmax + 1)) (start mst0) c /\
    balance (completed 0%nat (hist c)) = dmax /\ bad c.
Proof.
  intros Hd. destruct (tries_reach dmax (Z.to_nat dmax) Hd) as (T & HT & HR); [lia|].
  assert (completed 0%nat (tries (Z.to_nat dmax)) = repeat (CTry, Some true) (Z.to_nat dmax)) as Hc.
  { pose proof (completed_tries (Z.to_nat dmax) []) as Hc. now rewrite !app_nil_r in Hc. }
  assert ((Z.to_nat dmax =? 0)%nat = false) as Hz by (apply Nat.eqb_neq; lia).
  rewrite Hz in HR. rewrite Z2Nat.id in HR by lia.
  eexists. split; [|split].
  - eapply r_step. eapply r_step. eapply r_step. eapply r_step. eapply r_step. exact HR.
    + apply (s_inv _ _ _ _ _ _ _ 0%nat CTry); [apply HT|]. cbn [mallowed].
      rewrite Hc, balance_repeat. lia.
    + eapply (s_act _ _ _ _ _ _ _ 0%nat _ 0%nat); [apply setm_eq|reflexivity].
    + eapply (s_act _ _ _ _ _ _ _ 0%nat _ 0%nat); [apply setm_eq|reflexivity].
    + eapply (s_act _ _ _ _ _ _ _ 0%nat _ 0%nat); [apply setm_eq|reflexivity].
    + eapply (s_act _ _ _ _ _ _ _ 0%nat _ 0%nat); [apply setm_eq|reflexivity].
  - cbn [hist]. rewrite completed_tries. cbn. rewrite app_nil_r, balance_repeat. lia.
  - exists 0%nat. cbn [th depth]. rewrite setm_eq. cbn [cbind]. rewrite Z.ltb_irrefl.
    eexists _, 0%nat. split; [reflexivity|]. reflexivity.
Qed.
