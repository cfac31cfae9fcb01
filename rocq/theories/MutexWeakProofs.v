(** Proofs about strong_try_rec_mutex and the data it guards. *)
From Coq Require Import ZArith List Bool Lia.
From Verif Require Import Base ConcModel ConcSpec ConcProofs WmModel WmProofs MutexModel MutexSpec MutexProofs
  MutexWeakModel MutexWeakSpec.
Import ListNotations.
Open Scope nat_scope.

(** * Happens-before *)

(** All accesses of a log are known. *)
Definition below (K : clock) (l : list access) : Prop := forall a, In a l -> atime a <= K (athr a).

Lemma below_le (K K' : clock) l : below K l -> (forall u, K u <= K' u) -> below K' l.
Proof. intros H Hle a Ha. specialize (H a Ha). specialize (Hle (athr a)). lia. Qed.
Lemma below_may t w clk l : below (clk t) l -> may t w clk l = true.
Proof.
  intros H. apply forallb_forall. intros a Ha. unfold ordered. apply orb_true_iff. right.
  apply Nat.leb_le. now apply H.
Qed.
Lemma tick_le t clk v u : clk v u <= tick t clk v u.
Proof.
  unfold tick. destruct (Nat.eq_dec v t) as [->|Hn].
  - rewrite setm_eq. destruct (Nat.eq_dec u t) as [->|Hu]; [rewrite setm_eq; lia|now rewrite setm_neq].
  - now rewrite setm_neq.
Qed.
Lemma below_tick t clk v l : below (clk v) l -> below (tick t clk v) l.
Proof. intros H. eapply below_le; [exact H|]. intros u. apply tick_le. Qed.
Lemma below_note t w clk l : below (clk t) l -> below (tick t clk t) (note t w clk l).
Proof.
  intros H a Ha. apply in_app_iff in Ha as [Ha|[<-|[]]].
  - exact (below_tick t clk t l H a Ha).
  - cbn. unfold tick. now rewrite !setm_eq.
Qed.

(** What the thread inside m_mutex knows, or the next one will. *)
Definition inside (w : hst) : clock :=
  match hinner w with Some t => hclk w t | None => hrel w end.
(** What the owner of the mutex knows, or the next one will. *)
Definition owning (w : hst) : clock :=
  match howner w with Some t => hclk w t | None => inside w end.

Definition rel (w : hst) (s : mst) : Prop :=
  hinner w = inner s /\ howner w = owner s /\ hdepth w = depth s /\
  below (inside w) (olog w) /\ below (inside w) (dlog w) /\ below (owning w) (ulog w).

(** What a thread knows of m_owner, when it is inside. *)
Definition view (t : nat) (s : mst) : option (option nat) :=
  if holds t s then Some (owner s) else None.

Section Mutex.
Variable dmax : Z.
Hypothesis Hdmax : (0 < dmax)%Z.

(** The code of a thread which knows [h] of the owner. *)
Fixpoint sim {A B} (Q : A -> B -> option (option nat) -> Prop) (t : nat) (h : option (option nat))
    (cw : wcode hst A) (c : code mst B) : Prop :=
  match cw with
  | WRet r => exists q, c = Ret q /\ Q r q h
  | WAct aw =>
      match c with
      | Ret _ => False
      | Act a => forall n w s, rel w s -> view t s = h ->
          (exists k, a k s = Bad) \/
          match aw n w with
          | WNext w' cw' => exists k s' c', a k s = Next s' c' /\ rel w' s' /\ hdata w' = hdata w /\
              (forall u, u <> t -> view u s' = view u s) /\ sim Q t (view t s') cw' c'
          | WStay w' => w' = w
          | WBad => False
          end
      end
  end.

Fixpoint sim_bind {A B C D} Q Q' t h (cw : wcode hst A) (c : code mst B) (fw : A -> wcode hst C)
    (f : B -> code mst D) {struct cw} :
  sim Q t h cw c -> (forall r q h', Q r q h' -> sim Q' t h' (fw r) (f q)) ->
  sim Q' t h (wbind cw fw) (cbind c f).
Proof.
  destruct cw as [r|aw]; cbn [sim wbind].
  - intros (q & -> & HQ) H. apply H, HQ.
  - destruct c as [r|a]; [easy|]. cbn [cbind sim]. intros H1 H2 n w s HR Hh.
    specialize (H1 n w s HR Hh).
    destruct H1 as [(k & Hk)|H1]; [left; exists k; now rewrite Hk|right].
    destruct (aw n w) as [w' cw'|w'|]; [|exact H1|exact H1].
    destruct H1 as (k & s' & c' & Hk & R' & Hd & Ho & HS).
    exists k, s', (cbind c' f). rewrite Hk. repeat (split; [now auto|]).
    exact (sim_bind A B C D Q Q' t (view t s') cw' c' fw f HS H2).
Qed.

Fixpoint sim_weaken {A B} (Q Q' : A -> B -> option (option nat) -> Prop) t h cw c
    (HQ : forall r q h, Q r q h -> Q' r q h) {struct cw} : sim Q t h cw c -> sim Q' t h cw c.
Proof.
  destruct cw as [r|aw]; cbn [sim].
  - intros (q & -> & H). eauto.
  - destruct c as [r|a]; [easy|]. intros H1 n w s HR Hh. destruct (H1 n w s HR Hh) as [HB|K]; [now left|right].
    destruct (aw n w) as [w' cw'|w'|]; [|exact K|exact K].
    destruct K as (k & s' & c' & Hk & R' & Hd & Ho & HS). exists k, s', c'. repeat (split; [assumption|]).
    exact (sim_weaken A B Q Q' t (view t s') cw' c' HQ HS).
Qed.

Lemma view_some t s o : view t s = Some o -> inner s = Some t /\ owner s = o.
Proof.
  unfold view, holds. destruct (inner s) as [u|]; [|easy]. destruct (u =? t) eqn:E; [|easy].
  apply Nat.eqb_eq in E. subst u. now intros [= <-].
Qed.
Lemma view_inner t u o d : u <> t -> view u (Mst (Some t) o d) = None.
Proof. intros H. unfold view, holds. cbn. now rewrite (proj2 (Nat.eqb_neq _ _) (not_eq_sym H)). Qed.
Lemma view_self t o d : view t (Mst (Some t) o d) = Some o.
Proof. unfold view, holds. cbn. now rewrite Nat.eqb_refl. Qed.

(** The thread inside is up to date. *)
Lemma rel_inside w s t : rel w s -> inner s = Some t ->
  inside w = hclk w t /\ owning w = match howner w with Some k => hclk w k | None => hclk w t end.
Proof.
  intros (E1 & _) Ei. unfold inside, owning, inside. rewrite E1, Ei. now destruct (howner w).
Qed.

Lemma sim_lock t : sim (fun _ _ h => exists o, h = Some o) t None (h_lock t) (m_lock t).
Proof.
  intros n w s HR Hh. right. destruct HR as (E1 & E2 & E3 & H1 & H2 & H3). cbn beta.
  rewrite E1. destruct (inner s) as [u|] eqn:Ei; [reflexivity|].
  exists 0, (Mst (Some t) (owner s) (depth s)), (Ret tt). split; [reflexivity|].
  assert (Hin : inside w = hrel w) by (unfold inside; now rewrite E1).
  assert (Hle : forall u, inside w u <= cjoin (hclk w t) (hrel w) u).
  { intros u. rewrite Hin. unfold cjoin. lia. }
  split; [|split; [reflexivity|split; [|cbn; eexists; split; [reflexivity|]; rewrite view_self; eauto]]].
  - unfold rel, inside, owning. cbn. rewrite setm_eq. repeat (split; [assumption||reflexivity|]).
    split; [eapply below_le; eauto|]. split; [eapply below_le; eauto|].
    destruct (howner w) as [k|] eqn:Ek; unfold owning in H3; rewrite Ek in H3.
    + destruct (Nat.eq_dec k t) as [->|Hn]; [rewrite setm_eq|now rewrite setm_neq].
      eapply below_le; [exact H3|]. intros u. unfold cjoin. lia.
    + eapply below_le; eauto.
  - intros u Hu. rewrite view_inner by exact Hu. unfold view, holds. now rewrite Ei.
Qed.

Lemma sim_unlock t o : sim (fun _ _ h => h = None) t (Some o) (h_unlock t) (m_unlock t).
Proof.
  intros n w s HR Hh. right. pose proof HR as (E1 & E2 & E3 & H1 & H2 & H3). cbn beta.
  apply view_some in Hh as [Ei Eo]. destruct (rel_inside w s t HR Ei) as [Hin How].
  unfold is_thread. rewrite E1, Ei, Nat.eqb_refl.
  exists 0, (Mst None (owner s) (depth s)), (Ret tt). split; [cbn beta; unfold holds; now rewrite Ei, Nat.eqb_refl|].
  split; [|split; [reflexivity|split; [|cbn; eexists; split; reflexivity]]].
  - unfold rel, inside, owning. cbn. rewrite Hin in H1, H2. rewrite How in H3. now repeat (split; [assumption||reflexivity|]).
  - intros u Hu. unfold view, holds. cbn. rewrite Ei. now rewrite (proj2 (Nat.eqb_neq _ _) (not_eq_sym Hu)).
Qed.

Lemma sim_get_owner t o : sim (fun r q h => r = o /\ q = o /\ h = Some o) t (Some o) (h_get_owner t) (get_owner t).
Proof.
  intros n w s HR Hh. right. pose proof HR as (E1 & E2 & E3 & H1 & H2 & H3). cbn beta.
  apply view_some in Hh as [Ei Eo]. destruct (rel_inside w s _ HR Ei) as [Hin How]. rewrite Hin in H1, H2. rewrite How in H3.
  rewrite below_may by assumption. exists 0, s, (Ret o). 
  split; [cbn beta; unfold holds; now rewrite Ei, Nat.eqb_refl, Eo|]. split; [|split; [reflexivity|split; [reflexivity|]]].
  - unfold rel, inside, owning, inside. cbn. rewrite E1, Ei. repeat (split; [assumption||reflexivity|]).
    split; [now apply below_note|]. split; [now apply below_tick|].
    destruct (howner w); apply (below_tick t); exact H3.
  - cbn. exists o. split; [reflexivity|]. split; [congruence|]. split; [reflexivity|].
    unfold view, holds. rewrite Ei, Nat.eqb_refl. congruence.
Qed.

Lemma sim_get_depth t o : sim (fun r q h => r = q /\ h = Some o) t (Some o) (h_get_depth t) (get_depth t).
Proof.
  intros n w s HR Hh. right. pose proof HR as (E1 & E2 & E3 & H1 & H2 & H3). cbn beta.
  apply view_some in Hh as [Ei Eo]. destruct (rel_inside w s _ HR Ei) as [Hin How]. rewrite Hin in H1, H2. rewrite How in H3.
  rewrite below_may by assumption. exists 0, s, (Ret (depth s)). 
  split; [cbn beta; unfold holds; now rewrite Ei, Nat.eqb_refl|]. split; [|split; [reflexivity|split; [reflexivity|]]].
  - unfold rel, inside, owning, inside. cbn. rewrite E1, Ei. repeat (split; [assumption||reflexivity|]).
    split; [now apply below_tick|]. split; [now apply below_note|].
    destruct (howner w); apply (below_tick t); exact H3.
  - cbn. eexists. split; [reflexivity|]. split; [congruence|].
    unfold view, holds. rewrite Ei, Nat.eqb_refl. congruence.
Qed.

Lemma sim_set_depth t o d : sim (fun _ _ h => h = Some o) t (Some o) (h_set_depth t d) (set_depth t d).
Proof.
  intros n w s HR Hh. right. pose proof HR as (E1 & E2 & E3 & H1 & H2 & H3). cbn beta.
  apply view_some in Hh as [Ei Eo]. destruct (rel_inside w s _ HR Ei) as [Hin How]. rewrite Hin in H1, H2. rewrite How in H3.
  rewrite below_may by assumption. exists 0, (Mst (Some t) (owner s) d), (Ret tt). 
  split; [cbn beta; unfold holds; now rewrite Ei, Nat.eqb_refl|]. split; [|split; [reflexivity|split]].
  - unfold rel, inside, owning, inside. cbn. rewrite E1, Ei. repeat (split; [assumption||reflexivity|]).
    split; [now apply below_tick|]. split; [now apply below_note|].
    destruct (howner w); apply (below_tick t); exact H3.
  - intros u Hu. rewrite view_inner by exact Hu. unfold view, holds. rewrite Ei.
    now rewrite (proj2 (Nat.eqb_neq _ _) (not_eq_sym Hu)).
  - cbn. eexists. split; [reflexivity|]. now rewrite view_self, Eo.
Qed.

Lemma sim_set_owner t o o' : o = None \/ o = Some t -> o' = None \/ o' = Some t ->
  sim (fun _ _ h => h = Some o') t (Some o) (h_set_owner t o') (set_owner t o').
Proof.
  intros Ho Ho' n w s HR Hh. right. pose proof HR as (E1 & E2 & E3 & H1 & H2 & H3). cbn beta.
  apply view_some in Hh as [Ei Eo]. destruct (rel_inside w s _ HR Ei) as [Hin How]. rewrite Hin in H1, H2. rewrite How in H3.
  rewrite below_may by assumption. exists 0, (Mst (Some t) o' (depth s)), (Ret tt). 
  split; [cbn beta; unfold holds; now rewrite Ei, Nat.eqb_refl|]. split; [|split; [reflexivity|split]].
  - unfold rel, inside, owning, inside. cbn. rewrite E1, Ei. repeat (split; [assumption||reflexivity|]).
    split; [now apply below_note|]. split; [now apply below_tick|].
    assert (below (tick t (hclk w) t) (ulog w)) as Hb.
    { apply below_tick. rewrite E2, Eo in H3. destruct Ho as [->| ->]; exact H3. }
    destruct Ho' as [->| ->]; exact Hb.
  - intros u Hu. rewrite view_inner by exact Hu. unfold view, holds. rewrite Ei.
    now rewrite (proj2 (Nat.eqb_neq _ _) (not_eq_sym Hu)).
  - cbn. eexists. split; [reflexivity|]. now rewrite view_self.
Qed.

Lemma sim_bad {A B} Q t h : sim Q t h (@h_bad A) (@cbad mst B).
Proof. intros n w s HR Hh. left. now exists 0. Qed.
Lemma sim_assert t h b : sim (fun _ _ h' => h' = h /\ b = true) t h (h_assert b) (assert_that b).
Proof. destruct b; [|apply sim_bad]. cbn. eexists. split; [reflexivity|]. now split. Qed.

Lemma sim_inc_depth t o : sim (fun _ _ h => h = Some o) t (Some o) (h_inc_depth dmax t) (inc_depth dmax t).
Proof.
  eapply sim_bind; [apply sim_get_depth|]. intros d d' h (-> & ->).
  destruct (d' <? dmax)%Z; [apply sim_set_depth|apply sim_bad].
Qed.
Lemma sim_dec_depth t o : sim (fun _ _ h => h = Some o) t (Some o) (h_dec_depth dmax t) (dec_depth dmax t).
Proof.
  eapply sim_bind; [apply sim_get_depth|]. intros d d' h (-> & ->).
  destruct (- dmax - 1 <? d')%Z; [apply sim_set_depth|apply sim_bad].
Qed.

Lemma sim_leave t o (r : option bool) : sim (fun (r q : option bool) h => r = q /\ h = None) t (Some o) (wbind (h_unlock t) (fun _ => WRet r))
  (cbind (m_unlock t) (fun _ => Ret r)) .
Proof.
  eapply sim_bind; [apply sim_unlock|]. intros ? ? h ->. cbn. now eexists.
Qed.

Lemma sim_try t : sim (fun (r q : option bool) h => r = q /\ h = None) t None (h_try_lock dmax t) (try_lock dmax t).
Proof.
  eapply sim_bind; [apply sim_lock|]. intros ? ? h (o & ->).
  eapply sim_bind; [apply sim_get_owner|]. intros ? ? h (-> & -> & ->). destruct o as [k|].
  - eapply sim_bind; [apply sim_get_owner|]. intros ? ? h (-> & -> & ->).
    destruct (negb (is_thread (Some k) t)); [apply sim_leave|].
    eapply sim_bind; [apply sim_inc_depth|]. intros ? ? h ->. apply sim_leave.
  - eapply sim_bind; [apply sim_get_depth|]. intros d ? h (<- & ->).
    eapply sim_bind; [apply sim_assert|]. intros ? ? h (-> & _).
    eapply sim_bind; [apply sim_set_owner; auto|]. intros ? ? h ->.
    eapply sim_bind; [apply sim_inc_depth|]. intros ? ? h ->. apply sim_leave.
Qed.

Lemma sim_unlock_rec t : sim (fun (r q : option bool) h => r = q /\ h = None) t None (h_unlock_rec dmax t) (unlock dmax t).
Proof.
  eapply sim_bind; [apply sim_lock|]. intros ? ? h (o & ->).
  eapply sim_bind; [apply sim_get_owner|]. intros ? ? h (-> & -> & ->).
  eapply sim_bind; [apply sim_assert|]. intros ? ? h (-> & Ho).
  assert (o = Some t) as ->.
  { destruct o as [k|]; [|discriminate]. apply Nat.eqb_eq in Ho. now subst. }
  eapply sim_bind; [apply sim_get_depth|]. intros d ? h (<- & ->).
  eapply sim_bind; [apply sim_assert|]. intros ? ? h (-> & _).
  eapply sim_bind; [apply sim_dec_depth|]. intros ? ? h ->.
  eapply sim_bind; [apply sim_get_depth|]. intros d' ? h (<- & ->).
  eapply (sim_bind (fun _ _ h => exists o, h = Some o)).
  - destruct (d' =? 0)%Z.
    + eapply sim_weaken; [|apply sim_set_owner; auto]. cbn. eauto.
    + cbn. eauto.
  - intros ? ? h (o & ->). apply sim_leave.
Qed.

Lemma sim_impl t k : sim (fun r q h => r = HM q /\ h = None) t None (himpl dmax t (HMutex k)) (mimpl dmax t k).
Proof.
  assert (H : forall cw (c : code mst (option bool)),
    sim (fun r q h => r = q /\ h = None) t None cw c ->
    sim (fun r q h => r = HM q /\ h = None) t None (wbind cw (fun r => WRet (HM r))) c).
  { intros cw. generalize (@None (option nat)) at 2 4 as h. revert cw. fix IH 1. intros [r|aw] h c; cbn [sim wbind].
    - intros (q & -> & -> & ->). eauto.
    - destruct c as [r|a]; [easy|]. intros H1 n w s HR Hh. destruct (H1 n w s HR Hh) as [HB|K]; [now left|right].
      destruct (aw n w) as [w' cw'|w'|]; [|exact K|exact K].
      destruct K as (j & s' & c' & Hk & R' & Hd & Ho & HS). exists j, s', c'. repeat (split; [assumption|]).
      exact (IH cw' (view t s') c' HS). }
  destruct k; apply H; [apply sim_try|apply sim_unlock_rec].
Qed.

(** * Executions *)

(** Where a thread is that uses the data. *)
Inductive stage := PRead | PWrite (v : nat) | DRead (v : nat) | DWrite.
Definition code_of (t : nat) (st : stage) : wcode hst hres :=
  match st with
  | PRead => himpl dmax t HRead
  | PWrite v => himpl dmax t (HWrite v)
  | DRead v => WRet (HVal v)
  | DWrite => WRet HUnit
  end.
Definition is_some {A} (o : option A) : bool := match o with Some _ => true | None => false end.

Variable v0 : nat.
Notation mreach := (reach (mimpl dmax) mcview mrview (mallowed dmax) (start mst0)).
Notation hreach := (wreach (himpl dmax) hcview hrview (hallowed dmax) (wstart (hst0 v0))).

Definition thread_ok (cw : wcfg hst hres hcall hres) (c : cfg mst (option bool) mcall (option bool))
    (g : option stage) (t : nat) : Prop :=
  match g with
  | Some st => th c t = None /\ view t (sh c) = None /\ wth cw t = Some (code_of t st) /\
               (0 < balance (completed t (hist c)))%Z
  | None => match wth cw t with
            | None => th c t = None /\ view t (sh c) = None
            | Some k => exists k', th c t = Some k' /\
                          sim (fun r q h => r = HM q /\ h = None) t (view t (sh c)) k k'
            end
  end.
Definition value_ok (d lv : nat) (g : option stage) : Prop :=
  match g with
  | Some (PWrite v) => v = lv
  | Some (DRead v) => v = lv /\ d = lv
  | Some _ => d = lv
  | None => True
  end.

Definition crel (cw : wcfg hst hres hcall hres) (c : cfg mst (option bool) mcall (option bool))
    (G : nat -> option stage) : Prop :=
  rel (wsh cw) (sh c) /\ hist c = mutex_hist (whist cw) /\
  (forall t, thread_ok cw c (G t) t) /\
  (forall t, in_use t (whist cw) = is_some (G t)) /\
  (forall t, value_ok (hdata (wsh cw)) (last_written v0 (whist cw)) (G t)) /\
  ((forall t, G t = None) -> hdata (wsh cw) = last_written v0 (whist cw)) /\
  (forall h1 t v h2, whist cw = h1 ++ ERes t (HVal v) :: h2 -> v = last_written v0 h1).

Lemma mutex_hist_snoc h e : mutex_hist (h ++ [e]) = mutex_hist h ++ mutex_hist [e].
Proof. unfold mutex_hist. now rewrite flat_map_app. Qed.
Lemma last_snoc h e : last_written v0 (h ++ [e]) = match e with EInv _ (HWrite w) => w | _ => last_written v0 h end.
Proof. unfold last_written. rewrite fold_left_app. reflexivity. Qed.
Lemma in_use_snoc t h e : in_use t (h ++ [e]) =
  match e with
  | EInv u (HRead | HWrite _) => if u =? t then true else in_use t h
  | ERes u (HVal _ | HUnit) => if u =? t then false else in_use t h
  | _ => in_use t h
  end.
Proof. unfold in_use. rewrite fold_left_app. reflexivity. Qed.

Lemma completed_other {C R} t u (h : list (event C R)) c r : u <> t ->
  completed t (h ++ [EInv u c]) = completed t h /\ completed t (h ++ [ERes u r]) = completed t h.
Proof.
  intros H. unfold completed. rewrite !completed_from_app. cbn [completed_from].
  rewrite (proj2 (Nat.eqb_neq _ _) H). now rewrite app_nil_r.
Qed.

Lemma one_user c t u : mreach c -> th c t = None -> th c u = None ->
  (0 < balance (completed t (hist c)))%Z -> (0 < balance (completed u (hist c)))%Z -> t = u.
Proof.
  intros H Ht Hu Bt Bu. pose proof (mreach_owner dmax Hdmax c t H Ht Bt).
  pose proof (mreach_owner dmax Hdmax c u H Hu Bu). congruence.
Qed.

Lemma snoc_reads h e : (forall h1 t v h2, h = h1 ++ ERes t (HVal v) :: h2 -> v = last_written v0 h1) ->
  (match e with ERes _ (HVal v) => v = last_written v0 h | _ => True end) ->
  forall h1 t v h2, h ++ [e] = h1 ++ ERes t (HVal v) :: h2 -> v = last_written v0 h1.
Proof.
  intros H He h1 t v h2 E. destruct h2 as [|x h2 _] using rev_ind.
  - apply app_inj_tail in E as [<- ->]. exact He.
  - rewrite app_comm_cons, app_assoc in E. apply app_inj_tail in E as [E _]. eapply H; eauto.
Qed.

(** An access of the owner to the data. *)
Lemma data_step w s t b d : rel w s -> owner s = Some t ->
  may t b (hclk w) (ulog w) = true /\
  rel (Hst (hinner w) (hrel w) (howner w) (hdepth w) d (tick t (hclk w)) (olog w) (dlog w)
           (note t b (hclk w) (ulog w))) s.
Proof.
  intros (E1 & E2 & E3 & H1 & H2 & H3) Eo. unfold owning in H3. rewrite E2, Eo in H3.
  split; [now apply below_may|]. unfold rel, owning, inside in *. cbn.
  split; [exact E1|]. split; [exact E2|]. split; [exact E3|]. rewrite E2, Eo.
  split; [|split; [|now apply below_note]]; destruct (hinner w); auto; now apply below_tick.
Qed.

Lemma crel_step cw cw' c G : crel cw c G -> mreach c ->
  wstep (himpl dmax) hcview hrview (hallowed dmax) cw cw' ->
  exists c' G', mreach c' /\ crel cw' c' G'.
Proof.
  intros (HR & HH & HT & HU & HV & HV0 & HQ) Hc Hstep.
  inversion Hstep as [w Tw hw t k Ht Hal|w Tw hw t a i w' k Ht Ha|w Tw hw t a i w' Ht Ha|w Tw hw t r Ht];
    subst; cbn [wsh wth whist] in *.
  - (* a call begins *)
    pose proof (HT t) as K. unfold thread_ok in K. destruct (G t) as [st|] eqn:EG.
    { destruct K as (_ & _ & K & _). cbn [wth] in K. congruence. }
    cbn [wth] in K. rewrite Ht in K. destruct K as [K1 K2]. unfold hcview.
    assert (Hidle : (0 < balance (completed t (hist c)))%Z -> forall u, G u = None).
    { intros Hb u. destruct (G u) as [st|] eqn:Eu; [|reflexivity]. specialize (HT u). rewrite Eu in HT.
      destruct HT as (L1 & _ & _ & L4). pose proof (one_user c t u Hc K1 L1 Hb L4). congruence. }
    destruct k as [k| |v].
    + exists (Cfg (sh c) (setm (th c) t (Some (mimpl dmax t k))) (hist c ++ [EInv t k])), G. split.
      { destruct c as [s T h]. eapply r_step; [exact Hc|]. cbn [sh th hist] in *. apply s_inv; [exact K1|].
        rewrite HH. destruct k; exact Hal. }
      unfold crel. cbn [wsh wth whist sh th hist]. split; [exact HR|].
      split; [rewrite mutex_hist_snoc, HH; reflexivity|]. split; [|split; [|split; [|split]]].
      * intros u. destruct (Nat.eq_dec u t) as [->|Hne].
        -- rewrite EG. unfold thread_ok. cbn [wth sh th]. rewrite !setm_eq, K2. eexists. split; [reflexivity|]. apply sim_impl.
        -- specialize (HT u). unfold thread_ok in *. cbn [wth sh th hist] in *. rewrite !setm_neq by exact Hne.
           destruct (G u); [|exact HT]. destruct (completed_other u t (hist c) k None (not_eq_sym Hne)) as [-> _]. exact HT.
      * intros u. rewrite in_use_snoc. apply HU.
      * intros u. rewrite last_snoc. apply HV.
      * rewrite last_snoc. exact HV0.
      * apply snoc_reads; [exact HQ|exact Logic.I].
    + assert (HG : forall u, G u = None) by (apply Hidle; rewrite HH; exact Hal).
      exists c, (setm G t (Some PRead)). split; [exact Hc|].
      unfold crel. cbn [wsh wth whist]. split; [exact HR|].
      split; [rewrite mutex_hist_snoc, HH; cbn; now rewrite app_nil_r|]. split; [|split; [|split; [|split]]].
      * intros u. destruct (Nat.eq_dec u t) as [->|Hne].
        -- rewrite setm_eq. unfold thread_ok. cbn [wth]. rewrite setm_eq. rewrite HH in *. auto.
        -- rewrite setm_neq by exact Hne. specialize (HT u). unfold thread_ok in *. cbn [wth] in *.
           now rewrite setm_neq by exact Hne.
      * intros u. rewrite in_use_snoc. destruct (Nat.eq_dec u t) as [->|Hne].
        -- now rewrite setm_eq, Nat.eqb_refl.
        -- rewrite setm_neq, (proj2 (Nat.eqb_neq _ _) (not_eq_sym Hne)) by exact Hne. apply HU.
      * intros u. rewrite last_snoc. destruct (Nat.eq_dec u t) as [->|Hne].
        -- rewrite setm_eq. cbn. now apply HV0.
        -- rewrite setm_neq by exact Hne. apply HV.
      * intros H. specialize (H t). rewrite setm_eq in H. discriminate.
      * apply snoc_reads; [exact HQ|exact Logic.I].
    + assert (HG : forall u, G u = None) by (apply Hidle; rewrite HH; exact Hal).
      exists c, (setm G t (Some (PWrite v))). split; [exact Hc|].
      unfold crel. cbn [wsh wth whist]. split; [exact HR|].
      split; [rewrite mutex_hist_snoc, HH; cbn; now rewrite app_nil_r|]. split; [|split; [|split; [|split]]].
      * intros u. destruct (Nat.eq_dec u t) as [->|Hne].
        -- rewrite setm_eq. unfold thread_ok. cbn [wth]. rewrite setm_eq. rewrite HH in *. auto.
        -- rewrite setm_neq by exact Hne. specialize (HT u). unfold thread_ok in *. cbn [wth] in *.
           now rewrite setm_neq by exact Hne.
      * intros u. rewrite in_use_snoc. destruct (Nat.eq_dec u t) as [->|Hne].
        -- now rewrite setm_eq, Nat.eqb_refl.
        -- rewrite setm_neq, (proj2 (Nat.eqb_neq _ _) (not_eq_sym Hne)) by exact Hne. apply HU.
      * intros u. rewrite last_snoc. destruct (Nat.eq_dec u t) as [->|Hne].
        -- rewrite setm_eq. reflexivity.
        -- rewrite setm_neq, HG by exact Hne. exact Logic.I.
      * intros H. specialize (H t). rewrite setm_eq in H. discriminate.
      * apply snoc_reads; [exact HQ|exact Logic.I].
  - (* an action *)
    pose proof (HT t) as K. unfold thread_ok in K. destruct (G t) as [st|] eqn:EG.
    + destruct K as (K1 & K2 & K3 & K4). cbn [wth] in K3. rewrite Ht in K3. injection K3 as K3.
      pose proof (mreach_owner dmax Hdmax c t Hc K1 K4) as Eo.
      assert (HG : forall u, u <> t -> G u = None).
      { intros u Hu. destruct (G u) as [st'|] eqn:Eu; [|reflexivity]. specialize (HT u). rewrite Eu in HT.
        destruct HT as (L1 & _ & _ & L4). now destruct (Hu (one_user c u t Hc L1 K1 L4 K4)). }
      assert (Hst : exists st', k = code_of t st' /\ rel w' (sh c) /\
                      value_ok (hdata w') (last_written v0 hw) (Some st')).
      { specialize (HV t). rewrite EG in HV. destruct st as [|v|v|]; cbn [code_of himpl wbind h_read h_write] in K3; try discriminate;
          injection K3 as ->; cbn beta in Ha.
        - destruct (data_step w (sh c) t false (hdata w) HR Eo) as [Hm HR']. rewrite Hm in Ha.
          injection Ha as <- <-. exists (DRead (hdata w)). split; [reflexivity|]. split; [exact HR'|]. cbn in *. auto.
        - destruct (data_step w (sh c) t true v HR Eo) as [Hm HR']. rewrite Hm in Ha.
          injection Ha as <- <-. exists DWrite. split; [reflexivity|]. split; [exact HR'|]. cbn in *. auto. }
      destruct Hst as (st' & -> & HR' & HV').
      exists c, (setm G t (Some st')). split; [exact Hc|].
      unfold crel. cbn [wsh wth whist]. split; [exact HR'|]. split; [exact HH|]. split; [|split; [|split; [|split]]].
      * intros u. destruct (Nat.eq_dec u t) as [->|Hne].
        -- rewrite setm_eq. unfold thread_ok. cbn [wth]. rewrite setm_eq. auto.
        -- rewrite setm_neq by exact Hne. specialize (HT u). unfold thread_ok in *. cbn [wth] in *.
           now rewrite setm_neq by exact Hne.
      * intros u. rewrite HU. destruct (Nat.eq_dec u t) as [->|Hne]; [now rewrite setm_eq, EG|now rewrite setm_neq].
      * intros u. destruct (Nat.eq_dec u t) as [->|Hne]; [now rewrite setm_eq|].
        rewrite setm_neq, HG by exact Hne. exact Logic.I.
      * intros H. specialize (H t). rewrite setm_eq in H. discriminate.
      * exact HQ.
    + cbn [wth] in K. rewrite Ht in K. destruct K as (k' & K1 & K2).
      destruct k' as [r|a']; [destruct K2|]. cbn [sim] in K2.
      destruct (K2 i w (sh c) HR eq_refl) as [(j & Hj)|K3].
      { exfalso. apply (mreach_not_bad dmax Hdmax _ Hc). exists t, a', j. auto. }
      rewrite Ha in K3. destruct K3 as (j & s' & c' & Hj & R' & Hd & Ho & HS).
      exists (Cfg s' (setm (th c) t (Some c')) (hist c)), G. split.
      { destruct c as [s T h]. eapply r_step; [exact Hc|]. eapply s_act; eauto. }
      unfold crel. cbn [wsh wth whist sh th hist]. rewrite Hd. split; [exact R'|]. split; [exact HH|].
      split; [|now auto]. intros u. destruct (Nat.eq_dec u t) as [->|Hne].
      * rewrite EG. unfold thread_ok. cbn [wth sh th]. rewrite !setm_eq. eauto.
      * specialize (HT u). unfold thread_ok in *. cbn [wth sh th hist] in *. rewrite !setm_neq, Ho by exact Hne. exact HT.
  - (* an attempt *)
    assert (w' = w) as ->.
    { pose proof (HT t) as K. unfold thread_ok in K. destruct (G t) as [st|] eqn:EG.
      - destruct K as (K1 & K2 & K3 & K4). cbn [wth] in K3. rewrite Ht in K3. injection K3 as K3.
        destruct st as [|v|v|]; cbn [code_of himpl wbind h_read h_write] in K3; try discriminate;
          injection K3 as ->; cbn beta in Ha; destruct (may t _ (hclk w) (ulog w)); discriminate.
      - cbn [wth] in K. rewrite Ht in K. destruct K as (k' & K1 & K2).
        destruct k' as [r|a']; [destruct K2|]. cbn [sim] in K2.
        destruct (K2 i w (sh c) HR eq_refl) as [(j & Hj)|K3].
        + exfalso. apply (mreach_not_bad dmax Hdmax _ Hc). exists t, a', j. auto.
        + now rewrite Ha in K3. }
    exists c, G. split; [exact Hc|]. unfold crel. cbn [wsh wth whist]. auto 10.
  - (* a call returns *)
    pose proof (HT t) as K. unfold thread_ok in K. unfold hrview. destruct (G t) as [st|] eqn:EG.
    + destruct K as (K1 & K2 & K3 & K4). cbn [wth] in K3. rewrite Ht in K3. injection K3 as K3.
      assert (HG : forall u, u <> t -> G u = None).
      { intros u Hu. destruct (G u) as [st'|] eqn:Eu; [|reflexivity]. specialize (HT u). rewrite Eu in HT.
        destruct HT as (L1 & _ & _ & L4). now destruct (Hu (one_user c u t Hc L1 K1 L4 K4)). }
      pose proof (HV t) as HVt. rewrite EG in HVt.
      assert (Hr : (exists v, r = HVal v /\ v = last_written v0 hw) \/ r = HUnit).
      { destruct st as [|v|v|]; cbn [code_of himpl wbind h_read h_write] in K3; try discriminate; injection K3 as ->.
        - left. exists v. split; [reflexivity|]. apply HVt.
        - now right. }
      assert (Hd : hdata w = last_written v0 hw).
      { destruct st as [|v|v|]; cbn [code_of himpl wbind h_read h_write] in K3; try discriminate; apply HVt. }
      exists c, (setm G t None). split; [exact Hc|].
      unfold crel. cbn [wsh wth whist]. split; [exact HR|].
      split; [rewrite mutex_hist_snoc, HH; destruct Hr as [(v & -> & _)| ->]; cbn; now rewrite app_nil_r|].
      split; [|split; [|split; [|split]]].
      * intros u. destruct (Nat.eq_dec u t) as [->|Hne].
        -- rewrite setm_eq. unfold thread_ok. cbn [wth]. rewrite setm_eq. auto.
        -- rewrite setm_neq by exact Hne. specialize (HT u). unfold thread_ok in *. cbn [wth] in *.
           now rewrite setm_neq by exact Hne.
      * intros u. rewrite in_use_snoc. destruct (Nat.eq_dec u t) as [->|Hne].
        -- rewrite setm_eq, Nat.eqb_refl. destruct Hr as [(v & -> & _)| ->]; reflexivity.
        -- rewrite setm_neq, (proj2 (Nat.eqb_neq _ _) (not_eq_sym Hne)) by exact Hne. rewrite <- HU.
           destruct Hr as [(v & -> & _)| ->]; reflexivity.
      * intros u. rewrite last_snoc. destruct (Nat.eq_dec u t) as [->|Hne].
        -- rewrite setm_eq. exact Logic.I.
        -- rewrite setm_neq, HG by exact Hne. exact Logic.I.
      * intros _. rewrite last_snoc. exact Hd.
      * apply snoc_reads; [exact HQ|]. destruct Hr as [(v & -> & Hv)| ->]; [exact Hv|exact Logic.I].
    + cbn [wth] in K. rewrite Ht in K. destruct K as (k' & K1 & K2). cbn [sim] in K2.
      destruct K2 as (q & -> & -> & Hf).
      exists (Cfg (sh c) (setm (th c) t None) (hist c ++ [ERes t q])), G. split.
      { destruct c as [s T h]. eapply r_step; [exact Hc|]. cbn [sh th hist] in *. apply (s_ret _ _ mrview). exact K1. }
      unfold crel. cbn [wsh wth whist sh th hist]. split; [exact HR|].
      split; [rewrite mutex_hist_snoc, HH; reflexivity|]. split; [|split; [|split; [|split]]].
      * intros u. destruct (Nat.eq_dec u t) as [->|Hne].
        -- rewrite EG. unfold thread_ok. cbn [wth sh th]. rewrite !setm_eq. auto.
        -- specialize (HT u). unfold thread_ok in *. cbn [wth sh th hist] in *. rewrite !setm_neq by exact Hne.
           destruct (G u); [|exact HT]. destruct (completed_other u t (hist c) CTry q (not_eq_sym Hne)) as [_ ->]. exact HT.
      * intros u. rewrite in_use_snoc. apply HU.
      * intros u. rewrite last_snoc. apply HV.
      * rewrite last_snoc. exact HV0.
      * apply snoc_reads; [exact HQ|exact Logic.I].
Qed.

Lemma hreach_sim cw : hreach cw -> exists c G, mreach c /\ crel cw c G.
Proof.
  induction 1 as [|cw cw' _ (c & G & Hc & HR) Hs].
  - exists (start mst0), (fun _ => None). split; [apply r_refl|]. unfold crel. cbn.
    split; [|split; [reflexivity|split; [|split; [reflexivity|split; [auto|split; [reflexivity|]]]]]].
    + unfold rel. cbn. repeat (split; [reflexivity|]). repeat split; intros a [].
    + intros t. split; reflexivity.
    + intros [|e h1]; discriminate.
  - eapply crel_step; eauto.
Qed.

Lemma hreach_not_bad cw : hreach cw -> ~ wbad cw.
Proof.
  intros H (t & a & i & Ht & Ha). destruct (hreach_sim cw H) as (c & G & Hc & HR & HH & HT & _).
  pose proof (HT t) as K. unfold thread_ok in K. destruct (G t) as [st|].
  - destruct K as (K1 & K2 & K3 & K4). rewrite Ht in K3. injection K3 as K3.
    pose proof (mreach_owner dmax Hdmax c t Hc K1 K4) as Eo.
    destruct st as [|v|v|]; cbn [code_of himpl wbind h_read h_write] in K3; try discriminate;
      injection K3 as ->; cbn beta in Ha;
      [destruct (data_step (wsh cw) (sh c) t false 0 HR Eo) as [Hm _]
      |destruct (data_step (wsh cw) (sh c) t true 0 HR Eo) as [Hm _]]; rewrite Hm in Ha; discriminate.
  - rewrite Ht in K. destruct K as (k' & K1 & K2). destruct k' as [r|a']; [destruct K2|]. cbn [sim] in K2.
    destruct (K2 i (wsh cw) (sh c) HR eq_refl) as [(j & Hj)|K3].
    + apply (mreach_not_bad dmax Hdmax _ Hc). exists t, a', j. auto.
    + now rewrite Ha in K3.
Qed.
End Mutex.
