(** Calls with a bounded number of actions; locks which are held by a call only. *)
From Coq Require Import List Arith Bool Lia.
From Verif Require Import Base ConcModel LiveSpec.
Import ListNotations.

Section Bound.
Context {Sh : Type}.

(** At most [k] actions. *)
Fixpoint within {A} (k : nat) (c : code Sh A) {struct c} : Prop :=
  match c with
  | Ret _ => True
  | Act a => match k with
             | 0 => False
             | S k' => forall n s, match a n s with Next _ c' => within k' c' | _ => True end
             end
  end.
Fixpoint within_more {A} (k m : nat) (c : code Sh A) {struct c} : k <= m -> within k c -> within m c.
Proof.
  destruct c as [r|a]; [auto|]. intros Hk. destruct k as [|k]; [intros []|]. destruct m as [|m]; [lia|]. cbn [within].
  intros H n s. specialize (H n s). destruct (a n s) as [s' c'| |]; auto. apply (within_more A k m c'); [lia|exact H].
Qed.
Fixpoint within_bind {A B} (k m : nat) (c : code Sh A) (f : A -> code Sh B) {struct c} :
  within k c -> (forall r, within m (f r)) -> within (k + m) (cbind c f).
Proof.
  destruct c as [r|a]; cbn [cbind].
  - intros _ Hf. apply within_more with m; [lia|apply Hf].
  - destruct k as [|k]; [intros []|]. cbn [within plus]. intros H Hf n s. specialize (H n s).
    destruct (a n s) as [s' c'| |]; auto.
Qed.
Lemma within_act {A} (a : nat -> Sh -> aout Sh (code Sh A)) k :
  (forall n s, match a n s with Next _ c' => within k c' | _ => True end) -> within (S k) (Act a).
Proof. auto. Qed.
Lemma within_ret {A} (r : A) k : within k (Ret r : code Sh A).
Proof. exact Logic.I. Qed.
End Bound.

Section Machine.
Context {Sh Call Rs VC VR : Type}.
Variable impl : nat -> Call -> code Sh Rs.
Variable cview : Sh -> Call -> VC.
Variable rview : Sh -> Rs -> VR.
Variable allowed : list (event VC VR) -> Sh -> nat -> Call -> Prop.
Variable s0 : Sh.
Notation creach := (reach impl cview rview allowed (start s0)).
Variable K : nat.
Hypothesis bounded : forall t c, within K (impl t c).

(** The threads which are in calls, with bounds on what is left of these. *)
Definition busy (c : cfg Sh Rs VC VR) (l : list (nat * nat)) : Prop :=
  NoDup (map fst l) /\ (forall t, ~ In t (map fst l) -> th c t = None) /\
  forall t k, In (t, k) l -> exists x, th c t = Some x /\ within k x.
Definition weight (l : list (nat * nat)) : nat := list_sum (map (fun p => S (snd p)) l).

Lemma weight_cons p l : weight (p :: l) = S (snd p) + weight l.
Proof. reflexivity. Qed.
Lemma weight_app l m : weight (l ++ m) = weight l + weight m.
Proof. unfold weight. now rewrite map_app, list_sum_app. Qed.

Lemma split_busy c l t x : busy c l -> th c t = Some x ->
  exists l1 k l2, l = l1 ++ (t, k) :: l2 /\ within k x /\ ~ In t (map fst (l1 ++ l2)) /\ NoDup (map fst (l1 ++ l2)).
Proof.
  intros (H1 & H2 & H3) Hx. destruct (in_dec Nat.eq_dec t (map fst l)) as [Hi|Hn]; [|rewrite (H2 t Hn) in Hx; discriminate].
  apply in_map_iff in Hi. destruct Hi as ([t' k] & Ht & Hi). cbn in Ht. subst t'.
  destruct (H3 t k Hi) as (y & Hy & Hw). rewrite Hx in Hy. inversion Hy; subst y.
  apply in_split in Hi. destruct Hi as (l1 & l2 & ->). exists l1, k, l2. split; [reflexivity|]. split; [exact Hw|].
  rewrite map_app in H1. cbn in H1. split; rewrite map_app.
  - exact (NoDup_remove_2 _ _ _ H1).
  - exact (NoDup_remove_1 _ _ _ H1).
Qed.

Lemma busy_same c c' l : (forall t, th c' t = th c t) -> busy c l -> busy c' l.
Proof.
  intros E (H1 & H2 & H3). split; [exact H1|]. split.
  - intros t Ht. rewrite E. auto.
  - intros t k Hi. rewrite E. auto.
Qed.

(** The thread goes on with [k'] actions left (None: it has returned). *)
Lemma busy_step s s' (T : nat -> option (code Sh Rs)) h h' t l1 k l2 o :
  busy (Cfg s T h) (l1 ++ (t, k) :: l2) -> ~ In t (map fst (l1 ++ l2)) -> NoDup (map fst (l1 ++ l2)) ->
  match o with None => True | Some (k', x) => within k' x end ->
  busy (Cfg s' (setm T t (match o with Some (_, x) => Some x | None => None end)) h')
       (match o with Some (k', _) => (t, k') :: l1 ++ l2 | None => l1 ++ l2 end).
Proof.
  intros (H1 & H2 & H3) Hn Hd Ho. cbn [th] in *.
  assert (forall u j, In (u, j) (l1 ++ l2) -> exists x, setm T t (match o with Some (_, x) => Some x | None => None end) u = Some x /\ within j x) as Hr.
  { intros u j Hi. rewrite setm_neq.
    - apply H3. apply in_app_or in Hi. apply in_or_app. destruct Hi; [now left|right; now right].
    - intros ->. apply Hn. now apply (in_map fst) in Hi. }
  destruct o as [[k' x]|]; split; cbn [map fst th].
  - constructor; auto.
  - split.
    + intros u Hu. rewrite setm_neq by (intros ->; apply Hu; now left). apply H2. intros Hi. apply Hu.
      rewrite map_app in Hi |- *. cbn in Hi. apply in_app_or in Hi. destruct Hi as [Hi|[->|Hi]].
      * right. apply in_or_app; now left.
      * now left.
      * right. apply in_or_app; now right.
    + intros u j [Hi|Hi]; [|auto]. inversion Hi; subst. rewrite setm_eq. now exists x.
  - exact Hd.
  - split.
    + intros u Hu. destruct (Nat.eq_dec u t) as [->|Hne]; [now rewrite setm_eq|]. rewrite setm_neq by auto. apply H2. intros Hi. apply Hu.
      rewrite map_app in Hi |- *. cbn in Hi. apply in_app_or in Hi. apply in_or_app. destruct Hi as [Hi|[->|Hi]]; [now left|congruence|now right].
    + exact Hr.
Qed.

Lemma goes_weight c c' l : busy c l -> goes rview c c' ->
  exists l', busy c' l' /\ S (weight l') <= weight l /\
    (length l' + returned (hist c') = length l + returned (hist c)) /\ begun (hist c') = begun (hist c).
Proof.
  intros Hb Hg. destruct Hg as [s T h t a n s' k HT Ha|s T h t r HT].
  - destruct (split_busy _ _ t (Act a) Hb HT) as (l1 & j & l2 & -> & Hw & Hn & Hd).
    destruct j as [|j]; [destruct Hw|]. cbn [within] in Hw. specialize (Hw n s). rewrite Ha in Hw.
    exists ((t, j) :: l1 ++ l2). split; [|split].
    + exact (busy_step s s' T h h t l1 (S j) l2 (Some (j, k)) Hb Hn Hd Hw).
    + rewrite !weight_cons, !weight_app, weight_cons. cbn [snd]. lia.
    + cbn [length hist]. rewrite !app_length. cbn [length]. split; [lia|reflexivity].
  - destruct (split_busy _ _ t (Ret r) Hb HT) as (l1 & j & l2 & -> & Hw & Hn & Hd).
    exists (l1 ++ l2). split; [|split].
    + exact (busy_step s s T h (h ++ [ERes t (rview s r)]) t l1 j l2 None Hb Hn Hd Logic.I).
    + rewrite !weight_app, weight_cons. cbn [snd]. lia.
    + cbn [hist]. rewrite !app_length. cbn [length].
      assert (forall h : list (event VC VR), returned (h ++ [ERes t (rview s r)]) = S (returned h) /\ begun (h ++ [ERes t (rview s r)]) = begun h) as R.
      { clear. induction h as [|[u e|u e] h [IH1 IH2]]; cbn; split; lia. }
      destruct (R h) as [R1 R2]. rewrite R1, R2. split; lia.
Qed.

Lemma reach_busy c : creach c ->
  exists l, busy c l /\ weight l <= (K + 1) * length l /\ begun (hist c) = length l + returned (hist c).
Proof.
  cut (creach c -> exists l, busy c l /\ (forall p, In p l -> snd p <= K) /\ begun (hist c) = length l + returned (hist c)).
  { intros H Hc. destruct (H Hc) as (l & A & B & C). exists l. split; [exact A|]. split; [|exact C].
    clear A C. induction l as [|p l IH]; [cbn; lia|]. rewrite weight_cons. cbn [length].
    assert (snd p <= K) by (apply B; now left). assert (weight l <= (K + 1) * length l) by (apply IH; intros q Hq; apply B; now right). lia. }
  induction 1 as [|c c' Hr IH Hs].
  - exists []. split; [|split; [intros p []|reflexivity]]. split; [constructor|]. split; [reflexivity|intros t k []].
  - destruct IH as (l & Hb & Hk & E). destruct Hs as [s T h t k HT Ha|s T h t a n s' k HT Ha|s T h t r HT].
    + exists ((t, K) :: l). split; [|split].
      * destruct Hb as (H1 & H2 & H3). cbn [th] in *.
        assert (~ In t (map fst l)) as Hn.
        { intros Hi. apply in_map_iff in Hi. destruct Hi as ([u j] & Hu & Hi). cbn in Hu. subst u. destruct (H3 _ _ Hi) as (x & Hx & _). congruence. }
        split; [cbn; now constructor|]. cbn [th]. split.
        -- intros u Hu. cbn in Hu. rewrite setm_neq by (intros ->; apply Hu; now left). apply H2. intros Hi. apply Hu. now right.
        -- intros u j [Hi|Hi].
           ++ inversion Hi; subst. rewrite setm_eq. eexists. split; [reflexivity|apply bounded].
           ++ rewrite setm_neq; [auto|]. intros ->. apply Hn. now apply (in_map fst) in Hi.
      * intros p [<-|Hp]; [cbn; lia|auto].
      * cbn [hist length] in *.
        assert (forall (e : VC) (h : list (event VC VR)), returned (h ++ [EInv t e]) = returned h /\ begun (h ++ [EInv t e]) = S (begun h)) as R.
        { clear. induction h as [|[u x|u x] h [IH1 IH2]]; cbn; split; lia. }
        destruct (R (cview s k) h) as [R1 R2]. rewrite R1, R2. lia.
    + destruct (split_busy _ _ t (Act a) Hb HT) as (l1 & j & l2 & -> & Hw & Hn & Hd).
      destruct j as [|j]; [destruct Hw|]. cbn [within] in Hw. specialize (Hw n s). rewrite Ha in Hw.
      exists ((t, j) :: l1 ++ l2). split; [|split].
      * exact (busy_step s s' T h h t l1 (S j) l2 (Some (j, k)) Hb Hn Hd Hw).
      * intros p [<-|Hp]; [|apply Hk; apply in_app_or in Hp; apply in_or_app; destruct Hp; [now left|right; now right]].
        assert (snd (t, S j) <= K) as Hj by (apply Hk; apply in_or_app; right; now left). cbn in *. lia.
      * cbn [hist] in *. rewrite E, app_length. cbn [length]. rewrite app_length. cbn. lia.
    + destruct (split_busy _ _ t (Ret r) Hb HT) as (l1 & j & l2 & -> & Hw & Hn & Hd).
      destruct (goes_weight _ (Cfg s (setm T t None) (h ++ [ERes t (rview s r)])) _ Hb) as (l' & _ & _ & F1 & F2); [now constructor|].
      exists (l1 ++ l2). split; [|split].
      * exact (busy_step s s T h (h ++ [ERes t (rview s r)]) t l1 j l2 None Hb Hn Hd Logic.I).
      * intros p Hp. apply Hk; apply in_app_or in Hp; apply in_or_app; destruct Hp; [now left|right; now right].
      * cbn [hist] in *. rewrite F2, E.
        assert (forall h : list (event VC VR), returned (h ++ [ERes t (rview s r)]) = S (returned h)) as R.
        { clear. induction h as [|[u e|u e] h IH]; cbn; lia. }
        rewrite R, !app_length. cbn. lia.
Qed.

Lemma goes_on_weight m c c' : goes_on rview m c c' -> forall l, busy c l -> m <= weight l.
Proof.
  induction 1 as [|m c c1 c2 Hg _ IH]; intros l Hb; [lia|].
  destruct (goes_weight c c1 l Hb Hg) as (l' & Hb' & Hw & _). specialize (IH l' Hb'). lia.
Qed.

(** However the threads are scheduled, calls under way take so many steps altogether. *)
Theorem bounded_steps c m c' : creach c -> goes_on rview m c c' -> m <= (K + 1) * under_way c.
Proof.
  intros Hc Hg. destruct (reach_busy c Hc) as (l & Hb & Hw & E).
  pose proof (goes_on_weight m c c' Hg l Hb). unfold under_way. replace (begun (hist c) - returned (hist c)) with (length l) by lia. lia.
Qed.

Lemma goes_step c c' : goes rview c c' -> step impl cview rview allowed c c'.
Proof. intros []; econstructor; eauto. Qed.
Lemma goes_on_reach m c c' : goes_on rview m c c' -> creach c -> creach c'.
Proof.
  induction 1 as [|m c c1 c2 Hg _ IH]; auto. intros Hc. apply IH. eapply r_step; eauto. now apply goes_step.
Qed.

(** Somebody is in a call, or nobody. *)
Lemma quiet_or c : creach c -> quiet c \/ exists t x, th c t = Some x.
Proof.
  intros Hc. destruct (reach_busy c Hc) as ([|[t k] l] & (H1 & H2 & H3) & _).
  - left. intros t. now apply H2.
  - right. destruct (H3 t k) as (x & Hx & _); [now left|]. now exists t, x.
Qed.
End Machine.

(** ** A lock which calls take and give back *)
Section Lock.
Context {Sh Call Rs VC VR : Type}.
Variable impl : nat -> Call -> code Sh Rs.
Variable cview : Sh -> Call -> VC.
Variable rview : Sh -> Rs -> VR.
Variable allowed : list (event VC VR) -> Sh -> nat -> Call -> Prop.
Variable s0 : Sh.
Notation creach := (reach impl cview rview allowed (start s0)).
(** Who has the lock; and something about a thread which, once true, stays so. *)
Variable holder : Sh -> option nat.
Variable mark : nat -> Sh -> Prop.

(** [h]: the thread has the lock; [k]: it is marked. *)
Fixpoint lkP {A} (t : nat) (h k : bool) (c : code Sh A) (Q : A -> bool -> bool -> Prop) {struct c} : Prop :=
  match c with
  | Ret r => Q r h k
  | Act a => forall n s, (h = true <-> holder s = Some t) -> (k = true -> mark t s) ->
      match a n s with
      | Next s' c' =>
          (holder s' = holder s \/ (holder s = None /\ holder s' = Some t) \/ (holder s = Some t /\ holder s' = None)) /\
          (forall u, mark u s -> mark u s') /\
          exists h' k', (h' = true <-> holder s' = Some t) /\ (k' = true -> mark t s') /\ lkP t h' k' c' Q
      | Wait => (forall m, a m s = Wait) /\ ((h = false /\ exists u, holder s = Some u) \/ (h = true /\ k = true))
      | Bad => True
      end
  end.

Fixpoint lkP_bind {A B} t h k (c : code Sh A) (f : A -> code Sh B) (Q : B -> bool -> bool -> Prop) {struct c} :
  lkP t h k c (fun r h' k' => lkP t h' k' (f r) Q) -> lkP t h k (cbind c f) Q.
Proof.
  destruct c as [r|a]; [exact (fun H => H)|]. cbn [lkP cbind].
  intros H n s Hh Hk. specialize (H n s Hh Hk). destruct (a n s) as [s' c'| |]; [| |exact H].
  - destruct H as (H1 & H2 & h' & k' & H3 & H4 & H5). split; [exact H1|]. split; [exact H2|].
    exists h', k'. split; [exact H3|]. split; [exact H4|]. exact (lkP_bind A B t h' k' c' f Q H5).
  - destruct H as [H1 H2]. split; [|exact H2]. intros m. now rewrite H1.
Qed.
Fixpoint lkP_weaken {A} t h k (c : code Sh A) (Q Q' : A -> bool -> bool -> Prop)
  (HQ : forall r h' k', Q r h' k' -> Q' r h' k') {struct c} : lkP t h k c Q -> lkP t h k c Q'.
Proof.
  destruct c as [r|a]; [apply HQ|]. cbn [lkP].
  intros H n s Hh Hk. specialize (H n s Hh Hk). destruct (a n s) as [s' c'| |]; [|exact H|exact H].
  destruct H as (H1 & H2 & h' & k' & H3 & H4 & H5). split; [exact H1|]. split; [exact H2|].
  exists h', k'. split; [exact H3|]. split; [exact H4|]. exact (lkP_weaken A t h' k' c' Q Q' HQ H5).
Qed.

Definition given_back {A} (_ : A) (h _ : bool) : Prop := h = false.
Hypothesis calls : forall t c, lkP t false false (impl t c) given_back.
Hypothesis free0 : holder s0 = None.

Definition lock_ok (c : cfg Sh Rs VC VR) : Prop :=
  forall t, match th c t with
            | None => holder (sh c) <> Some t
            | Some x => exists h k, (h = true <-> holder (sh c) = Some t) /\ (k = true -> mark t (sh c)) /\ lkP t h k x given_back
            end.

Lemma reach_lock c : creach c -> lock_ok c.
Proof.
  induction 1 as [|c c' Hr IH Hs]; [intros t; cbn; congruence|].
  destruct Hs as [s T h t k HT Ha|s T h t a n s' k HT Ha|s T h t r HT]; intros u; pose proof (IH u) as Hu; cbn [th sh] in *;
    (destruct (Nat.eq_dec u t) as [->|Hn]; [rewrite setm_eq|rewrite setm_neq by auto]).
  - rewrite HT in Hu. exists false, false. split; [split; [discriminate|congruence]|]. split; [discriminate|apply calls].
  - exact Hu.
  - rewrite HT in Hu. destruct Hu as (h1 & k1 & H1 & H2 & H3). cbn [lkP] in H3. specialize (H3 n s H1 H2). rewrite Ha in H3.
    destruct H3 as (_ & _ & h' & k' & A & B & C). now exists h', k'.
  - pose proof (IH t) as Ht. cbn [th sh] in Ht. rewrite HT in Ht. destruct Ht as (h1 & k1 & H1 & H2 & H3).
    cbn [lkP] in H3. specialize (H3 n s H1 H2). rewrite Ha in H3. destruct H3 as (X & Y & _).
    assert (holder s' = Some u <-> holder s = Some u) as E.
    { destruct X as [->|[[-> ->]|[-> ->]]]; split; congruence. }
    destruct (T u) as [x|]; [|now rewrite E]. destruct Hu as (h2 & k2 & A & B & C).
    exists h2, k2. rewrite E. split; [exact A|]. split; [intros Hk; apply Y; auto|exact C].
  - rewrite HT in Hu. destruct Hu as (h1 & k1 & H1 & H2 & H3). cbn [lkP] in H3. unfold given_back in H3. subst h1.
    intros Hc. apply H1 in Hc. discriminate.
  - exact Hu.
Qed.

Variable K : nat.
Hypothesis bounded : forall t c, within K (impl t c).
Hypothesis sound : forall c, creach c -> ~ bad c.

(** As long as a call is under way somebody can go on, or the holder waits for itself and is marked. *)
Theorem progress c : creach c ->
  quiet c \/ can_go rview c \/ (exists t, holder (sh c) = Some t /\ waiting c t /\ mark t (sh c)).
Proof.
  intros Hc. destruct (quiet_or impl cview rview allowed s0 K bounded c Hc) as [Hq|(t & x & Hx)]; [now left|].
  right. pose proof (reach_lock c Hc) as HL. pose proof (sound c Hc) as Hb.
  (* a thread which is in a call can go, or waits *)
  assert (forall u y, th c u = Some y -> can_go rview c \/ exists a, y = Act a /\ a 0 (sh c) = Wait) as G.
  { intros u y Hy. destruct y as [r|a].
    - left. destruct c as [s T h]. eexists. eapply g_ret. exact Hy.
    - destruct (a 0 (sh c)) as [s' k| |] eqn:E.
      + left. destruct c as [s T h]. eexists. eapply g_act; eauto.
      + right. now exists a.
      + exfalso. apply Hb. now exists u, a, 0. }
  destruct (G t x Hx) as [?|(a & -> & Ea)]; [now left|].
  pose proof (HL t) as Ht. rewrite Hx in Ht. destruct Ht as (h & k & H1 & H2 & H3). cbn [lkP] in H3.
  specialize (H3 0 (sh c) H1 H2). rewrite Ea in H3. destruct H3 as [_ H3].
  assert (exists u, holder (sh c) = Some u) as (u & Hu).
  { destruct H3 as [[_ Hu]|[-> _]]; [exact Hu|]. exists t. now apply H1. }
  pose proof (HL u) as Hv. destruct (th c u) as [y|] eqn:Ey; [|contradiction].
  destruct (G u y Ey) as [?|(b & -> & Eb)]; [now left|].
  destruct Hv as (h2 & k2 & A & B & C). cbn [lkP] in C. specialize (C 0 (sh c) A B). rewrite Eb in C.
  destruct C as [Hall [[-> _]|[-> ->]]]; [apply A in Hu; discriminate|].
  right. exists u. split; [exact Hu|]. split; [|auto]. now exists b.
Qed.
End Lock.
