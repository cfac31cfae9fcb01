(** Proofs about flat_map and flat_set with exceptions (C81). *)
From Coq Require Import List Arith Bool NArith Lia.
From Verif Require Import Base SeqSpec VecCommon StaticVectorModel StaticVectorSpec
  StaticVectorProofs FlatModel FlatSpec FlatProofs FlatExnModel FlatExnSpec.
Import ListNotations.

(** * Closure under sequencing *)

Section Closure.
Context {S : Type}.
(** [m] does what [m0] does, or throws and leaves the state. *)
Definition like {A} (m m0 : M S A) : Prop :=
  forall s, m s = m0 s \/ exists x, m s = Throw x s.
Definition pure_ {A} (m : M S A) : Prop := forall s a s', m s = Ok a s' -> s' = s.
Definition calm_ {A} (m : M S A) : Prop := forall s x s', m s <> Throw x s'.

Lemma like_refl {A} (m : M S A) : like m m.
Proof. intros s. now left. Qed.
Lemma like_bind {A B} (m m0 : M S A) (k k0 : A -> M S B) :
  like m m0 -> pure_ m0 -> (forall a, like (k a) (k0 a)) -> like (bind m k) (bind m0 k0).
Proof.
  intros L P K s. unfold bind. destruct (L s) as [->|[x ->]].
  - destruct (m0 s) as [a s'|x s'| |] eqn:E0; try (now left).
    apply P in E0. subst s'. apply K.
  - right. now exists x.
Qed.
Lemma pure_bind {A B} (m : M S A) (k : A -> M S B) :
  pure_ m -> (forall a, pure_ (k a)) -> pure_ (bind m k).
Proof.
  intros P K s b s' H. unfold bind in H. destruct (m s) as [a s1|x s1| |] eqn:E0; try discriminate.
  apply P in E0. subst s1. eapply K; eauto.
Qed.
Lemma pure_ret {A} (a : A) : pure_ (ret a).
Proof. intros s b s' H. unfold ret in H. congruence. Qed.
Lemma pure_diverge {A} : pure_ (@diverge S A).
Proof. intros s b s' H. discriminate. Qed.
Lemma pure_throw {A} e : pure_ (@throw S A e).
Proof. intros s b s' H. discriminate. Qed.
Lemma pure_if {A} (b : bool) (m k : M S A) : pure_ m -> pure_ k -> pure_ (if b then m else k).
Proof. now destruct b. Qed.
Lemma like_if {A} (b : bool) (m k m0 k0 : M S A) :
  like m m0 -> like k k0 -> like (if b then m else k) (if b then m0 else k0).
Proof. now destruct b. Qed.

Variable I : S -> Prop.
(** An exception leaves the state. *)
Definition safe {A} (m : M S A) : Prop := forall s x s', I s -> m s = Throw x s' -> s' = s.
Lemma safe_bind {A B} (m : M S A) (k : A -> M S B) :
  safe m -> pure_ m -> (forall a, safe (k a)) -> safe (bind m k).
Proof.
  intros L P K s x s' Hi H. unfold bind in H.
  destruct (m s) as [a s1|y s1| |] eqn:E0; try discriminate.
  - apply P in E0. subst s1. eapply K; eauto.
  - injection H as -> ->. eapply L; eauto.
Qed.
Lemma safe_then {A B} (m : M S A) (k : A -> M S B) :
  safe m -> (forall a, calm_ (k a)) -> safe (bind m k).
Proof.
  intros L K s x s' Hi H. unfold bind in H.
  destruct (m s) as [a s1|y s1| |] eqn:E0; try discriminate.
  - now apply K in H.
  - injection H as -> ->. eapply L; eauto.
Qed.
Lemma safe_calm {A} (m : M S A) : calm_ m -> safe m.
Proof. intros K s x s' _ H. now apply K in H. Qed.
Lemma safe_throw {A} e : safe (@throw S A e).
Proof. intros s x s' _ H. unfold throw in H. congruence. Qed.
Lemma calm_bind {A B} (m : M S A) (k : A -> M S B) :
  calm_ m -> (forall a, calm_ (k a)) -> calm_ (bind m k).
Proof.
  intros L K s x s' H. unfold bind in H. destruct (m s) as [a s1|y s1| |] eqn:E0; try discriminate.
  - now apply K in H.
  - injection H as -> ->. now apply L in E0.
Qed.
Lemma calm_ret {A} (a : A) : calm_ (ret a). Proof. intros s x s' H. discriminate. Qed.
Lemma calm_ub {A} : calm_ (@ub S A). Proof. intros s x s' H. discriminate. Qed.
Lemma calm_diverge {A} : calm_ (@diverge S A). Proof. intros s x s' H. discriminate. Qed.
Lemma safe_if {A} (b : bool) (m k : M S A) : safe m -> safe k -> safe (if b then m else k).
Proof. now destruct b. Qed.
End Closure.

(** * Comparisons which do not throw: the model is FlatModel.v's *)

Section Calm.
Context {E K Q C CT : Type}.
Variable key : E -> K.
Variable kq : C -> K -> Q -> bool.
Variable qk : C -> Q -> K -> bool.
Variable cont : container E CT.

Definition eqm {S A} (m m' : M S A) : Prop := forall s, m s = m' s.
Lemma eqm_bind {S A B} (m m' : M S A) (k k' : A -> M S B) :
  eqm m m' -> (forall a, eqm (k a) (k' a)) -> eqm (bind m k) (bind m' k').
Proof. intros H1 H2 s. unfold bind. rewrite H1. destruct (m' s); auto. apply H2. Qed.
Lemma eqm_refl {S A} (m : M S A) : eqm m m. Proof. now intros s. Qed.
Lemma eqm_if {S A} (b : bool) (m k m0 k0 : M S A) :
  eqm m m0 -> eqm k k0 -> eqm (if b then m else k) (if b then m0 else k0).
Proof. now destruct b. Qed.
Lemma eqm_calm {A B X} (f : C -> A -> B -> bool) a b (k k' : bool -> M (flat C CT) X)  :
  (forall r, eqm (k r) (k' r)) ->
  eqm (bind (calm f a b) k) (bind cmp_ (fun c => k' (f c a b))).
Proof. intros H s. apply H. Qed.

Lemma lower_same k fuel : forall first len,
  eqm (lower_loop_x key (calm kq) cont k fuel first len) (lower_loop key kq cont k fuel first len).
Proof.
  induction fuel as [|fuel IH]; intros first len; cbn [lower_loop_x lower_loop];
    (apply eqm_if; [apply eqm_refl|]); [apply eqm_refl|].
  apply eqm_bind; [apply eqm_refl|]. intros e s. cbn. unfold bind, calm, cmp_.
  destruct (kq (fcmp s) (key e) k); apply IH.
Qed.
Lemma upper_same k fuel : forall first len,
  eqm (upper_loop_x key (calm qk) cont k fuel first len) (upper_loop key qk cont k fuel first len).
Proof.
  induction fuel as [|fuel IH]; intros first len; cbn [upper_loop_x upper_loop];
    (apply eqm_if; [apply eqm_refl|]); [apply eqm_refl|].
  apply eqm_bind; [apply eqm_refl|]. intros e s. cbn. unfold bind, calm, cmp_.
  destruct (qk (fcmp s) k (key e)); apply IH.
Qed.
Lemma equal_same k fuel : forall first len,
  eqm (equal_loop_x key (calm kq) (calm qk) cont k fuel first len)
      (equal_loop key kq qk cont k fuel first len).
Proof.
  induction fuel as [|fuel IH]; intros first len; cbn [equal_loop_x equal_loop];
    (apply eqm_if; [apply eqm_refl|]); [apply eqm_refl|].
  apply eqm_bind; [apply eqm_refl|]. intros e s.
  erewrite (bind_ok (calm kq (key e) k)) by reflexivity. erewrite (bind_ok cmp_) by reflexivity.
  cbv beta. destruct (kq (fcmp s) (key e) k); [apply IH|].
  erewrite (bind_ok (calm qk k (key e))) by reflexivity.
  cbv beta. destruct (qk (fcmp s) k (key e)); [apply IH|]. revert s.
  apply eqm_bind; [apply lower_same|]. intros lo.
  apply eqm_bind; [apply upper_same|]. intros hi. apply eqm_refl.
Qed.
Lemma lower_bound_same k : eqm (lower_bound_x key (calm kq) cont k) (lower_bound key kq cont k).
Proof. apply eqm_bind; [apply eqm_refl|]. intros n. apply lower_same. Qed.
Lemma upper_bound_same k : eqm (upper_bound_x key (calm qk) cont k) (upper_bound key qk cont k).
Proof. apply eqm_bind; [apply eqm_refl|]. intros n. apply upper_same. Qed.
Lemma equal_range_same k :
  eqm (equal_range_x key (calm kq) (calm qk) cont k) (equal_range key kq qk cont k).
Proof. apply eqm_bind; [apply eqm_refl|]. intros n. apply equal_same. Qed.
Lemma present_same k i : eqm (present_at_x key (calm qk) cont k i) (present_at key qk cont k i).
Proof.
  apply eqm_bind; [apply eqm_refl|]. intros n. apply eqm_if; [apply eqm_refl|].
  apply eqm_bind; [apply eqm_refl|]. intros e. now intros s.
Qed.
Lemma find_same k : eqm (find_x key (calm kq) (calm qk) cont k) (find key kq qk cont k).
Proof.
  apply eqm_bind; [apply lower_bound_same|]. intros i.
  apply eqm_bind; [apply present_same|]. intros b. apply eqm_refl.
Qed.
Lemma insert_same q e : eqm (insert_x key (calm kq) (calm qk) cont q e) (insert key kq qk cont q e).
Proof.
  apply eqm_bind; [apply lower_bound_same|]. intros i.
  apply eqm_bind; [apply present_same|]. intros b. apply eqm_refl.
Qed.
Lemma fcall_same {T} asq (o : fop E Q) :
  eqm (fcall_x (T := T) key (calm kq) (calm qk) cont asq o) (fcall key kq qk cont asq o).
Proof.
  destruct o; cbn [fcall_x fcall]; try apply eqm_refl;
    (apply eqm_bind; [|intros; apply eqm_refl]);
    auto using insert_same, find_same, lower_bound_same, upper_bound_same, equal_range_same.
Qed.
End Calm.

Lemma mcall_same {K T Q C CT} (kq : C -> K -> Q -> bool) (qk : C -> Q -> K -> bool)
  (cont : container (K * T) CT) conv dflt asq (o : mop K T Q) :
  eqm (mcall_x (calm kq) (calm qk) cont conv dflt asq o) (mcall kq qk cont conv dflt asq o).
Proof.
  assert (H1 : forall k, eqm (index_x (calm kq) (calm qk) cont conv dflt k) (index kq qk cont conv dflt k)).
  { intros k. apply eqm_bind; [apply lower_bound_same|]. intros i.
    apply eqm_bind; [apply present_same|]. intros b. apply eqm_refl. }
  assert (H2 : forall k, eqm (at_x (calm kq) (calm qk) cont k) (FlatModel.at_ kq qk cont k)).
  { intros k. apply eqm_bind; [apply lower_bound_same|]. intros i.
    apply eqm_bind; [apply present_same|]. intros b. apply eqm_refl. }
  destruct o; cbn [mcall_x mcall]; try apply eqm_refl; [apply fcall_same|..];
    (apply eqm_bind; [|intros; apply eqm_refl]); auto.
Qed.

(** * Comparisons which may throw *)

Section Like.
Context {E K Q C CT : Type}.
Variable key : E -> K.
Variable kq : C -> K -> Q -> bool.
Variable qk : C -> Q -> K -> bool.
Variable kqm : K -> Q -> M (flat C CT) bool.
Variable qkm : Q -> K -> M (flat C CT) bool.
Variable cont : container E CT.
Hypothesis HR : plain_reads cont.
Hypothesis Hkq : may_throw kq kqm.
Hypothesis Hqk : may_throw qk qkm.

Lemma elem_pure i : pure_ (elem (C := C) cont i).
Proof.
  intros [c t] e s' H. unfold elem, onc in H. cbn in H. specialize (HR i t).
  destruct (c_get cont i t) as [a t'| | |]; try discriminate. subst t'. congruence.
Qed.
Lemma size_pure : pure_ (size_ (C := C) cont).
Proof. intros s n s' H. unfold size_ in H. congruence. Qed.
Lemma calm_pure {A B} (f : C -> A -> B -> bool) a b : pure_ (calm (CT := CT) f a b).
Proof. intros s n s' H. unfold calm in H. congruence. Qed.
Hint Resolve elem_pure size_pure calm_pure : core.

Lemma lower_pure k fuel : forall first len, pure_ (lower_loop_x key (calm kq) cont k fuel first len).
Proof.
  induction fuel as [|fuel IH]; intros first len; cbn [lower_loop_x];
    (apply pure_if; [apply pure_ret|]); [apply pure_diverge|].
  apply pure_bind; [auto|]. intros e. apply pure_bind; [auto|]. intros b. now apply pure_if.
Qed.
Lemma upper_pure k fuel : forall first len, pure_ (upper_loop_x key (calm qk) cont k fuel first len).
Proof.
  induction fuel as [|fuel IH]; intros first len; cbn [upper_loop_x];
    (apply pure_if; [apply pure_ret|]); [apply pure_diverge|].
  apply pure_bind; [auto|]. intros e. apply pure_bind; [auto|]. intros b. now apply pure_if.
Qed.
Lemma lower_bound_pure k : pure_ (lower_bound_x key (calm kq) cont k).
Proof. apply pure_bind; [auto|]. intros n. apply lower_pure. Qed.
Lemma present_pure k i : pure_ (present_at_x key (calm qk) cont k i).
Proof.
  apply pure_bind; [auto|]. intros n. apply pure_if; [apply pure_ret|].
  apply pure_bind; [auto|]. intros e. apply pure_bind; [auto|]. intros b. apply pure_ret.
Qed.
Lemma find_pure k : pure_ (find_x key (calm kq) (calm qk) cont k).
Proof.
  apply pure_bind; [apply lower_bound_pure|]. intros i.
  apply pure_bind; [apply present_pure|]. intros b. apply pure_if; [apply pure_ret|auto].
Qed.

Lemma like_kq a b : like (kqm a b) (calm kq a b).
Proof. intros s. destruct (Hkq a b s); auto. Qed.
Lemma like_qk a b : like (qkm a b) (calm qk a b).
Proof. intros s. destruct (Hqk a b s); auto. Qed.
Hint Resolve like_kq like_qk like_refl : core.

Lemma lower_like k fuel : forall first len,
  like (lower_loop_x key kqm cont k fuel first len) (lower_loop_x key (calm kq) cont k fuel first len).
Proof.
  induction fuel as [|fuel IH]; intros first len; cbn [lower_loop_x];
    (apply like_if; [auto|]); [auto|].
  apply like_bind; [auto|auto|]. intros e. apply like_bind; [auto|auto|]. intros b.
  now apply like_if.
Qed.
Lemma upper_like k fuel : forall first len,
  like (upper_loop_x key qkm cont k fuel first len) (upper_loop_x key (calm qk) cont k fuel first len).
Proof.
  induction fuel as [|fuel IH]; intros first len; cbn [upper_loop_x];
    (apply like_if; [auto|]); [auto|].
  apply like_bind; [auto|auto|]. intros e. apply like_bind; [auto|auto|]. intros b.
  now apply like_if.
Qed.
Lemma equal_like k fuel : forall first len,
  like (equal_loop_x key kqm qkm cont k fuel first len)
       (equal_loop_x key (calm kq) (calm qk) cont k fuel first len).
Proof.
  induction fuel as [|fuel IH]; intros first len; cbn [equal_loop_x];
    (apply like_if; [auto|]); [auto|].
  apply like_bind; [auto|auto|]. intros e. apply like_bind; [auto|auto|]. intros b.
  apply like_if; [auto|]. apply like_bind; [auto|auto|]. intros b'.
  apply like_if; [auto|]. apply like_bind; [apply lower_like|apply lower_pure|]. intros lo.
  apply like_bind; [apply upper_like|apply upper_pure|]. auto.
Qed.
Lemma lower_bound_like k : like (lower_bound_x key kqm cont k) (lower_bound_x key (calm kq) cont k).
Proof. apply like_bind; [auto|auto|]. intros n. apply lower_like. Qed.
Lemma upper_bound_like k : like (upper_bound_x key qkm cont k) (upper_bound_x key (calm qk) cont k).
Proof. apply like_bind; [auto|auto|]. intros n. apply upper_like. Qed.
Lemma equal_range_like k :
  like (equal_range_x key kqm qkm cont k) (equal_range_x key (calm kq) (calm qk) cont k).
Proof. apply like_bind; [auto|auto|]. intros n. apply equal_like. Qed.
Lemma present_like k i : like (present_at_x key qkm cont k i) (present_at_x key (calm qk) cont k i).
Proof.
  apply like_bind; [auto|auto|]. intros n. apply like_if; [auto|].
  apply like_bind; [auto|auto|]. intros e. apply like_bind; auto.
Qed.
Lemma lookup_like {X} k (f g : nat -> bool -> M (flat C CT) X) :
  (forall i b, like (f i b) (g i b)) ->
  like (let* i := lower_bound_x key kqm cont k in
        let* b := present_at_x key qkm cont k i in f i b)
       (let* i := lower_bound_x key (calm kq) cont k in
        let* b := present_at_x key (calm qk) cont k i in g i b).
Proof.
  intros H. apply like_bind; [apply lower_bound_like|apply lower_bound_pure|]. intros i.
  apply like_bind; [apply present_like|apply present_pure|]. auto.
Qed.
Lemma find_like k : like (find_x key kqm qkm cont k) (find_x key (calm kq) (calm qk) cont k).
Proof. apply lookup_like. auto. Qed.
Lemma equal_pure k fuel : forall first len,
  pure_ (equal_loop_x key (calm kq) (calm qk) cont k fuel first len).
Proof.
  induction fuel as [|fuel IH]; intros first len; cbn [equal_loop_x];
    (apply pure_if; [apply pure_ret|]); [apply pure_diverge|].
  apply pure_bind; [auto|]. intros e. apply pure_bind; [auto|]. intros b. apply pure_if; [auto|].
  apply pure_bind; [auto|]. intros b'. apply pure_if; [auto|].
  apply pure_bind; [apply lower_pure|]. intros lo.
  apply pure_bind; [apply upper_pure|]. intros hi. apply pure_ret.
Qed.
(** Once a call of the object itself may come, nothing more is compared. *)
Lemma like_then {A B} (m m0 : M (flat C CT) A) (k : A -> M (flat C CT) B) :
  like m m0 -> like (bind m k) (bind m0 k).
Proof.
  intros L s. unfold bind. destruct (L s) as [->|[x ->]]; [now left|right; now exists x].
Qed.

Lemma fcall_like {T} asq (o : fop E Q) :
  like (fcall_x (T := T) key kqm qkm cont asq o) (fcall_x key (calm kq) (calm qk) cont asq o).
Proof.
  destruct o; cbn [fcall_x]; auto; apply like_then;
    auto using lower_bound_like, upper_bound_like, equal_range_like, find_like;
    try (apply lookup_like; auto).
  - apply like_then, find_like.
  - apply like_then, find_like.
Qed.
End Like.

Lemma mcall_like {K T Q C CT} (kq : C -> K -> Q -> bool) (qk : C -> Q -> K -> bool) kqm qkm
  (cont : container (K * T) CT) conv dflt asq (o : mop K T Q) :
  plain_reads cont -> may_throw kq kqm -> may_throw qk qkm ->
  like (mcall_x kqm qkm cont conv dflt asq o)
       (mcall_x (calm kq) (calm qk) cont conv dflt asq o).
Proof.
  intros HR H1 H2. destruct o; cbn [mcall_x]; try apply like_refl; [now apply fcall_like|..];
    apply like_then; apply lookup_like; auto; intros; apply like_refl.
Qed.

Lemma map_throw_fact :
  forall (K T Q C CT : Type) (lt : C -> K -> K -> bool) (kq : C -> K -> Q -> bool)
    (qk : C -> Q -> K -> bool) (conv : Q -> K) (asq : K -> Q) (dflt : T)
    (cont : container (K * T) CT) (cap : option nat) (rep : CT -> list (K * T) -> Prop)
    (kqm : K -> Q -> M (flat C CT) bool) (qkm : Q -> K -> M (flat C CT) bool),
  conforms cont cap rep -> plain_reads cont ->
  (forall c, strict_weak_order (lt c)) ->
  (forall c k q, kq c k q = lt c k (conv q)) ->
  (forall c k q, qk c q k = lt c (conv q) k) ->
  (forall k, conv (asq k) = k) ->
  may_throw kq kqm -> may_throw qk qkm ->
  forall (s : flat C CT) m o,
  holds fst lt rep s (fcmp s, m) ->
  mallowed lt conv (fcmp s) m o ->
  (exists x, mcall_x kqm qkm cont conv dflt asq o s = Throw x s) \/
  (exists s' m' a,
     fobserve (mcall_x kqm qkm cont conv dflt asq o s) = Some (s', a) /\
     step1 fst lt (mmeans lt conv dflt cap) (fcmp s, m) o (fcmp s, m') a /\
     holds fst lt rep s' (fcmp s, m')).
Proof.
  intros K T Q C CT lt kq qk conv asq dflt cont cap rep kqm qkm CF HR W Hkq Hqk Ha M1 M2 s m o Hs Ho.
  destruct (mcall_like kq qk kqm qkm cont conv dflt asq o HR M1 M2 s) as [Es|Es]; [|now left].
  right. rewrite Es, mcall_same. destruct Hs as (_ & l & R & EN). destruct s as [c t]. cbn in *.
  destruct (mcall_fact lt kq qk cont cap rep CF conv dflt asq Ha c
              (W c) (Hkq c) (Hqk c) o t l m R EN Ho)
    as (t' & l' & m' & a & H1 & H2 & H3 & H4).
  exists (mkFlat c t'), m', a. split; [exact H1|]. split.
  - split; [reflexivity|]. exists l, l'. auto.
  - split; [reflexivity|]. exists l'. auto.
Qed.

Lemma set_throw_fact :
  forall (K Q C CT : Type) (lt : C -> K -> K -> bool) (kq : C -> K -> Q -> bool)
    (qk : C -> Q -> K -> bool) (conv : Q -> K) (asq : K -> Q)
    (cont : container K CT) (cap : option nat) (rep : CT -> list K -> Prop)
    (kqm : K -> Q -> M (flat C CT) bool) (qkm : Q -> K -> M (flat C CT) bool),
  conforms cont cap rep -> plain_reads cont ->
  (forall c, strict_weak_order (lt c)) ->
  (forall c k q, kq c k q = lt c k (conv q)) ->
  (forall c k q, qk c q k = lt c (conv q) k) ->
  (forall k, conv (asq k) = k) ->
  may_throw kq kqm -> may_throw qk qkm ->
  forall (s : flat C CT) m o,
  holds (fun k => k) lt rep s (fcmp s, m) ->
  fallowed (fun k => k) lt conv (fcmp s) m o ->
  (exists x, fcall_x (T := unit) (fun k => k) kqm qkm cont asq o s = Throw x s) \/
  (exists s' m' (a : fret unit),
     fobserve (fcall_x (fun k => k) kqm qkm cont asq o s) = Some (s', a) /\
     step1 (fun k => k) lt (fmeans (fun k => k) lt conv cap) (fcmp s, m) o (fcmp s, m') a /\
     holds (fun k => k) lt rep s' (fcmp s, m')).
Proof.
  intros K Q C CT lt kq qk conv asq cont cap rep kqm qkm CF HR W Hkq Hqk Ha M1 M2 s m o Hs Ho.
  destruct (fcall_like (T := unit) (fun k => k) kq qk kqm qkm cont HR M1 M2 asq o s)
    as [Es|Es]; [|now left].
  right. rewrite Es, fcall_same. destruct Hs as (_ & l & R & EN). destruct s as [c t]. cbn in *.
  destruct (fcall_fact (T := unit) (fun k => k) lt kq qk cont cap rep CF conv c
              (W c) (Hkq c) (Hqk c) asq Ha t l m R EN o Ho)
    as (t' & l' & m' & a & H1 & H2 & H3 & H4).
  exists (mkFlat c t'), m', a. split; [exact H1|]. split.
  - split; [reflexivity|]. exists l, l'. auto.
  - split; [reflexivity|]. exists l'. auto.
Qed.

(** * Containers which are as they were after an exception *)

Section Safe.
Context {E K Q C CT : Type}.
Variable key : E -> K.
Variable kqm : K -> Q -> M (flat C CT) bool.
Variable qkm : Q -> K -> M (flat C CT) bool.
Variable cont : container E CT.
Variable I : CT -> Prop.
Hypothesis HS : strong_container cont I.
Hypothesis Hkq : leaves_alone kqm.
Hypothesis Hqk : leaves_alone qkm.
Local Notation J := (fun s : flat C CT => I (fcont s)).

Lemma alone_pure {A B} (m : A -> B -> M (flat C CT) bool) a b : leaves_alone m -> pure_ (m a b).
Proof. intros H s r s' E0. specialize (H a b s). now rewrite E0 in H. Qed.
Lemma alone_safe {A B} (m : A -> B -> M (flat C CT) bool) a b : leaves_alone m -> safe J (m a b).
Proof. intros H s r s' _ E0. specialize (H a b s). now rewrite E0 in H. Qed.
Lemma elem_calm i : calm_ (elem (C := C) cont i).
Proof.
  intros [c t] x s' H. unfold elem, onc in H. cbn in H. pose proof (sc_reads _ _ HS i t).
  destruct (c_get cont i t); try discriminate. contradiction.
Qed.
Lemma elem_pure' i : pure_ (elem (C := C) cont i).
Proof. apply elem_pure, (sc_reads _ _ HS). Qed.
Lemma elem_safe i : safe J (elem (C := C) cont i). Proof. apply safe_calm, elem_calm. Qed.
Lemma size_safe : safe J (size_ (C := C) cont).
Proof. intros s x s' _ H. discriminate. Qed.
Lemma ret_safe {A} (a : A) : safe J (ret a).
Proof. intros s x s' _ H. discriminate. Qed.
Lemma diverge_safe {A} : safe J (@diverge (flat C CT) A).
Proof. intros s x s' _ H. discriminate. Qed.
Hint Resolve elem_pure' size_pure alone_pure alone_safe elem_safe size_safe ret_safe
  diverge_safe pure_ret pure_diverge : core.

Lemma lower_pure_x k fuel : forall first len, pure_ (lower_loop_x key kqm cont k fuel first len).
Proof.
  induction fuel as [|fuel IH]; intros first len; cbn [lower_loop_x];
    (apply pure_if; [auto|]); [auto|].
  apply pure_bind; [auto|]. intros e. apply pure_bind; [auto|]. intros b. now apply pure_if.
Qed.
Lemma upper_pure_x k fuel : forall first len, pure_ (upper_loop_x key qkm cont k fuel first len).
Proof.
  induction fuel as [|fuel IH]; intros first len; cbn [upper_loop_x];
    (apply pure_if; [auto|]); [auto|].
  apply pure_bind; [auto|]. intros e. apply pure_bind; [auto|]. intros b. now apply pure_if.
Qed.
Lemma lower_safe k fuel : forall first len, safe J (lower_loop_x key kqm cont k fuel first len).
Proof.
  induction fuel as [|fuel IH]; intros first len; cbn [lower_loop_x];
    (apply safe_if; [auto|]); [auto|].
  apply safe_bind; [auto|auto|]. intros e. apply safe_bind; [auto|auto|]. intros b.
  now apply safe_if.
Qed.
Lemma upper_safe k fuel : forall first len, safe J (upper_loop_x key qkm cont k fuel first len).
Proof.
  induction fuel as [|fuel IH]; intros first len; cbn [upper_loop_x];
    (apply safe_if; [auto|]); [auto|].
  apply safe_bind; [auto|auto|]. intros e. apply safe_bind; [auto|auto|]. intros b.
  now apply safe_if.
Qed.
Lemma equal_safe k fuel : forall first len,
  safe J (equal_loop_x key kqm qkm cont k fuel first len).
Proof.
  induction fuel as [|fuel IH]; intros first len; cbn [equal_loop_x];
    (apply safe_if; [auto|]); [auto|].
  apply safe_bind; [auto|auto|]. intros e. apply safe_bind; [auto|auto|]. intros b.
  apply safe_if; [auto|]. apply safe_bind; [auto|auto|]. intros b'.
  apply safe_if; [auto|]. apply safe_bind; [apply lower_safe|apply lower_pure_x|]. intros lo.
  apply safe_bind; [apply upper_safe|apply upper_pure_x|]. auto.
Qed.
Lemma present_safe k i : safe J (present_at_x key qkm cont k i).
Proof.
  apply safe_bind; [auto|auto|]. intros n. apply safe_if; [auto|].
  apply safe_bind; [auto|auto|]. intros e. apply safe_bind; auto.
Qed.
Lemma present_pure_x k i : pure_ (present_at_x key qkm cont k i).
Proof.
  apply pure_bind; [auto|]. intros n. apply pure_if; [auto|].
  apply pure_bind; [auto|]. intros e. apply pure_bind; auto.
Qed.
Lemma lower_bound_safe k : safe J (lower_bound_x key kqm cont k).
Proof. apply safe_bind; [auto|auto|]. intros n. apply lower_safe. Qed.
Lemma lower_bound_pure_x k : pure_ (lower_bound_x key kqm cont k).
Proof. apply pure_bind; [auto|]. intros n. apply lower_pure_x. Qed.
Lemma lookup_safe {X} k (f : nat -> bool -> M (flat C CT) X) :
  (forall i b, safe J (f i b)) ->
  safe J (let* i := lower_bound_x key kqm cont k in
          let* b := present_at_x key qkm cont k i in f i b).
Proof.
  intros H. apply safe_bind; [apply lower_bound_safe|apply lower_bound_pure_x|]. intros i.
  apply safe_bind; [apply present_safe|apply present_pure_x|]. auto.
Qed.
Lemma find_safe k : safe J (find_x key kqm qkm cont k).
Proof. apply lookup_safe. intros i b. apply safe_if; auto. Qed.
Lemma find_pure_x k : pure_ (find_x key kqm qkm cont k).
Proof.
  apply pure_bind; [apply lower_bound_pure_x|]. intros i.
  apply pure_bind; [apply present_pure_x|]. intros b. apply pure_if; auto.
Qed.
Lemma onc_safe o : used o -> safe J (onc (C := C) (c_call cont o)).
Proof.
  intros U [c t] x s' Hi H. unfold onc in H. cbn in *.
  destruct (c_call cont o t) as [|y t'| |] eqn:E0; try discriminate. injection H as -> <-.
  f_equal. eapply sc_call; eauto.
Qed.
Lemma answer_calm (r : option nat) : calm_ (match r with Some p => ret p | None => @ub (flat C CT) nat end).
Proof. destruct r; [apply calm_ret|apply calm_ub]. Qed.
Lemma emplace_safe i e : safe J (emplace_at cont i e).
Proof. apply safe_then; [now apply onc_safe|]. apply answer_calm. Qed.
Lemma erase_safe i : safe J (erase cont i).
Proof. apply safe_then; [now apply onc_safe|]. apply answer_calm. Qed.
Lemma then_ret {A B} (m : M (flat C CT) A) (f : A -> B) : safe J m -> safe J (bind m (fun a => ret (f a))).
Proof. intros H. apply safe_then; [exact H|]. intros a. apply calm_ret. Qed.
Lemma insert_safe q e : safe J (insert_x key kqm qkm cont q e).
Proof.
  apply lookup_safe. intros i b. apply safe_if; [auto|]. apply then_ret, emplace_safe.
Qed.

Lemma fcall_safe {T} asq (o : fop E Q) : safe J (fcall_x (T := T) key kqm qkm cont asq o).
Proof.
  destruct o; cbn [fcall_x]; apply then_ret; auto using insert_safe, erase_safe, find_safe, lower_bound_safe.
  - apply safe_bind; [apply find_safe|apply find_pure_x|]. intros i.
    apply safe_bind; [auto|apply size_pure|]. intros n. apply safe_if; [auto|].
    apply then_ret, erase_safe.
  - apply safe_bind; [apply find_safe|apply find_pure_x|]. intros i.
    apply safe_bind; [auto|apply size_pure|]. auto.
  - apply safe_bind; [auto|apply size_pure|]. intros n. apply upper_safe.
  - apply safe_bind; [auto|apply size_pure|]. intros n. apply equal_safe.
  - apply then_ret. now apply onc_safe.
Qed.
End Safe.

Lemma mcall_safe {K T Q C CT} kqm qkm (cont : container (K * T) CT) I conv dflt asq (o : mop K T Q) :
  strong_container cont I -> leaves_alone kqm -> leaves_alone qkm ->
  safe (fun s : flat C CT => I (fcont s)) (mcall_x kqm qkm cont conv dflt asq o).
Proof.
  intros HS H1 H2.
  assert (Cs : forall i, calm_ (second (C := C) cont i)).
  { intros i. apply calm_bind; [eapply elem_calm; eauto|]. intros e. apply calm_ret. }
  assert (Cp : forall i v, calm_ (set_second (C := C) cont i v)).
  { intros i v. apply calm_bind; [eapply elem_calm; eauto|]. intros e [c t] x s' H.
    unfold onc in H. cbn in H. destruct (c_put cont i (fst e, v) t) eqn:E0; try discriminate.
    now apply (sc_put _ _ HS) in E0. }
  assert (Hi : forall q, safe (fun s : flat C CT => I (fcont s)) (index_x kqm qkm cont conv dflt q)).
  { intros q. eapply lookup_safe; eauto. intros i b. apply safe_if.
    - apply safe_calm, calm_ret.
    - eapply emplace_safe; eauto. }
  assert (Ha : forall q, safe (fun s : flat C CT => I (fcont s)) (at_x kqm qkm cont q)).
  { intros q. eapply lookup_safe; eauto. intros i b. apply safe_if.
    - apply safe_calm, calm_ret.
    - apply safe_throw. }
  destruct o; cbn [mcall_x]; [eapply fcall_safe; eauto|..].
  - apply safe_then; [auto|]. intros i. apply calm_bind; [auto|]. intros v. apply calm_ret.
  - apply safe_then; [auto|]. intros i. apply calm_bind; [auto|]. intros u. apply calm_ret.
  - apply safe_then; [auto|]. intros i. apply calm_bind; [auto|]. intros v. apply calm_ret.
  - apply safe_then; [auto|]. intros i. apply calm_bind; [auto|]. intros u. apply calm_ret.
  - apply safe_calm. apply calm_bind; [auto|]. intros u. apply calm_ret.
Qed.

(** * Instances *)

Lemma vec_strong E moved full : strong_container (vec_cont_x E moved None full) (fun _ => True).
Proof.
  constructor.
  - intros i t. cbn. now destruct (nth_error t i).
  - intros i e t x t' H. cbn [c_put vec_cont_x vec_cont] in H.
    destruct (i <? length t); discriminate H.
  - intros o t x t' U _. destruct o; try contradiction; cbn [c_call vec_cont_x vec_call].
    + unfold vec_insert_x. destruct (length t <? pos); discriminate.
    + destruct (pos <? length t); discriminate.
    + discriminate.
Qed.

Section StaticVector.
Context {E : Type}.
Variable moved : E -> E.
Variable dflt : E.
Variable Capacity : nat.

Lemma sv_reads : plain_reads (sv_cont E moved dflt Capacity).
Proof.
  intros i t. cbn. unfold StaticVectorModel.at_, read.
  destruct (nth_error (data t) i) as [[|]|]; auto.
Qed.

(** No element operation throws: the fuse does not burn. *)
Definition mute {A} (m : M (@sv E) A) : Prop := forall s, fuse s = None ->
  match m s with
  | Ok _ s' => fuse s' = None
  | Throw _ _ => False
  | _ => True
  end.
Lemma mute_bind {A B} (m : M sv A) (k : A -> M sv B) : mute m -> (forall a, mute (k a)) -> mute (bind m k).
Proof.
  intros H1 H2 s F. specialize (H1 s F). unfold bind. destruct (m s) as [a s'|x s'| |]; auto.
  now apply H2.
Qed.
Lemma bind_assoc_at {A B D} (m : M (@sv E) A) (f : A -> M sv B) (g : B -> M sv D) s :
  bind (bind m f) g s = bind m (fun a => bind (f a) g) s.
Proof. unfold bind. now destruct (m s). Qed.
Lemma mute_ret {A} (a : A) : mute (ret a). Proof. now intros s F. Qed.
Lemma mute_ub {A} : mute (@ub sv A). Proof. now intros s F. Qed.
Lemma mute_diverge {A} : mute (@diverge sv A). Proof. now intros s F. Qed.
Lemma mute_get : mute get. Proof. now intros s F. Qed.
Lemma mute_if {A} (b : bool) (m k : M (@sv E) A) : mute m -> mute k -> mute (if b then m else k).
Proof. now destruct b. Qed.
Lemma mute_destroy i : mute (destroy i).
Proof.
  intros s F. unfold destroy. destruct (nth_error (data s) i) as [[|]|]; cbn; auto.
Qed.
Lemma mute_move i : mute (move_from moved i).
Proof.
  intros s F. unfold move_from. destruct (nth_error (data s) i) as [[|]|]; cbn; auto.
Qed.
Lemma mute_construct i x : mute (StaticVectorModel.construct i x).
Proof.
  assert (B : forall v, mute (begin_life i v)).
  { intros v s F. unfold begin_life. destruct (nth_error (data s) i) as [[|]|]; cbn; auto. }
  assert (T : mute (@tick E)) by (intros s F; unfold tick; now rewrite F).
  destruct x; cbn [StaticVectorModel.construct]; auto.
  - now apply mute_bind.
  - apply mute_bind.
    + intros s F. unfold read. destruct (nth_error (data s) k) as [[|]|]; auto.
    + intros v. now apply mute_bind.
Qed.
Lemma mute_set_size n : mute (set_size n). Proof. now intros s F. Qed.
Lemma mute_destroy_range fuel : forall p e, mute (destroy_range fuel p e).
Proof.
  induction fuel as [|f IH]; intros p e; cbn [destroy_range];
    (apply mute_if; [apply mute_ret|]); [apply mute_diverge|].
  apply mute_bind; [apply mute_destroy|auto].
Qed.
Lemma mute_grow_loop pos by_ k : mute (grow_loop moved pos by_ k).
Proof.
  induction k as [|k IH]; cbn [grow_loop]; [apply mute_ret|].
  apply mute_bind; [apply mute_move|]. intros v. apply mute_bind; [apply mute_construct|]. intros _.
  apply mute_bind; [apply mute_destroy|auto].
Qed.
Lemma mute_shrink_loop fuel : forall p np e, mute (shrink_loop moved fuel p np e).
Proof.
  induction fuel as [|f IH]; intros p np e; cbn [shrink_loop];
    (apply mute_if; [apply mute_ret|]); [apply mute_diverge|].
  apply mute_bind; [apply mute_destroy|]. intros _. apply mute_bind; [apply mute_move|]. intros v.
  apply mute_bind; [apply mute_construct|auto].
Qed.
Lemma mute_clear : mute (StaticVectorModel.clear Capacity).
Proof.
  apply mute_bind; [apply mute_get|]. intros s. apply mute_bind; [apply mute_destroy_range|].
  intros _. apply mute_set_size.
Qed.
(** What only throws before it does anything. *)
Lemma check_then {A} (s : @sv E) (b : bool) x (k : unit -> M sv A) :
  fuse s = None -> (forall a, mute (k a)) ->
  forall y s', bind (throw_if b x) k s = Throw y s' -> s' = s.
Proof.
  intros F Hk y s' H. destruct b.
  - rewrite (bind_throw _ _ s x s) in H by apply throw_if_true. congruence.
  - rewrite (bind_ok _ _ s tt s) in H by apply throw_if_false. specialize (Hk tt s F).
    now rewrite H in Hk.
Qed.
Lemma sv_strong :
  strong_container (sv_cont E moved dflt Capacity) (fun t => fuse t = None).
Proof.
  constructor; [apply sv_reads|..].
  - intros i e t x t' H. cbn in H. unfold sv_put in H.
    destruct (nth_error (data t) i) as [[|]|]; discriminate H.
  - intros o t x t' U F H. destruct o; try contradiction; cbn [c_call sv_cont StaticVectorModel.call] in H.
    + unfold position_answer in H. unfold bind at 1 in H.
      destruct (insert1 moved Capacity pos (CopyOf v) t) as [|y s| |] eqn:E1; try discriminate.
      assert (s = t' /\ y = x) as [-> ->] by (split; congruence). clear H.
      unfold insert1, grow_at in E1. rewrite bind_assoc_at, bind_get, bind_assoc_at in E1. revert E1. apply check_then; [exact F|]. intros u.
      apply mute_bind.
      * apply mute_if; [apply mute_ret|]. apply mute_bind; [apply mute_grow_loop|]. intros _.
        apply mute_bind; [apply mute_set_size|]. intros _. apply mute_ret.
      * intros p. apply mute_bind; [apply mute_construct|]. intros _. apply mute_ret.
    + unfold position_answer in H. unfold bind at 1 in H.
      destruct (StaticVectorModel.erase moved Capacity pos t) as [|y s| |] eqn:E1; try discriminate.
      assert (s = t' /\ y = x) as [-> ->] by (split; congruence). clear H.
      unfold StaticVectorModel.erase, shrink_at in E1. rewrite bind_get in E1.
      revert E1. apply check_then; [exact F|]. intros u. cbv zeta. apply mute_if.
      * apply mute_bind; [apply mute_clear|]. intros _. apply mute_ret.
      * apply mute_bind; [apply mute_shrink_loop|]. intros _.
        apply mute_bind; [apply mute_destroy_range|]. intros _.
        apply mute_bind; [apply mute_set_size|]. intros _. apply mute_ret.
    + unfold no_answer in H. unfold bind at 1 in H. pose proof (mute_clear t F) as Hc.
      destruct (StaticVectorModel.clear Capacity t); now try discriminate.
Qed.
End StaticVector.

(** * The refutations *)

(** Reading the elements of [l] from the container. *)
Definition reads {E CT} (cont : container E CT) (t : CT) (l : list E) : Prop :=
  c_size cont t = length l /\
  forall i e, nth_error l i = Some e -> c_get cont i t = Ok e t.

Section Lookup.
Context {E K Q C CT : Type}.
Variable key : E -> K.
Variable kq : C -> K -> Q -> bool.
Variable qk : C -> Q -> K -> bool.
Variable cont : container E CT.
Variable c : C.
Variable t : CT.
Variable l : list E.
Hypothesis HR : reads cont t l.

Lemma lower_sim k fuel : forall first len p,
  lower_loop key kq (vec_cont E) k fuel first len (mkFlat c l) = Ok p (mkFlat c l) ->
  lower_loop_x key (calm kq) cont k fuel first len (mkFlat c t) = Ok p (mkFlat c t).
Proof.
  induction fuel as [|fuel IH]; intros first len p; cbn [lower_loop_x lower_loop];
    destruct (len =? 0); try (unfold ret, diverge; congruence).
  unfold bind at 1, elem at 1, onc at 1. cbn [fcont vec_cont c_get].
  destruct (nth_error l (first + len / 2)) as [e|] eqn:He; [|discriminate].
  intros H. erewrite bind_ok.
  2:{ unfold elem, onc. cbn [fcont]. rewrite (proj2 HR _ _ He). reflexivity. }
  cbn [fcmp] in *. unfold bind, cmp_ in H. unfold bind, calm. cbn [fcmp] in *.
  destruct (kq c (key e) k); auto.
Qed.
Lemma lower_bound_sim k p :
  lower_bound key kq (vec_cont E) k (mkFlat c l) = Ok p (mkFlat c l) ->
  lower_bound_x key (calm kq) cont k (mkFlat c t) = Ok p (mkFlat c t).
Proof.
  intros H. unfold lower_bound_x, bind, size_. cbn [fcont]. rewrite (proj1 HR).
  now apply lower_sim.
Qed.
Lemma present_sim k i b :
  present_at key qk (vec_cont E) k i (mkFlat c l) = Ok b (mkFlat c l) ->
  present_at_x key (calm qk) cont k i (mkFlat c t) = Ok b (mkFlat c t).
Proof.
  unfold present_at, present_at_x, bind at 1, size_ at 1. cbn [fcont vec_cont c_size].
  intros H. unfold bind at 1, size_. cbn [fcont]. rewrite (proj1 HR).
  destruct (i =? length l); [unfold ret in *; congruence|].
  revert H. unfold bind at 1, elem at 1, onc at 1. cbn [fcont vec_cont c_get].
  destruct (nth_error l i) as [e|] eqn:He; [|discriminate].
  intros H. erewrite bind_ok.
  2:{ unfold elem, onc. cbn [fcont]. rewrite (proj2 HR _ _ He). reflexivity. }
  cbn in H. unfold bind, cmp_, ret in H. cbn in H.
  assert (Hb : negb (qk c k (key e)) = b) by congruence. rewrite <- Hb. reflexivity.
Qed.
End Lookup.

Lemma move_up_pair {E} (moved : E -> E) pos steps : forall k l,
  1 <= steps <= k -> pos + k < length l ->
  nth_error (move_up moved pos k steps l) (pos + k - steps) =
    option_map moved (nth_error l (pos + k - steps)) /\
  nth_error (move_up moved pos k steps l) (S (pos + k - steps)) = nth_error l (pos + k - steps).
Proof.
  induction steps as [|n IH]; intros k l Hs Hk; [lia|]. destruct k as [|k']; [lia|].
  cbn [move_up]. replace (pos + S k' - S n) with (pos + k' - n) by lia.
  destruct (nth_error l (pos + k')) as [x|] eqn:Ex.
  2:{ apply nth_error_None in Ex. lia. }
  destruct n as [|n].
  - rewrite Nat.sub_0_r, Ex. cbn [option_map].
    assert (R : forall l0 : list E, move_up moved pos k' 0 l0 = l0) by (intros; now destruct k').
    rewrite R. split.
    + rewrite nth_error_upd_eq; [reflexivity|]. rewrite upd_length. lia.
    + rewrite nth_error_upd_neq by lia. apply nth_error_upd_eq. lia.
  - destruct (IH k' (upd (upd l (S (pos + k')) x) (pos + k') (moved x))) as [H1 H2]; [lia| |].
    { rewrite !upd_length. lia. }
    rewrite H1, H2. rewrite !nth_error_upd_neq by lia. split; reflexivity.
Qed.

Lemma vec_insert_breaks {E} (moved : E -> E) n p e (l : list E) :
  p <= length l -> 1 <= n <= length l - p ->
  exists l', vec_insert_x moved (Some n) p e l = Throw ElemThrow l' /\
    nth_error l' (length l - n) = option_map moved (nth_error l (length l - n)) /\
    nth_error l' (S (length l - n)) = nth_error l (length l - n).
Proof.
  intros Hp Hn. unfold vec_insert_x.
  destruct (Nat.ltb_spec (length l) p); [lia|]. destruct (Nat.leb_spec n (length l - p)); [|lia].
  destruct n as [|m]; [lia|]. destruct (rev l) as [|x r] eqn:Er.
  { apply (f_equal (@length E)) in Er. rewrite rev_length in Er. cbn in Er. lia. }
  assert (El : l = rev r ++ [x]) by (rewrite <- (rev_involutive l), Er; reflexivity).
  assert (Hx : nth_error l (length l - 1) = Some x).
  { rewrite El, app_length. cbn [length]. rewrite Nat.add_sub, nth_error_app2, Nat.sub_diag by lia.
    reflexivity. }
  eexists. split; [reflexivity|].
  set (l1 := upd l (length l - 1) (moved x) ++ [x]).
  assert (L1 : length l1 = S (length l)) by (unfold l1; rewrite app_length, upd_length; cbn; lia).
  assert (N1 : forall i, i < length l - 1 -> nth_error l1 i = nth_error l i).
  { intros i Hi. unfold l1. rewrite nth_error_app1 by (rewrite upd_length; lia).
    apply nth_error_upd_neq. lia. }
  destruct m as [|m].
  - assert (R : move_up moved p (length l - p - 1) 0 l1 = l1) by now destruct (length l - p - 1).
    rewrite R, Hx. cbn [option_map]. unfold l1. split.
    + rewrite nth_error_app1 by (rewrite upd_length; lia). apply nth_error_upd_eq. lia.
    + replace (S (length l - 1)) with (length l) by lia.
      rewrite nth_error_app2 by (rewrite upd_length; lia). now rewrite upd_length, Nat.sub_diag.
  - destruct (move_up_pair moved p (S m) (length l - p - 1) l1) as [H1 H2]; [lia|lia|].
    replace (p + (length l - p - 1) - S m) with (length l - S (S m)) in * by lia.
    rewrite H1, H2, N1 by lia. auto.
Qed.

(** An insertion whose key is absent reaches the container, whatever that then does. *)
Lemma insert_reaches {E K C CT} (key : E -> K) (lt : C -> K -> K -> bool) (cont : container E CT)
  c t l m e :
  strict_weak_order (lt c) -> reads cont t l -> enumerates key lt c l m -> m (key e) = None ->
  exists p, border (fun x => lt c (key x) (key e) = true) l p /\
    forall x t', c_call cont (Insert p e) t = Throw x t' ->
    insert_x key (calm lt) (calm lt) cont (key e) e (mkFlat c t) = Throw x (mkFlat c t').
Proof.
  intros W HR EN Hm.
  destruct (lookup_fact key lt lt lt (vec_cont E) None (fun t l => t = l) (vec_conforms E)
              (fun k => k) c W (fun k q => eq_refl) (fun k q => eq_refl) l l m eq_refl EN (key e))
    as (p & H1 & H2 & H3 & H4). rewrite Hm in H4.
  exists p. split; [exact H2|]. intros x t' H. unfold insert_x.
  erewrite bind_ok by (eapply lower_bound_sim; eauto).
  erewrite bind_ok by (eapply present_sim; eauto). cbv beta iota.
  apply bind_throw. unfold emplace_at. apply bind_throw. unfold onc. cbn [fcont fcmp].
  now rewrite H.
Qed.

Lemma insert_broken_fact :
  forall (E K C : Type) (key : E -> K) (lt : C -> K -> K -> bool) (moved : E -> E)
    (full : bool) c l m e n y,
  strict_weak_order (lt c) ->
  enumerates key lt c l m -> m (key e) = None ->
  1 <= n <= length l -> nth_error l (length l - n) = Some y -> lt c (key e) (key y) = true ->
  lt c (key (moved y)) (key y) = false ->
  exists s',
    insert_x key (calm lt) (calm lt) (vec_cont_x E moved (Some n) full) (key e) e (mkFlat c l) =
      Throw ElemThrow s' /\
    fcmp s' = c /\ ~ ascending key (lt c) (fcont s') /\
    forall m', ~ holds key lt (fun t l => t = l) s' (c, m').
Proof.
  intros E K C key lt moved full c l m e n y W EN Hm Hn Hy Hey Hmv.
  destruct (insert_reaches key lt (vec_cont_x E moved (Some n) full) c l l m e W) as (p & Hb & Hi);
    auto.
  { split; [reflexivity|]. intros i x Hx. cbn. now rewrite Hx. }
  assert (Hp : p <= length l - n).
  { destruct (le_lt_dec p (length l - n)) as [H|H]; [exact H|exfalso].
    destruct Hb as (_ & B & _). specialize (B _ _ H Hy). cbn beta in B.
    rewrite (lt_asym _ W _ _ B) in Hey. discriminate. }
  destruct (vec_insert_breaks moved n p e l) as (l' & V1 & V2 & V3); [lia|lia|].
  exists (mkFlat c l'). split; [now apply Hi|]. split; [reflexivity|].
  assert (NA : ~ ascending key (lt c) l').
  { intros A. rewrite Hy in V2, V3. cbn [option_map] in V2.
    rewrite (A _ _ _ _ (Nat.lt_succ_diag_r _) V2 V3) in Hmv. discriminate. }
  split; [exact NA|]. intros m' (_ & l0 & Hl & A & _). apply NA. cbn in Hl. now subst l0.
Qed.

Lemma copy_assign_broken_fact :
  forall (E K C : Type) (key : E -> K) (lt : C -> K -> K -> bool) (moved : E -> E) bad
    (a b : flat C (list E)) i j u v,
  i < j -> nth_error (fcont a) i = Some u -> nth_error (fcont a) j = Some v ->
  lt (fcmp b) (key u) (key v) = false ->
  exists a',
    FlatModel.copy_assign (vec_cont_x E moved bad true) (a, b) = Throw BadAlloc (a', b) /\
    fcont a' = fcont a /\
    forall c' m', ~ holds key lt (fun t l => t = l) a' (c', m').
Proof.
  intros E K C key lt moved bad [ca la] [cb lb] i j u v Hij Hu Hv Hlt. cbn in *.
  exists (mkFlat cb la). split; [reflexivity|]. split; [reflexivity|].
  intros c' m' (Hc & l & Hl & A & _). cbn in *. subst l c'.
  rewrite (A _ _ _ _ Hij Hu Hv) in Hlt. discriminate.
Qed.

Lemma static_broken_fact :
  forall (E K C : Type) (key : E -> K) (lt : C -> K -> K -> bool) (moved : E -> E) (dflt : E)
    (Capacity : nat),
  (N.of_nat Capacity < two63)%N ->
  forall c (t : @sv E) l m e,
  strict_weak_order (lt c) ->
  represents Capacity t l -> fuse t = Some 0 -> length l < Capacity ->
  enumerates key lt c l m -> m (key e) = None ->
  exists s',
    insert_x key (calm lt) (calm lt) (sv_cont E moved dflt Capacity) (key e) e (mkFlat c t) =
      Throw ElemThrow s' /\
    FlatModel.clear (sv_cont E moved dflt Capacity) s' = UB /\
    ~ usable Capacity (fcont s').
Proof.
  intros E K C key lt moved dflt Capacity Hcap c t l m e W R F Hl EN Hm.
  destruct (insert_reaches key lt (sv_cont E moved dflt Capacity) c t l m e W) as (p & Hb & Hi); auto.
  { pose proof (represents_inv Capacity Hcap t l R) as Et. rewrite Et. split; [reflexivity|].
    intros i x Hx. apply read_repr. exact Hx. }
  destruct (insert_exception_fact moved Capacity Hcap t l p [e] 0 R F) as (_ & _ & H1);
    [apply Hb|cbn; lia|cbn [length]; lia|].
  destruct (H1 e eq_refl) as (s' & E1 & E2 & E3).
  exists (mkFlat c s'). split; [|split; [|exact E3]].
  - apply Hi. cbn [c_call sv_cont StaticVectorModel.call]. unfold position_answer. now apply bind_throw.
  - unfold FlatModel.clear. apply bind_ub. unfold onc. cbn [fcont c_call sv_cont StaticVectorModel.call].
    unfold no_answer. now rewrite (bind_ub _ _ _ E2).
Qed.
