(** Proofs about data_mutex under the C++ memory model. *)
From Coq Require Import List Arith Bool Lia.
From Verif Require Import Base ConcModel ConcSpec ConcProofs WmModel WmProofs MutexWeakModel MutexWeakProofs
  DmutexModel DmutexSpec DmutexProofs DmutexWeakModel DmutexWeakSpec.
Import ListNotations.
Open Scope nat_scope.

Notation may := MutexWeakModel.may.
Notation laccess := WmModel.access.

(** * Happens-before *)

(** What is known of an access to the data: by whom it is known. *)
Definition covered (e : est) (a : laccess) : Prop :=
  match mex (base e) with
  | Some (t, _) => known e t a
  | None =>
      if awrite a then
        atime a <= relx e (athr a) /\ forall t, In t (msh (base e)) -> known e t a
      else
        atime a <= relx e (athr a) \/ atime a <= rels e (athr a) \/
        (In (athr a) (msh (base e)) /\ known e (athr a) a)
  end.
Definition ok (e : est) : Prop :=
  wr (base e) = None /\ rd (base e) = [] /\ mutex_ok (base e) /\ forall a, In a (elog e) -> covered e a.

(** A thread which accesses the data has locked the mutex. *)
Definition fine (s : dst) : Prop :=
  (forall t, In t (rd s) -> 0 < holds t true s + holds t false s) /\
  (forall t, wr s = Some t -> 0 < holds t true s) /\ mutex_ok s.

Lemma holds_ex t s : 0 < holds t true s -> exists d, mex s = Some (t, d).
Proof.
  unfold holds. destruct (mex s) as [[u d]|]; [|lia]. destruct (Nat.eqb_spec u t) as [->|]; [eauto|lia].
Qed.
Lemma holds_sh t s : 0 < holds t false s -> In t (msh s).
Proof. unfold holds. intros H. apply (count_occ_In Nat.eq_dec). lia. Qed.

Lemma may_ex e t w : ok e -> 0 < holds t true (base e) -> may t w (eclk e) (elog e) = true.
Proof.
  intros (_ & _ & _ & H) Hh. destruct (holds_ex _ _ Hh) as (d & E). apply below_may. intros a Ha.
  specialize (H a Ha). unfold covered in H. rewrite E in H. exact H.
Qed.
Lemma may_sh e t : ok e -> 0 < holds t true (base e) + holds t false (base e) ->
  may t false (eclk e) (elog e) = true.
Proof.
  intros H Hh. destruct (Nat.eq_dec (holds t true (base e)) 0) as [E|E]; [|apply may_ex; auto; lia].
  destruct H as (_ & _ & Hm & H). assert (In t (msh (base e))) as Hin by (apply holds_sh; lia).
  assert (mex (base e) = None) as Em.
  { unfold mutex_ok in Hm. destruct (mex (base e)) as [[u d]|]; [|reflexivity]. destruct Hm as [_ Hm].
    rewrite Hm in Hin. easy. }
  apply forallb_forall. intros a Ha. specialize (H a Ha). unfold covered in H. rewrite Em in H.
  unfold ordered. destruct (awrite a); [|reflexivity]. cbn. apply Nat.leb_le. now apply H.
Qed.

Lemma covered_clk e clk' a : (forall t u, eclk e t u <= clk' t u) -> covered e a ->
  covered (Est (base e) (relx e) (rels e) clk' (elog e)) a.
Proof.
  intros Hle. unfold covered, known. cbn. destruct (mex (base e)) as [[t d]|].
  - specialize (Hle t (athr a)). lia.
  - destruct (awrite a).
    + intros [H1 H2]. split; [exact H1|]. intros t Ht. specialize (H2 t Ht). specialize (Hle t (athr a)). lia.
    + intros [H|[H|[H1 H2]]]; auto. right. right. split; [exact H1|]. specialize (Hle (athr a) (athr a)). lia.
Qed.

(** An access by a thread which has locked the mutex. *)
Lemma ok_access e t (w : bool) d : ok e ->
  (if w then 0 < holds t true (base e) else 0 < holds t true (base e) + holds t false (base e)) ->
  ok (Est (with_d (base e) d None []) (relx e) (rels e) (tick t (eclk e)) (note t w (eclk e) (elog e))).
Proof.
  intros H Hh. pose proof H as (H1 & H2 & Hm & H3). split; [reflexivity|]. split; [reflexivity|]. split; [exact Hm|].
  cbn [elog]. intros a Ha. apply in_app_iff in Ha as [Ha|[<-|[]]].
  - specialize (H3 a Ha). apply (covered_clk e (tick t (eclk e))) in H3; [exact H3|].
    intros u v. apply tick_le.
  - unfold covered, known. cbn. unfold mutex_ok in Hm. destruct (mex (base e)) as [[u dd]|] eqn:Em.
    + assert (u = t) as ->.
      { destruct (Nat.eq_dec u t) as [|Hn]; [assumption|]. exfalso. unfold holds in Hh. rewrite Em in Hh.
        destruct Hm as [_ Hm]. rewrite Hm in Hh. rewrite (proj2 (Nat.eqb_neq _ _) Hn) in Hh.
        cbn in Hh. destruct w; lia. }
      unfold tick. now rewrite !setm_eq.
    + unfold holds in Hh. rewrite Em in Hh. destruct w; [lia|]. right. right. split.
      * apply (count_occ_In Nat.eq_dec). cbn in Hh. lia.
      * unfold tick. now rewrite !setm_eq.
Qed.

(** * Simulation *)
Section Sim.
Variable recur : bool.

(** The weak code and the interleaved one: each action of the first is some actions of the second;
    unless those lead to what does not happen. *)
Fixpoint sim {A} (cw : code est A) (c : code dst A) : Prop :=
  match cw with
  | Ret r => c = Ret r
  | Act aw => forall n e, ok e ->
      match aw n e with
      | Next e' cw' => exists l c', csteps l c (base e) = Some (base e', c') /\
          (mutex_ok (base e') -> ok e') /\ sim cw' c'
      | Wait => True
      | Bad => False
      end \/
      (exists l s1 c1, csteps l c (base e) = Some (s1, c1) /\
         (~ fine s1 \/ exists a k, c1 = Act a /\ a k s1 = Bad))
  end.

Lemma csteps_bind {S A B} l (c : code S A) (f : A -> code S B) s s' c' :
  csteps l c s = Some (s', c') -> csteps l (cbind c f) s = Some (s', cbind c' f).
Proof.
  revert c s. induction l as [|n l IH]; intros c s; cbn [csteps].
  - now intros [= <- <-].
  - destruct c as [r|a]; [discriminate|]. cbn [cbind]. destruct (a n s); try discriminate. apply IH.
Qed.

Fixpoint sim_bind {A B} (cw : code est A) (c : code dst A) (fw : A -> code est B) (f : A -> code dst B) {struct cw} :
  sim cw c -> (forall r, sim (fw r) (f r)) -> sim (cbind cw fw) (cbind c f).
Proof.
  destruct cw as [r|aw]; cbn [sim cbind].
  - intros -> H. apply H.
  - intros H1 H2 n e He. destruct (H1 n e He) as [K|(l & s1 & c1 & E & K)].
    + left. destruct (aw n e) as [e' cw'| |]; [|exact K|exact K]. destruct K as (l & c' & E & He' & HS).
      exists l, (cbind c' f). split; [now apply csteps_bind|]. split; [exact He'|]. now apply sim_bind.
    + right. exists l, s1, (cbind c1 f). split; [now apply csteps_bind|]. destruct K as [K|(a & k & -> & K)]; [now left|].
      right. eexists _, k. split; [reflexivity|]. cbn beta. now rewrite K.
Qed.

Lemma sim_ret {A} (r : A) : sim (Ret r) (Ret r).
Proof. reflexivity. Qed.
Lemma sim_bad {A} : sim (@cbad est A) (@cbad dst A).
Proof. intros n e He. right. exists [], (base e), cbad. split; [reflexivity|]. right. eexists _, 0. now split. Qed.

(** Actions on guards. *)
Definition guards_only {A} (c : code dst A) : Prop :=
  match c with
  | Ret _ => True
  | Act a => forall n s, match a n s with
                         | Next s' (Ret _) => mex s' = mex s /\ msh s' = msh s /\ wr s' = wr s /\ rd s' = rd s
                         | Next _ (Act _) => False
                         | _ => True
                         end
  end.
Lemma ok_guards e s' : mex s' = mex (base e) -> msh s' = msh (base e) -> wr s' = wr (base e) -> rd s' = rd (base e) ->
  ok e -> ok (with_base e s').
Proof.
  intros E1 E2 E3 E4 (H1 & H2 & H3 & H4). unfold ok, mutex_ok, covered, known in *. cbn. rewrite E1, E2, E3, E4.
  repeat split; auto.
Qed.
Lemma sim_guards {A} (c : code dst A) : guards_only c -> sim (on_base c) c.
Proof.
  destruct c as [r|a]; [reflexivity|]. intros H n e He. specialize (H n (base e)).
  destruct (a n (base e)) as [s' c'| |] eqn:E.
  - left. destruct c' as [r|]; [|easy]. destruct H as (E1 & E2 & E3 & E4).
    exists [n], (Ret r). cbn [csteps]. rewrite E. split; [reflexivity|]. split; [|reflexivity].
    intros _. now apply ok_guards.
  - now left.
  - right. exists [], (base e), (Act a). split; [reflexivity|]. right. eauto.
Qed.
Lemma sim_new t k p : sim (e_new t k p) (g_new t k p).
Proof. apply sim_guards. intros n s. now repeat split. Qed.
Lemma sim_get t l : sim (e_get t l) (g_get t l).
Proof. apply sim_guards. intros n s. cbn. now destruct (mine t l s). Qed.
Lemma sim_put t l x : sim (e_put t l x) (g_put t l x).
Proof. apply sim_guards. intros n s. cbn. destruct (mine t l s); [|exact Logic.I]. now repeat split. Qed.

(** Locking. *)
Lemma take_cases ex t s (busy : aout dst (code dst locked)) : wr s = None -> rd s = [] -> mutex_ok s ->
  m_take recur ex t s busy = busy \/ m_take recur ex t s busy = Bad \/
  exists e h, m_take recur ex t s busy = Next (with_m s e h) (Ret LOk) /\
    match mex s with
    | Some (u, d) => u = t /\ ex = true /\ e = Some (t, S d) /\ h = msh s
    | None => if ex then msh s = [] /\ e = Some (t, 1) /\ h = [] else e = None /\ h = t :: msh s
    end.
Proof.
  intros _ _ _. unfold m_take. destruct (mex s) as [[u d]|].
  - destruct (Nat.eqb_spec u t) as [->|]; [|now left]. destruct ex; cbn [andb]; [|auto].
    destruct recur; [|auto]. right. right. eexists _, _. split; [reflexivity|]. auto.
  - destruct ex.
    + destruct (msh s) as [|a l] eqn:E.
      * right. right. eexists _, _. split; [reflexivity|]. auto.
      * destruct (is_in t (a :: l)); auto.
    + destruct (is_in t (msh s) && negb recur); [auto|]. right. right. eexists _, _. split; [reflexivity|]. auto.
Qed.

Lemma ok_take e ex t m h : ok e ->
  match mex (base e) with
  | Some (u, d) => u = t /\ ex = true /\ m = Some (t, S d) /\ h = msh (base e)
  | None => if ex then msh (base e) = [] /\ m = Some (t, 1) /\ h = [] else m = None /\ h = t :: msh (base e)
  end -> mutex_ok (with_m (base e) m h) -> ok (acquire ex t (with_base e (with_m (base e) m h))).
Proof.
  intros (H1 & H2 & H3 & H4) K Hm. split; [exact H1|]. split; [exact H2|]. split; [exact Hm|].
  cbn [elog acquire with_base]. intros a Ha. specialize (H4 a Ha). unfold covered, known in *. cbn.
  destruct (mex (base e)) as [[u d]|] eqn:Em.
  - destruct K as (-> & -> & -> & ->). rewrite setm_eq. unfold cjoin. lia.
  - destruct ex.
    + destruct K as (Es & -> & ->). rewrite setm_eq. rewrite Es in H4. unfold cjoin. destruct (awrite a).
      * destruct H4. lia.
      * destruct H4 as [H|[H|[[] _]]]; lia.
    + destruct K as (-> & ->). destruct (awrite a).
      * destruct H4 as [K1 K2]. split; [exact K1|]. intros u [->|Hu].
        -- rewrite setm_eq. unfold cjoin. lia.
        -- unfold setm. destruct (Nat.eqb_spec u t) as [->|]; [|now apply K2]. unfold cjoin. lia.
      * destruct H4 as [H|[H|[Hi H]]]; auto. right. right. split; [now right|].
        unfold setm. destruct (Nat.eqb_spec (athr a) t) as [E|]; [|exact H]. unfold cjoin. rewrite E in *. lia.
Qed.

Lemma sim_lock ex t : sim (e_lock recur ex t) (m_lock recur false ex t).
Proof.
  unfold e_lock, e_locking, m_lock. cbn [sim]. intros n e He. pose proof He as (H1 & H2 & H3 & H4). cbn beta.
  assert (match n with 0 => m_take recur ex t (base e) Wait | S _ => m_take recur ex t (base e) Wait end
    = m_take recur ex t (base e) Wait) as -> by now destruct n.
  destruct (take_cases ex t (base e) Wait H1 H2 H3) as [E|[E|(m & h & E & K)]].
  - left. now rewrite E.
  - right. eexists [], _, _. split; [reflexivity|]. right. eexists _, 0. split; [reflexivity|]. exact E.
  - left. rewrite E. exists [0], (Ret LOk). cbn [csteps]. rewrite E. split; [reflexivity|]. split; [|reflexivity].
    intros Hm. now apply ok_take.
Qed.
Lemma sim_try ex t : sim (e_try recur ex t) (m_try recur false ex t).
Proof.
  unfold e_try, e_locking, m_try. cbn [sim]. intros n e He. pose proof He as (H1 & H2 & H3 & H4). cbn beta.
  assert (with_base e (base e) = e) as Eb by now destruct e.
  destruct n as [|[|n]].
  - destruct (take_cases ex t (base e) (Next (base e) (Ret LNo)) H1 H2 H3) as [E|[E|(m & h & E & K)]]; rewrite E.
    + left. exists [1], (Ret LNo). split; [reflexivity|]. rewrite Eb. split; [auto|reflexivity].
    + right. eexists [], _, _. split; [reflexivity|]. right. eexists _, 0. split; [reflexivity|]. exact E.
    + left. exists [0], (Ret LOk). cbn [csteps]. rewrite E. split; [reflexivity|]. split; [|reflexivity].
      intros Hm. now apply ok_take.
  - left. exists [1], (Ret LNo). split; [reflexivity|]. rewrite Eb. split; [auto|reflexivity].
  - left. exists [1], (Ret LNo). split; [reflexivity|]. rewrite Eb. split; [auto|reflexivity].
Qed.

Lemma remove1_in t u l : In u l -> u <> t -> In u (remove1 t l).
Proof.
  induction l as [|x l IH]; [easy|]. cbn. intros [->|H] Hn.
  - rewrite (proj2 (Nat.eqb_neq u t)) by auto. now left.
  - destruct (x =? t); [exact H|]. right. auto.
Qed.
Lemma in_remove1 t u l : In u (remove1 t l) -> In u l.
Proof.
  induction l as [|x l IH]; [easy|]. cbn. destruct (x =? t); [now right|]. intros [->|H]; auto.
Qed.

Lemma sim_unlock ex t : sim (e_unlock ex t) (m_unlock ex t).
Proof.
  unfold e_unlock, m_unlock. cbn [sim]. intros n e He. pose proof He as (H1 & H2 & H3 & H4). destruct ex.
  - destruct (mex (base e)) as [[u d]|] eqn:Em.
    2:{ right. exists [], (base e), (m_unlock true t). split; [reflexivity|]. right. eexists _, 0.
        split; [reflexivity|]. cbn. now rewrite Em. }
    destruct (Nat.eqb_spec u t) as [->|Hu].
    2:{ right. exists [], (base e), (m_unlock true t). split; [reflexivity|]. right. eexists _, 0.
        split; [reflexivity|]. cbn. now rewrite Em, (proj2 (Nat.eqb_neq u t) Hu). }
    left. exists [0], (Ret tt). cbn [csteps m_unlock]. rewrite Em, Nat.eqb_refl. split; [reflexivity|]. split; [|reflexivity].
    intros Hm. split; [exact H1|]. split; [exact H2|]. split; [exact Hm|].
    cbn [elog release with_base]. intros a Ha. specialize (H4 a Ha). unfold covered, known in *. rewrite Em in H4. cbn.
    unfold mutex_ok in H3. rewrite Em in H3. destruct H3 as [_ H3]. rewrite H3.
    destruct (d =? 1); [|exact H4]. destruct (awrite a).
    + split; [unfold cjoin; lia|easy].
    + left. unfold cjoin. lia.
  - destruct (is_in t (msh (base e))) eqn:Ei.
    2:{ right. exists [], (base e), (m_unlock false t). split; [reflexivity|]. right. eexists _, 0.
        split; [reflexivity|]. cbn. now rewrite Ei. }
    left. exists [0], (Ret tt). cbn [csteps m_unlock]. rewrite Ei. split; [reflexivity|]. split; [|reflexivity].
    intros Hm. split; [exact H1|]. split; [exact H2|]. split; [exact Hm|].
    cbn [elog release with_base]. intros a Ha. specialize (H4 a Ha). unfold covered, known in *. cbn.
    destruct (mex (base e)) as [[u d]|]; [exact H4|]. destruct (awrite a).
    + destruct H4 as [K1 K2]. split; [exact K1|]. intros u Hu. apply K2. eapply in_remove1; eauto.
    + destruct H4 as [H|[H|[Hi H]]]; auto; [right; left; unfold cjoin; lia|].
      destruct (Nat.eq_dec (athr a) t) as [E|E].
      * right. left. rewrite E in *. unfold cjoin. lia.
      * right. right. split; [now apply remove1_in|exact H].
Qed.

(** Guards. *)
Lemma sim_dtor t l : sim (e_dtor t l) (g_dtor t l).
Proof.
  apply sim_bind; [apply sim_get|]. intros g. apply sim_bind; [|intros _; apply sim_put].
  destruct (gp g); [apply sim_bad|apply sim_ret|apply sim_unlock].
Qed.
Lemma sim_move t l : sim (e_move t l) (g_move t l).
Proof.
  apply sim_bind; [apply sim_get|]. intros g. apply sim_bind; [apply sim_new|]. intros l'.
  apply sim_bind; [apply sim_put|]. intros _. apply sim_ret.
Qed.
Lemma sim_ctor_lock t k : sim (e_ctor_lock recur t k) (ctor_lock recur false t k).
Proof.
  apply sim_bind; [apply sim_new|]. intros l. apply sim_bind; [apply sim_lock|].
  intros [| |]; try apply sim_ret. apply sim_bind; [apply sim_dtor|intros _; apply sim_ret].
Qed.
Lemma sim_ctor_try t k : sim (e_ctor_try recur t k) (ctor_try recur false t k).
Proof.
  apply sim_bind; [apply sim_new|]. intros l. apply sim_bind; [apply sim_try|].
  intros [| |]; (apply sim_bind; [|intros _; apply sim_ret]); try apply sim_put. apply sim_dtor.
Qed.
Lemma sim_return t l : sim (e_return t l) (g_return t l).
Proof.
  intros n e He. left. exists [n], (match n with 0 => Ret l | S _ => cbind (g_move t l) (fun l' => cbind (g_dtor t l) (fun _ => Ret l')) end).
  split; [reflexivity|]. split; [auto|]. destruct n; [apply sim_ret|].
  apply sim_bind; [apply sim_move|]. intros l'. apply sim_bind; [apply sim_dtor|]. intros _. apply sim_ret.
Qed.

Lemma with_d_same s : wr s = None -> rd s = [] -> with_d s (dat s) None [] = s.
Proof. destruct s. cbn. now intros -> ->. Qed.

(** Access: the interleaved machine begins and ends it. *)
Lemma sim_read t l : sim (e_read t l) (d_read t l).
Proof.
  apply sim_bind; [apply sim_get|]. intros g. destruct (gp g); try apply sim_bad.
  intros n e He. pose proof He as (H1 & H2 & H3 & H4).
  assert (csteps [0] (cbind (Act (fun _ s => match wr s with
                      | None => Next (with_d s (dat s) None (t :: rd s)) (Ret tt)
                      | Some _ => Bad
                      end)) (fun _ => Act (fun _ s => match dat s with
                      | Some v => Next (with_d s (dat s) (wr s) (remove1 t (rd s))) (Ret v)
                      | None => Bad
                      end))) (base e) = Some (with_d (base e) (dat (base e)) None [t],
                      Act (fun _ s => match dat s with
                      | Some v => Next (with_d s (dat s) (wr s) (remove1 t (rd s))) (Ret v)
                      | None => Bad
                      end))) as E1.
  { cbn. now rewrite H1, H2. }
  destruct (dat (base e)) as [v|] eqn:Ed.
  - destruct (Nat.eq_dec (holds t true (base e) + holds t false (base e)) 0) as [Eh|Eh].
    + right. eexists [0], _, _. split; [exact E1|]. left. intros (F & _). specialize (F t). cbn [with_d rd] in F.
      assert (0 < holds t true (base e) + holds t false (base e)); [apply F; now left|lia].
    + left. rewrite may_sh by (auto; lia). exists [0; 0], (Ret v). split.
      { cbn. rewrite H1, H2. cbn. rewrite Ed. cbn. rewrite Nat.eqb_refl.
        f_equal. f_equal. unfold with_d. cbn. rewrite <- Ed, <- H1, <- H2 at 1. now destruct (base e). }
      split; [|reflexivity]. intros _.
      pose proof (ok_access e t false (dat (base e)) He) as K. cbn beta iota in K.
      assert (with_d (base e) (dat (base e)) None [] = base e) as Eb by now apply with_d_same.
      rewrite Eb in K. apply K. lia.
  - right. eexists [0], _, _. split; [exact E1|]. right. eexists _, 0. split; [reflexivity|]. cbn. now rewrite ?Ed.
Qed.
Lemma sim_write t l v : sim (e_write t l v) (d_write t l v).
Proof.
  apply sim_bind; [apply sim_get|]. intros g. destruct (gp g), (gk g); try apply sim_bad.
  intros n e He. pose proof He as (H1 & H2 & H3 & H4).
  destruct (Nat.eq_dec (holds t true (base e)) 0) as [Eh|Eh].
  - right. eexists [0], _, _. split; [cbn; rewrite H1, H2; reflexivity|]. left. intros (_ & F & _).
    specialize (F t eq_refl). change (holds t true (with_d (base e) None (Some t) [])) with (holds t true (base e)) in F. lia.
  - left. rewrite may_ex by (auto; lia). exists [0; 0], (Ret tt). split; [cbn; now rewrite H1, H2|].
    split; [|reflexivity]. intros _. apply (ok_access e t true (Some v)); auto. lia.
Qed.

Lemma sim_impl t c : sim (eimpl recur t c) (dimpl recur false t c).
Proof.
  destruct c as [k [|]|l|l|l|l|l v]; cbn [eimpl dimpl].
  - apply sim_bind; [apply sim_ctor_try|]. intros [l|]; [|apply sim_ret].
    apply sim_bind; [apply sim_return|]. intros r. apply sim_ret.
  - apply sim_bind; [apply sim_ctor_lock|]. intros [l|]; [|apply sim_ret].
    apply sim_bind; [apply sim_return|]. intros r. apply sim_ret.
  - apply sim_bind; [apply sim_move|]. intros r. apply sim_ret.
  - apply sim_bind; [apply sim_dtor|]. intros r. apply sim_ret.
  - apply sim_bind; [apply sim_get|]. intros g. destruct (gp g); [apply sim_bad| |]; apply sim_ret.
  - apply sim_bind; [apply sim_read|]. intros r. apply sim_ret.
  - apply sim_bind; [apply sim_write|]. intros r. apply sim_ret.
Qed.

(** * Executions *)
Variable v0 : nat.
Notation dreach := (reach (dimpl recur false) dcview drview (dallowed recur) (start (dst0 v0))).
Notation ereach := (reach (eimpl recur) ecview erview (eallowed recur) (start (est0 v0))).

Lemma dreach_fine c : dreach c -> fine (sh c).
Proof.
  intros H. destruct (dreach_good recur v0 c H) as (x & G & E & Hr & HI & Hth).
  destruct HI as (A & _ & C). split; [|split; [|exact A]]; intros t Ht;
    destruct (C t) as (_ & _ & D3 & _ & (D5 & D6 & D7) & _); rewrite !D3.
  - destruct (gw (G t)) eqn:Eg; [| |].
    + apply (count_occ_In Nat.eq_dec) in Ht. lia.
    + exact D7.
    + lia.
  - apply D5 in Ht. rewrite Ht in D7. exact D7.
Qed.

Definition crel (cw : cfg est drs dvcall dvres) (c : cfg dst drs dvcall dvres) : Prop :=
  ok (sh cw) /\ sh c = base (sh cw) /\ hist c = hist cw /\
  forall t, match th cw t with
            | None => th c t = None
            | Some k => exists k', th c t = Some k' /\ sim k k'
            end.

Lemma crel_step cw cw' c : crel cw c -> dreach c ->
  step (eimpl recur) ecview erview (eallowed recur) cw cw' -> exists c', dreach c' /\ crel cw' c'.
Proof.
  intros (HO & HS & HH & HT) Hc Hstep. destruct c as [s T h]. cbn [sh hist th] in *. subst s.
  inversion Hstep as [w Tw hw t k Ht Hal|w Tw hw t a i w' k Ht Ha|w Tw hw t r Ht]; subst; cbn [sh th hist] in *.
  - pose proof (HT t) as K. rewrite Ht in K.
    eexists. split; [eapply r_step; [exact Hc|]; apply s_inv; [exact K|exact Hal]|].
    split; [exact HO|]. split; [reflexivity|]. split; [reflexivity|]. cbn [th]. intros u.
    destruct (Nat.eq_dec u t) as [->|Hn].
    + rewrite !setm_eq. eexists. split; [reflexivity|]. apply sim_impl.
    + rewrite !setm_neq by exact Hn. apply HT.
  - pose proof (HT t) as K. rewrite Ht in K. destruct K as (k' & Hk & HSim). cbn [sim] in HSim.
    destruct (HSim i w HO) as [K|(l & s1 & c1 & E & K)].
    + rewrite Ha in K. destruct K as (l & c' & E & HO' & HS').
      destruct (run_csteps (dimpl recur false) dcview drview (dallowed recur) t l k' (base w) T hw (base w') c' Hk E)
        as (T' & T1 & T2 & T3).
      pose proof (reach_trans _ _ _ _ _ _ _ Hc T3) as Hc'.
      eexists. split; [exact Hc'|]. split.
      { apply HO'. exact (proj2 (proj2 (dreach_fine _ Hc'))). }
      split; [reflexivity|]. split; [reflexivity|]. cbn [th]. intros u. destruct (Nat.eq_dec u t) as [->|Hn].
      * rewrite setm_eq. eauto.
      * rewrite setm_neq, T2 by exact Hn. apply HT.
    + exfalso. destruct (run_csteps (dimpl recur false) dcview drview (dallowed recur) t l k' (base w) T hw s1 c1 Hk E)
        as (T' & T1 & T2 & T3).
      pose proof (reach_trans _ _ _ _ _ _ _ Hc T3) as Hc'. destruct K as [K|(a1 & j & -> & K)].
      * apply K. exact (dreach_fine _ Hc').
      * apply (dreach_not_bad recur v0 _ Hc'). exists t, a1, j. now split.
  - pose proof (HT t) as K. rewrite Ht in K. destruct K as (k' & Hk & HSim). cbn [sim] in HSim. subst k'.
    eexists. split; [eapply r_step; [exact Hc|]; apply s_ret; exact Hk|].
    split; [exact HO|]. split; [reflexivity|]. split; [reflexivity|]. cbn [th]. intros u.
    destruct (Nat.eq_dec u t) as [->|Hn].
    + now rewrite !setm_eq.
    + rewrite !setm_neq by exact Hn. apply HT.
Qed.

Lemma ereach_sim cw : ereach cw -> exists c, dreach c /\ crel cw c.
Proof.
  intros H. induction H as [|cw cw' H IH Hs].
  - exists (start (dst0 v0)). split; [apply r_refl|]. split.
    + split; [reflexivity|]. split; [reflexivity|]. split; [exact Logic.I|]. intros a [].
    + split; [reflexivity|]. split; [reflexivity|]. now intros t.
  - destruct IH as (c & Hc & HR). eapply crel_step; eauto.
Qed.

Lemma ereach_not_bad cw : ereach cw -> ~ bad cw.
Proof.
  intros H (t & a & n & Ht & Ha). destruct (ereach_sim cw H) as (c & Hc & HO & HS & HH & HT).
  specialize (HT t). rewrite Ht in HT. destruct HT as (k' & Hk & HSim). cbn [sim] in HSim.
  destruct (HSim n (sh cw) HO) as [K|(l & s1 & c1 & E & K)]; [now rewrite Ha in K|].
  destruct c as [s T h]. cbn [sh th hist] in *. subst s.
  destruct (run_csteps (dimpl recur false) dcview drview (dallowed recur) t l k' (base (sh cw)) T h s1 c1 Hk E)
    as (T' & T1 & T2 & T3).
  pose proof (reach_trans _ _ _ _ _ _ _ Hc T3) as Hc'. destruct K as [K|(a1 & j & -> & K)].
  - apply K. exact (dreach_fine _ Hc').
  - apply (dreach_not_bad recur v0 _ Hc'). exists t, a1, j. now split.
Qed.
End Sim.

Section Facts.
Variable recur : bool.
Variable v0 : nat.
Notation ereach := (reach (eimpl recur) ecview erview (eallowed recur) (start (est0 v0))).

Lemma ereach_lin cw : ereach cw -> linearizable (fun L => exists v, seq_run datum v0 L v) (hist cw).
Proof.
  intros H. destruct (ereach_sim recur v0 cw H) as (c & Hc & _ & _ & HH & _). rewrite <- HH.
  exact (dreach_lin recur v0 c Hc).
Qed.

Lemma ereach_locked cw t ex : ereach cw -> th cw t = None -> holds t ex (base (sh cw)) = guards t ex (base (sh cw)).
Proof.
  intros H Ht. destruct (ereach_sim recur v0 cw H) as (c & Hc & _ & HS & _ & HT). rewrite <- HS.
  specialize (HT t). rewrite Ht in HT. now apply (dreach_locked recur v0).
Qed.

Lemma ereach_ok cw : ereach cw -> ok (sh cw).
Proof. intros H. destruct (ereach_sim recur v0 cw H) as (c & _ & HO & _). exact HO. Qed.

Lemma ereach_knows cw t a : ereach cw -> th cw t = None -> In a (elog (sh cw)) ->
  (0 < guards t true (base (sh cw)) \/ (awrite a = true /\ 0 < guards t false (base (sh cw)))) -> known (sh cw) t a.
Proof.
  intros H Ht Ha Hg. pose proof (ereach_ok cw H) as (_ & _ & Hm & HO). specialize (HO a Ha). unfold covered in HO.
  rewrite <- !(ereach_locked cw t _ H Ht) in Hg. destruct Hg as [Hg|[Hw Hg]].
  - destruct (holds_ex _ _ Hg) as (d & E). now rewrite E in HO.
  - apply holds_sh in Hg. unfold mutex_ok in Hm. destruct (mex (base (sh cw))) as [[u d]|].
    + destruct Hm as [_ Hm]. rewrite Hm in Hg. easy.
    + rewrite Hw in HO. now apply HO.
Qed.
End Facts.
