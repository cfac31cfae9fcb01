(** Proofs about atomic_shared_ptr_storage with the C++ memory model. *)
From Coq Require Import List Arith Bool Lia.
From Verif Require Import Base ConcModel ConcSpec ConcProofs WmModel AspsModel AspsSpec AspsProofs
  WmProofs AspsWeakModel AspsWeakSpec.
Import ListNotations.

(** * The modification order of a spinlock's flag *)

(** Nothing but read-modify-write operations sets the flag, and nothing else clears it. *)
Definition valued (l : list (msg bool)) : Prop := forall m, In m l -> mval m = mrmw m.
(** Between two clearings there is a setting. *)
Definition spaced (l : list (msg bool)) : Prop := forall a x y b,
  l = a ++ x :: y :: b -> mrmw x = false -> mrmw y = true.
(** What is known of the flag: who holds the lock, and that everything done to m_ptr is known
    to the holder, or to who acquires the flag next. *)
Definition lock_inv (s : wst) (f : option nat) : Prop :=
  valued (mo (wflag s)) /\ spaced (mo (wflag s)) /\ numbered (wflag s) /\
  match f with
  | None => exists l m, mo (wflag s) = l ++ [m] /\ mrmw m = false /\
      forall a, In a (wlog s) -> atime a <= mclk m (athr a)
  | Some t => exists l m r, mo (wflag s) = l ++ m :: r /\ mid m = seen (wflag s) t /\
      (forall x, In x (m :: r) -> mrmw x = true) /\
      forall a, In a (wlog s) -> atime a <= wclk s t (athr a)
  end.

Lemma valued_ins a x m b : valued (a ++ x :: b) -> mval m = mrmw m -> valued (a ++ x :: m :: b).
Proof.
  intros H Hm y Hy. apply in_app_or in Hy as [Hy|[->|[<-|Hy]]]; auto; apply H; apply in_or_app; cbn; auto.
Qed.

Lemma spaced_in a x y b l : spaced l -> l = a ++ x :: y :: b -> mrmw y = false -> mrmw x = true.
Proof. intros H E Hy. destruct (mrmw x) eqn:Hx; [reflexivity|]. now rewrite (H a x y b E Hx) in Hy. Qed.

(** A message by a read-modify-write operation may come anywhere. *)
Lemma spaced_ins_rmw a x m b : spaced (a ++ x :: b) -> mrmw m = true -> spaced (a ++ x :: m :: b).
Proof.
  revert a. intros a H Hm a' u v b' E Hu.
  revert a' E. induction a as [|z a IH]; intros a' E.
  - destruct a' as [|z' a']; cbn in E.
    + injection E as <- <- _. exact Hm.
    + injection E as <- E. destruct a' as [|z' a']; cbn in E.
      * injection E as <- _. congruence.
      * injection E as <- E. apply (H ([x] ++ a') u v b'); [cbn; now rewrite E|exact Hu].
  - destruct a' as [|z' a']; cbn in E.
    + injection E as -> E. destruct a as [|w a]; cbn in E.
      * injection E as <- _. apply (H [] u x b); [reflexivity|exact Hu].
      * injection E as <- _. apply (H [] u w (a ++ x :: b)); [reflexivity|exact Hu].
    + injection E as <- E. apply IH with a'; [|exact E].
      intros c p q d Ec Hp. apply (H (z :: c) p q d); [cbn; now rewrite Ec|exact Hp].
Qed.

(** A clearing may come at the end, after a setting. *)
Lemma spaced_snoc l x m : spaced (l ++ [x]) -> mrmw x = true -> spaced (l ++ [x; m]).
Proof.
  intros H Hx a u v b E Hu.
  destruct b as [|w b] using rev_ind.
  - replace (l ++ [x; m]) with ((l ++ [x]) ++ [m]) in E by (rewrite <- app_assoc; reflexivity).
    replace (a ++ [u; v]) with ((a ++ [u]) ++ [v]) in E by (rewrite <- app_assoc; reflexivity).
    apply app_inj_tail in E as [E _]. apply app_inj_tail in E as [_ E]. congruence.
  - clear IHb. replace (l ++ [x; m]) with ((l ++ [x]) ++ [m]) in E by (rewrite <- app_assoc; reflexivity).
    replace (a ++ u :: v :: b ++ [w]) with ((a ++ u :: v :: b) ++ [w]) in E
      by (rewrite <- app_assoc; reflexivity).
    apply app_inj_tail in E as [E _]. exact (H a u v b E Hu).
Qed.

(** test_and_set: succeeds only if nobody holds the lock, and then everything done to m_ptr is
    known. *)
Lemma lock_step s f t n v L c : lock_inv s f ->
  rmw Acquire (fun _ => true) t n (wflag s) (wclk s) = Some (v, L, c) ->
  if v then lock_inv (with_lock s L c) f
  else f = None /\ lock_inv (with_lock s L c) (Some t).
Proof.
  intros (Hv & Hs & Hn & Hf) E. unfold rmw in E. cbn [acquires releases] in E.
  destruct (nth_error (mo (wflag s)) n) as [x|] eqn:Hx; [|discriminate].
  destruct (place t n (wflag s)) eqn:Hp; [|discriminate].
  set (m' := Msg (fresh (wflag s)) true true (mclk x)) in E.
  destruct (place_split t n (wflag s) x m' Hx Hp) as (a & b & EL & EI & Hseen & Hb).
  rewrite EI in E. injection E as <- <- <-.
  set (L' := Loc (a ++ x :: m' :: b) (S (fresh (wflag s))) (setm (seen (wflag s)) t (fresh (wflag s)))).
  assert (N' : numbered L') by (unfold L'; now apply numbered_ins).
  pose proof Hv as Hv0. pose proof Hs as Hs0. rewrite EL in Hv, Hs.
  assert (V' : valued (mo L')) by (cbn [mo L']; now apply valued_ins).
  assert (S' : spaced (mo L')) by (cbn [mo L']; now apply spaced_ins_rmw).
  assert (Ex : mval x = mrmw x) by (apply Hv, in_or_app; right; now left).
  destruct f as [u|].
  - destruct Hf as (l & m & r & El & Em & Hr & Hlog). rewrite EL in El.
    assert (Hxr : mrmw x = true).
    { destruct Hb as [->|(y & b' & -> & Hy)]; [|eapply spaced_in; [exact Hs|reflexivity|exact Hy]].
      destruct (tail_case _ _ _ _ _ _ El) as [(c & _ & Hc)|(c & Hc & _)].
      - now destruct c.
      - apply Hr. rewrite Hc. apply in_or_app. right. now left. }
    rewrite Ex, Hxr. split; [exact V'|]. split; [exact S'|]. split; [exact N'|].
    assert (Hlog' : forall ac, In ac (wlog s) ->
      atime ac <= setm (wclk s) t (cjoin (wclk s t) (mclk x)) u (athr ac)).
    { intros ac Hac. specialize (Hlog ac Hac). destruct (Nat.eq_dec u t) as [->|Hne].
      - rewrite setm_eq. pose proof (cjoin_l (wclk s t) (mclk x) (athr ac)). lia.
      - now rewrite setm_neq. }
    cbn [wflag with_lock wlog wclk mo seen L'].
    destruct Hb as [->|(y & b' & -> & Hy)].
    + destruct (Nat.eq_dec u t) as [->|Hne].
      * exists (a ++ [x]), m', []. rewrite setm_eq. split; [now rewrite <- app_assoc|].
        split; [reflexivity|]. split; [now intros z [<-|[]]|exact Hlog'].
      * exists l, m, (r ++ [m']). rewrite setm_neq by exact Hne. split.
        { change (l ++ m :: r ++ [m']) with (l ++ (m :: r) ++ [m']). rewrite app_assoc, <- El, <- app_assoc.
          reflexivity. }
        split; [exact Em|]. split; [|exact Hlog'].
        intros z [<-|Hz]; [apply Hr; now left|]. apply in_app_or in Hz as [Hz|[<-|[]]]; [apply Hr; now right|reflexivity].
    + destruct (tail_case _ _ _ _ _ _ El) as [(c & -> & Hc)|(c & Hc & _)].
      2:{ exfalso. rewrite Hr in Hy; [discriminate|]. rewrite Hc. apply in_or_app. right. right. now left. }
      destruct c as [|z c].
      { cbn in Hc. injection Hc as -> _. rewrite Hr in Hy; [discriminate|now left]. }
      cbn in Hc. injection Hc as <- ->.
      assert (Hne : u <> t).
      { intros ->. rewrite <- Em in Hseen. destruct Hn as [Hnd _]. rewrite EL in Hseen, Hnd.
        replace (a ++ x :: y :: c ++ m :: r) with ((a ++ x :: y :: c) ++ m :: r) in Hseen, Hnd
          by (now rewrite <- app_assoc).
        rewrite index_of_mid in Hseen by exact Hnd. rewrite app_length in Hseen. cbn in Hseen. lia. }
      exists (a ++ x :: m' :: y :: c), m, r. rewrite setm_neq by exact Hne.
      split; [now rewrite <- app_assoc|]. auto.
  - destruct Hf as (l & m & El & Hm & Hlog). rewrite EL in El.
    destruct Hb as [->|(y & b' & -> & Hy)].
    + apply app_inj_tail in El as [-> ->]. rewrite Ex, Hm. split; [reflexivity|].
      split; [exact V'|]. split; [exact S'|]. split; [exact N'|].
      exists (l ++ [m]), m', []. cbn [wflag with_lock wlog wclk mo seen L']. rewrite setm_eq.
      split; [now rewrite <- app_assoc|]. split; [reflexivity|].
      split; [now intros z [<-|[]]|].
      intros ac Hac. specialize (Hlog ac Hac). rewrite setm_eq.
      pose proof (cjoin_r (wclk s t) (mclk m) (athr ac)). lia.
    + assert (Hxr : mrmw x = true) by (eapply spaced_in; [exact Hs|reflexivity|exact Hy]).
      rewrite Ex, Hxr. split; [exact V'|]. split; [exact S'|]. split; [exact N'|].
      cbn [wflag with_lock wlog wclk mo seen L'].
      assert (exists k, y :: b' = k ++ [m] /\ l = a ++ x :: k) as (k & Ek & ->).
      { destruct (tail_case _ _ _ _ _ _ El) as [(c & -> & ->)|(c & Hc & _)].
        - exists c. auto.
        - destruct c as [|z c]; cbn in Hc; [discriminate|]. injection Hc as _ Hc. now destruct c. }
      exists (a ++ x :: m' :: k), m. rewrite Ek. split; [now rewrite <- app_assoc|]. auto.
Qed.

(** clear by the holder: only the end of the modification order is left for it. *)
Lemma unlock_step s t n L : lock_inv s (Some t) ->
  wstore Release false t n (wflag s) (wclk s) = Some L ->
  lock_inv (with_lock s L (wclk s)) None.
Proof.
  intros (Hv & Hs & Hn & (l & m & r & El & Em & Hr & Hlog)) E. unfold wstore in E. cbn [releases] in E.
  destruct (nth_error (mo (wflag s)) n) as [x|] eqn:Hx; [|discriminate].
  destruct (place t n (wflag s)) eqn:Hp; [|discriminate].
  set (m' := Msg (fresh (wflag s)) false false (wclk s t)) in E.
  destruct (place_split t n (wflag s) x m' Hx Hp) as (a & b & EL & EI & Hseen & Hb).
  rewrite EI in E. injection E as <-.
  rewrite <- Em, El, index_of_mid in Hseen by (rewrite <- El; apply Hn).
  pose proof El as El0. rewrite EL in El.
  destruct (tail_case _ _ _ _ _ _ El) as [(c & -> & _)|(c & Hc & ->)].
  { rewrite app_length in Hseen. cbn in Hseen. lia. }
  assert (b = []) as ->.
  { destruct Hb as [->|(y & b' & -> & Hy)]; [reflexivity|]. exfalso.
    rewrite Hr in Hy; [discriminate|]. rewrite Hc. apply in_or_app. right. right. now left. }
  assert (Hxr : mrmw x = true). { apply Hr. rewrite Hc. apply in_or_app. right. now left. }
  split; [|split; [|split]]; cbn [wflag with_lock wlog wclk].
  - cbn [mo]. apply valued_ins; [|reflexivity]. now rewrite <- EL.
  - cbn [mo]. apply spaced_snoc; [|exact Hxr]. now rewrite <- EL.
  - now apply numbered_ins.
  - exists ((l ++ c) ++ [x]), m'. cbn [mo]. split; [now rewrite <- (app_assoc (l ++ c))|]. split; [reflexivity|exact Hlog].
Qed.

(** The holder may touch m_ptr. *)
Lemma touch_held s t w : lock_inv s (Some t) -> exists s', touch t 0 w s = Some s' /\
  lock_inv s' (Some t) /\ wobjs s' = wobjs s /\ wown s' = wown s /\ wcnt s' = wcnt s /\
  wncb s' = wncb s /\ wgone s' = wgone s.
Proof.
  intros (Hv & Hs & Hn & (l & m & r & El & Em & Hr & Hlog)). unfold touch. cbn [Nat.eqb].
  assert (F : forallb (ordered t w (wclk s t)) (wlog s) = true).
  { apply forallb_forall. intros a Ha. unfold ordered. apply orb_true_iff. right.
    apply Nat.leb_le. now apply Hlog. }
  rewrite F. eexists. split; [reflexivity|]. split; [|repeat split].
  split; [exact Hv|]. split; [exact Hs|]. split; [exact Hn|].
  exists l, m, r. cbn [wflag wlog wclk]. split; [exact El|]. split; [exact Em|]. split; [exact Hr|].
  intros a Ha. rewrite setm_eq. apply in_app_or in Ha as [Ha|[<-|[]]].
  - specialize (Hlog a Ha). unfold setm. destruct (athr a =? t) eqn:Et; [|exact Hlog].
    apply Nat.eqb_eq in Et. rewrite Et in Hlog. lia.
  - cbn [athr atime]. now rewrite setm_eq.
Qed.

(** * Simulation *)

Definition rel (w : wst) (s : ast) : Prop :=
  wobjs w = objs s /\ wown w = own s /\ wcnt w = cnt s /\ wncb w = ncb s /\
  wgone w = map fst (gone s) /\ lock_inv w (flag s).

(** The code of a thread [t] which has the flag as [h] says, and in the end as [h2] says. *)
Fixpoint sim {A} (t : nat) (h h2 : bool) (cw : wcode wst A) (c : code ast A) : Prop :=
  match cw with
  | WRet r => c = Ret r /\ h = h2
  | WAct aw =>
      match c with
      | Ret _ => False
      | Act a => forall n w s, rel w s -> has_flag t s = h ->
          (exists k, a k s = Bad) \/
          match aw n w with
          | WNext w' cw' => exists k s' c' h', a k s = Next s' c' /\ rel w' s' /\
              has_flag t s' = h' /\ (forall u, u <> t -> has_flag u s' = has_flag u s) /\
              sim t h' h2 cw' c'
          | WStay w' => rel w' s
          | WBad => False
          end
      end
  end.

Fixpoint sim_bind {A B} t h h1 h2 (cw : wcode wst A) c (fw : A -> wcode wst B) f {struct cw} :
  sim t h h1 cw c -> (forall r, sim t h1 h2 (fw r) (f r)) -> sim t h h2 (wbind cw fw) (cbind c f).
Proof.
  destruct cw as [r|aw]; cbn [sim wbind].
  - intros [-> ->] H. apply H.
  - destruct c as [r|a]; [easy|]. cbn [cbind sim]. intros H1 H2 n w s HR Hh.
    specialize (H1 n w s HR Hh).
    destruct H1 as [(k & Hk)|H1]; [left; exists k; now rewrite Hk|right].
    destruct (aw n w) as [w' cw'|w'|]; [|exact H1|exact H1].
    destruct H1 as (k & s' & c' & h' & Hk & R' & Hf & Ho & HS).
    exists k, s', (cbind c' f), h'. rewrite Hk. repeat (split; [now auto|]).
    exact (sim_bind A B t h' h1 h2 cw' c' fw f HS H2).
Qed.

Lemma sim_ret {A} t h (r : A) : sim t h h (WRet r) (Ret r).
Proof. split; reflexivity. Qed.

(** An action which does not concern the lock. *)
Lemma sim_act {A} t h (aw : nat -> wst -> wout wst (wcode wst A)) a :
  (forall n w s, rel w s -> has_flag t s = h ->
    (exists k, a k s = Bad) \/
    exists w' r k s', aw n w = WNext w' (WRet r) /\ a k s = Next s' (Ret r) /\ rel w' s' /\
      flag s' = flag s) ->
  sim t h h (WAct aw) (Act a).
Proof.
  intros H n w s HR Hh. destruct (H n w s HR Hh) as [HB|(w' & r & k & s' & E1 & E2 & R' & Ef)]; [now left|].
  right. rewrite E1. exists k, s', (Ret r), h. unfold has_flag in *. rewrite Ef.
  split; [exact E2|]. split; [exact R'|]. split; [exact Hh|]. split; [reflexivity|]. now split.
Qed.

Lemma sim_lock t : sim t false true (wl_lock t) (sl_lock t).
Proof.
  intros n w s HR Hh. right. destruct HR as (H1 & H2 & H3 & H4 & H5 & HL). cbn beta.
  destruct (rmw Acquire (fun _ => true) t n (wflag w) (wclk w)) as [[[v L] c]|] eqn:E.
  - pose proof (lock_step w _ t n v L c HL E) as K. destruct v.
    + unfold rel. cbn. auto 10.
    + destruct K as [Ef K]. exists 0, (with_flag s (Some t)), (Ret tt), true. rewrite Ef.
      split; [reflexivity|]. split; [unfold rel; cbn; auto 10|].
      split; [cbn; apply Nat.eqb_refl|]. split; [|now split].
      intros u Hu. unfold has_flag. rewrite Ef. cbn. now apply Nat.eqb_neq, Nat.neq_sym.
  - unfold rel. auto 10.
Qed.

(** A thread which has the flag waits for itself. *)
Lemma sim_lock_held {A} t h2 (fw : unit -> wcode wst A) f :
  sim t true h2 (wbind (wl_lock t) fw) (cbind (sl_lock t) f).
Proof.
  intros n w s HR Hh. right. destruct HR as (H1 & H2 & H3 & H4 & H5 & HL). cbn beta.
  destruct (rmw Acquire (fun _ => true) t n (wflag w) (wclk w)) as [[[v L] c]|] eqn:E.
  - pose proof (lock_step w _ t n v L c HL E) as K. destruct v.
    + unfold rel. cbn. auto 10.
    + destruct K as [Ef _]. unfold has_flag in Hh. now rewrite Ef in Hh.
  - unfold rel. auto 10.
Qed.

Lemma has_flag_some t s : has_flag t s = true -> flag s = Some t.
Proof. unfold has_flag. destruct (flag s) as [u|]; [|easy]. intros H. apply Nat.eqb_eq in H. now subst. Qed.

Lemma sim_unlock t : sim t true false (wl_unlock t) (sl_unlock t).
Proof.
  intros n w s HR Hh. right. destruct HR as (H1 & H2 & H3 & H4 & H5 & HL). cbn beta.
  apply has_flag_some in Hh. rewrite Hh in HL.
  destruct (wstore Release false t n (wflag w) (wclk w)) as [L|] eqn:E.
  - apply (unlock_step w t n L HL) in E. exists 0, (with_flag s None), (Ret tt), false.
    split; [reflexivity|]. split; [unfold rel; cbn; auto 10|]. split; [reflexivity|]. split; [|now split].
    intros u Hu. unfold has_flag. rewrite Hh. cbn. symmetry. now apply Nat.eqb_neq, Nat.neq_sym.
  - unfold rel. rewrite Hh. auto 10.
Qed.

(** An access by a thread which may make it succeeds, and changes nothing that is seen. *)
Lemma touch_ok t l w s b : rel w s -> acc t l s = true ->
  exists w', touch t l b w = Some w' /\ rel w' s.
Proof.
  intros (H1 & H2 & H3 & H4 & H5 & HL) Ha. unfold acc in Ha.
  destruct (l =? 0) eqn:El.
  - apply Nat.eqb_eq in El as ->. apply has_flag_some in Ha. rewrite Ha in HL.
    destruct (touch_held w t b HL) as (w' & E & HL' & E1 & E2 & E3 & E4 & E5).
    exists w'. split; [exact E|]. unfold rel. rewrite Ha, E1, E2, E3, E4, E5. auto 10.
  - exists w. unfold touch. rewrite El, H2, Ha. split; [reflexivity|]. unfold rel. auto 10.
Qed.

Lemma obj_same w s l : rel w s -> wobj w l = obj s l.
Proof. intros (H & _). unfold wobj, obj. now rewrite H. Qed.

(** Changing what both states have. *)
Lemma lock_inv_ext w w' f : lock_inv w f -> wflag w' = wflag w -> wclk w' = wclk w -> wlog w' = wlog w ->
  lock_inv w' f.
Proof. unfold lock_inv. intros H -> -> ->. exact H. Qed.

Ltac related HR := unfold rel in *; cbn; destruct HR as (Q1 & Q2 & Q3 & Q4 & Q5 & QL);
  split; [try congruence|split; [try congruence|split; [try congruence|split; [try congruence|split; [try congruence|]]]]];
  try (eapply lock_inv_ext; [exact QL|reflexivity|reflexivity|reflexivity]).

Lemma sim_get t h l : sim t h h (wsp_get t l) (sp_get t l).
Proof.
  apply sim_act. intros n w s HR Hh. destruct (acc t l s) eqn:Ea; [|left; now exists 0].
  destruct (obj s l) as [p|] eqn:Eo; [right|left; now exists 0].
  destruct (touch_ok t l w s false HR Ea) as (w' & E & R').
  exists w', p, 0, s. rewrite E, (obj_same w' s l R'), Eo. auto.
Qed.

Lemma sim_add t h p : sim t h h (wsp_add t p) (sp_add t p).
Proof.
  apply sim_act. intros n w s HR Hh. pose proof HR as (E1 & E2 & E3 & E4 & E5 & _).
  destruct (cb p) as [b|] eqn:Ec.
  - rewrite E3. destruct (cnt s b =? 0) eqn:En; [left; now exists 0|right].
    eexists _, _, 0, _. split; [reflexivity|]. split; [rewrite E1; reflexivity|]. split; [|reflexivity].
    related HR.
  - right. eexists _, _, 0, _. split; [reflexivity|]. split; [rewrite E1; reflexivity|]. split; [|reflexivity].
    related HR.
Qed.

Lemma sim_copy t h l : sim t h h (wsp_copy t l) (sp_copy t l).
Proof. eapply sim_bind; [apply sim_get|]. intros p. apply sim_add. Qed.

Lemma sim_move t h l : sim t h h (wsp_move t l) (sp_move t l).
Proof.
  apply sim_act. intros n w s HR Hh. destruct (acc t l s) eqn:Ea; [|left; now exists 0].
  destruct (obj s l) as [p|] eqn:Eo; [right|left; now exists 0].
  destruct (touch_ok t l w s true HR Ea) as (w' & E & R').
  rewrite E, (obj_same w' s l R'), Eo. pose proof R' as (E1 & _).
  eexists _, _, 0, _. split; [reflexivity|]. split; [rewrite E1; reflexivity|]. split; [|reflexivity].
  related R'; rewrite upd_length; congruence.
Qed.

Lemma sim_swap t h k l : sim t h h (wsp_swap t k l) (sp_swap t k l).
Proof.
  apply sim_act. intros n w s HR Hh. destruct (acc t k s) eqn:Ea; [|left; now exists 0].
  destruct (acc t l s) eqn:Eb; [|left; exists 0; cbn; now rewrite ?Ea, ?Eb].
  destruct (obj s k) as [p|] eqn:Eo; [|left; exists 0; now cbn].
  destruct (obj s l) as [q|] eqn:Eq; [right|left; exists 0; now cbn].
  destruct (touch_ok t k w s true HR Ea) as (w1 & E & R1). rewrite E.
  destruct (touch_ok t l w1 s true R1 Eb) as (w2 & E2 & R2). rewrite E2.
  rewrite (obj_same w2 s k R2), Eo, (obj_same w2 s l R2), Eq. cbn [andb].
  eexists _, _, 0, _. split; [reflexivity|]. split; [reflexivity|]. split; [|reflexivity].
  related R2.
Qed.

Lemma sim_release t h l : sim t h h (wsp_release t l) (sp_release t l).
Proof.
  apply sim_act. intros n w s HR Hh. destruct (acc t l s) eqn:Ea; [|left; now exists 0].
  destruct (obj s l) as [p|] eqn:Eo; [|left; now exists 0].
  destruct (touch_ok t l w s true HR Ea) as (w' & E & R'). rewrite E, (obj_same w' s l R'), Eo.
  pose proof R' as (E1 & E2 & E3 & E4 & E5 & _).
  destruct (cb p) as [b|] eqn:Ec.
  - rewrite E3. destruct (cnt s b =? 0) eqn:En; [left; now exists 0|right].
    eexists _, _, 0, _. split; [reflexivity|]. split; [reflexivity|]. split; [|reflexivity].
    related R'.
  - right. eexists _, _, 0, _. split; [reflexivity|]. split; [reflexivity|]. split; [|reflexivity].
    related R'.
Qed.

Lemma sim_dispose t h b : sim t h h (wdispose t b) (dispose t b).
Proof.
  apply sim_act. intros n w s HR Hh. pose proof HR as (E1 & E2 & E3 & E4 & E5 & _).
  assert (EE : existsb (fun e => fst e =? b) (wgone w) = existsb (fun e => fst (fst e) =? b) (gone s)).
  { rewrite E5. clear. induction (gone s) as [|x l IH]; [reflexivity|]. cbn. now rewrite IH. }
  rewrite EE. destruct (existsb _ (gone s)) eqn:Eg; [left; now exists 0|right].
  eexists _, _, 0, _. split; [reflexivity|]. split; [reflexivity|]. split; [|reflexivity].
  related HR. rewrite map_app. cbn. congruence.
Qed.

Lemma sim_load t h : sim t h h (wload t) (load t).
Proof.
  destruct h; [apply sim_lock_held|]. unfold wload, load.
  eapply sim_bind; [apply sim_lock|intros _]. eapply sim_bind; [apply sim_copy|intros r].
  eapply sim_bind; [apply sim_unlock|intros _]. apply sim_ret.
Qed.

Section Storage.
Variable uses : nat -> bool.

Lemma sim_destroy n : forall t h l, sim t h h (wdestroy uses n t l) (destroy uses n t l).
Proof.
  induction n as [|n IH]; intros t h l; cbn [wdestroy destroy];
    (eapply sim_bind; [apply sim_release|intros [b|]; [|apply sim_ret]]);
    (eapply sim_bind; [apply sim_dispose|intros _]); destruct (uses b); try apply sim_ret.
  eapply sim_bind; [apply sim_load|]. intros r. apply IH.
Qed.

Variable n : nat.
Lemma sim_assign t h d l : sim t h h (wsp_assign uses n t d l) (sp_assign uses n t d l).
Proof.
  eapply sim_bind; [apply sim_copy|intros x]. eapply sim_bind; [apply sim_swap|intros _]. apply sim_destroy.
Qed.
Lemma sim_holder_store t q : sim t false false (wholder_store uses n t q) (holder_store uses n t q).
Proof.
  eapply sim_bind; [apply sim_lock|intros _]. eapply sim_bind; [apply sim_swap|intros _].
  eapply sim_bind; [apply sim_unlock|intros _]. apply sim_destroy.
Qed.
Lemma sim_holder_exchange t q : sim t false false (wholder_exchange uses n t q) (holder_exchange uses n t q).
Proof.
  eapply sim_bind; [apply sim_lock|intros _]. eapply sim_bind; [apply sim_swap|intros _].
  eapply sim_bind; [apply sim_unlock|intros _]. eapply sim_bind; [apply sim_move|intros r].
  eapply sim_bind; [apply sim_destroy|intros _]. apply sim_ret.
Qed.
Lemma sim_holder_cas t e q : sim t false false (wholder_cas uses n t e q) (holder_cas uses n t e q).
Proof.
  eapply sim_bind; [apply sim_lock|intros _]. eapply sim_bind; [apply sim_get|intros a].
  eapply sim_bind; [apply sim_get|intros b]. destruct (px a =? px b).
  - eapply sim_bind; [apply sim_swap|intros _].
    eapply sim_bind; [apply sim_unlock|intros _]. eapply sim_bind; [apply sim_destroy|intros _]. apply sim_ret.
  - eapply sim_bind; [apply sim_assign|intros _].
    eapply sim_bind; [apply sim_unlock|intros _]. eapply sim_bind; [apply sim_destroy|intros _]. apply sim_ret.
Qed.

Lemma sim_impl t c : sim t false false (wimpl uses n t c) (impl uses n t c).
Proof.
  destruct c as [|p|p|e p|x|x|l x|l|l u]; cbn [wimpl impl].
  - eapply sim_bind; [apply sim_load|intros r]. apply sim_ret.
  - eapply sim_bind; [|intros _; apply sim_ret].
    eapply sim_bind; [apply sim_move|intros q]. eapply sim_bind; [apply sim_holder_store|intros _].
    apply sim_destroy.
  - eapply sim_bind; [|intros r; apply sim_ret].
    eapply sim_bind; [apply sim_move|intros q]. eapply sim_bind; [apply sim_holder_exchange|intros r].
    eapply sim_bind; [apply sim_destroy|intros _]. apply sim_ret.
  - eapply sim_bind; [|intros r; apply sim_ret].
    eapply sim_bind; [apply sim_move|intros q]. eapply sim_bind; [apply sim_holder_cas|intros r].
    eapply sim_bind; [apply sim_destroy|intros _]. apply sim_ret.
  - apply sim_act. intros k w s HR Hh. right. pose proof HR as (E1 & E2 & E3 & E4 & E5 & _).
    eexists _, _, 0, _. split; [reflexivity|]. split; [rewrite E1; reflexivity|]. split; [|reflexivity].
    related HR.
  - eapply sim_bind; [apply sim_add|intros l]. apply sim_ret.
  - eapply sim_bind; [apply sim_get|intros p]. eapply sim_bind; [apply sim_add|intros r]. apply sim_ret.
  - eapply sim_bind; [apply sim_destroy|intros _]. apply sim_ret.
  - apply sim_act. intros k w s HR Hh. destruct (acc t l s) eqn:Ea; [right|left; now exists 0].
    destruct (touch_ok t l w s true HR Ea) as (w' & E & R'). rewrite E.
    eexists _, _, 0, _. split; [reflexivity|]. split; [reflexivity|]. split; [|reflexivity].
    related R'.
Qed.

(** * Executions *)

Definition crel (cw : wcfg wst rs vcall vres) (c : cfg ast rs vcall vres) : Prop :=
  rel (wsh cw) (sh c) /\ whist cw = hist c /\
  forall t, match wth cw t with
            | None => th c t = None /\ has_flag t (sh c) = false
            | Some k => exists k', th c t = Some k' /\ sim t (has_flag t (sh c)) false k k'
            end.

Lemma view_same w s c : rel w s -> wcview w c = cview s c.
Proof. intros HR. destruct c; cbn; rewrite ?(obj_same w s _ HR); reflexivity. Qed.
Lemma rview_same w s r : rel w s -> wrview w r = rview s r.
Proof. intros HR. destruct r; cbn; rewrite ?(obj_same w s _ HR); reflexivity. Qed.
Lemma allowed_same w s h t c : rel w s -> wallowed h w t c -> allowed h s t c.
Proof.
  intros (H1 & H2 & _). unfold wallowed, allowed, wusable, usable. rewrite H1, H2. auto.
Qed.

Lemma crel_step cw cw' c : crel cw c -> reach (impl uses n) cview rview allowed (start ast0) c ->
  wstep (wimpl uses n) wcview wrview wallowed cw cw' ->
  exists c', reach (impl uses n) cview rview allowed (start ast0) c' /\ crel cw' c'.
Proof.
  intros (HR & HH & HT) Hc Hstep. destruct c as [s T h]. cbn [sh th hist] in *.
  inversion Hstep as [w Tw hw t k Ht Hal|w Tw hw t a i w' k Ht Ha|w Tw hw t a i w' Ht Ha|w Tw hw t r Ht];
    subst; cbn [wsh wth whist] in *.
  - (* a call begins *)
    pose proof (HT t) as K. rewrite Ht in K. destruct K as [K1 K2].
    eexists. split.
    { eapply r_step; [exact Hc|]. apply s_inv; [exact K1|]. eapply allowed_same; eauto. }
    split; [exact HR|]. split; [cbn; now rewrite (view_same w s k HR)|].
    intros u. cbn [wth th]. destruct (Nat.eq_dec u t) as [->|Hne].
    + rewrite !setm_eq. eexists. split; [reflexivity|]. cbn [sh]. rewrite K2. apply sim_impl.
    + rewrite !setm_neq by exact Hne. apply HT.
  - (* an action *)
    pose proof (HT t) as K. rewrite Ht in K. destruct K as (k' & K1 & K2).
    destruct k' as [r|a']; [destruct K2|]. cbn [sim] in K2.
    destruct (K2 i w s HR eq_refl) as [(j & Hj)|K3].
    { exfalso. apply (areach_not_bad uses n _ Hc). exists t, a', j. auto. }
    rewrite Ha in K3. destruct K3 as (j & s' & c' & h' & Hj & R' & Hf & Ho & HS).
    eexists. split; [eapply r_step; [exact Hc|]; eapply s_act; eauto|].
    split; [exact R'|]. split; [reflexivity|]. intros u. cbn [wth th sh].
    destruct (Nat.eq_dec u t) as [->|Hne].
    + rewrite !setm_eq. exists c'. split; [reflexivity|]. now rewrite Hf.
    + rewrite !setm_neq by exact Hne. rewrite Ho by exact Hne. apply HT.
  - (* an attempt *)
    pose proof (HT t) as K. rewrite Ht in K. destruct K as (k' & K1 & K2).
    destruct k' as [r|a']; [destruct K2|]. cbn [sim] in K2.
    destruct (K2 i w s HR eq_refl) as [(j & Hj)|K3].
    { exfalso. apply (areach_not_bad uses n _ Hc). exists t, a', j. auto. }
    rewrite Ha in K3. exists (Cfg s T hw). split; [exact Hc|]. split; [exact K3|]. split; [reflexivity|exact HT].
  - (* a call returns *)
    pose proof (HT t) as K. rewrite Ht in K. destruct K as (k' & K1 & K2). cbn [sim] in K2.
    destruct K2 as [-> Hf].
    eexists. split; [eapply r_step; [exact Hc|]; eapply s_ret; exact K1|].
    split; [exact HR|]. split; [cbn; now rewrite (rview_same w s r HR)|].
    intros u. cbn [wth th sh]. destruct (Nat.eq_dec u t) as [->|Hne].
    + rewrite !setm_eq. auto.
    + rewrite !setm_neq by exact Hne. apply HT.
Qed.

Lemma rel0 : rel wst0 ast0.
Proof.
  unfold rel. cbn. repeat (split; [reflexivity|]).
  split; [intros m [<-|[]]; reflexivity|]. split.
  { intros a x y b E. destruct a as [|z [|z' a]]; discriminate. }
  split; [split; [repeat constructor; now intros []|intros m [<-|[]]; cbn; lia]|].
  exists [], (Msg 0 false false czero). split; [reflexivity|]. split; [reflexivity|]. now intros a [].
Qed.

Lemma wreach_sim cw : wreach (wimpl uses n) wcview wrview wallowed (wstart wst0) cw ->
  exists c, reach (impl uses n) cview rview allowed (start ast0) c /\ crel cw c.
Proof.
  induction 1 as [|cw cw' _ (c & Hc & HR) Hs].
  - exists (start ast0). split; [apply r_refl|]. split; [exact rel0|]. split; [reflexivity|].
    intros t. cbn. auto.
  - eapply crel_step; eauto.
Qed.

Lemma wreach_not_bad cw : wreach (wimpl uses n) wcview wrview wallowed (wstart wst0) cw -> ~ wbad cw.
Proof.
  intros H (t & a & i & Ht & Ha). destruct (wreach_sim cw H) as (c & Hc & HR & HH & HT).
  pose proof (HT t) as K. rewrite Ht in K. destruct K as (k' & K1 & K2).
  destruct k' as [r|a']; [destruct K2|]. cbn [sim] in K2.
  destruct (K2 i (wsh cw) (sh c) HR eq_refl) as [(j & Hj)|K3].
  - apply (areach_not_bad uses n _ Hc). exists t, a', j. auto.
  - now rewrite Ha in K3.
Qed.
End Storage.
