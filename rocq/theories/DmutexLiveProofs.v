(** The calls of data_mutex come to an end: they wait only for guards. *)
From Coq Require Import List Arith Bool Lia.
From Verif Require Import Base ConcModel ConcSpec ConcProofs DmutexModel DmutexSpec DmutexProofs LiveSpec LiveProofs.
Import ListNotations.

Section Dmutex.
Variable recur : bool.

(** ** How many actions *)
Lemma w_atom {A} (a : nat -> dst -> aout dst (code dst A)) :
  (forall m s, match a m s with Next _ (Act _) => False | _ => True end) -> within 1 (Act a).
Proof. intros H m s. specialize (H m s). destruct (a m s) as [s' [r|b]| |]; auto. Qed.
Ltac destruct_one :=
  match goal with
  | |- context[match ?x with _ => _ end] =>
      lazymatch x with context[match _ with _ => _ end] => fail | _ => destruct x end
  end.
Ltac atom1 := apply w_atom; intros m s; repeat (cbn; auto; destruct_one); cbn; auto.
Lemma w_lock ex t : within 1 (m_lock recur false ex t).
Proof. unfold m_lock, m_take. atom1. Qed.
Lemma w_try ex t : within 1 (m_try recur false ex t).
Proof. unfold m_try, m_take. atom1. Qed.
Lemma w_unlock ex t : within 1 (m_unlock ex t). Proof. atom1. Qed.
Lemma w_new t k p : within 1 (g_new t k p). Proof. atom1. Qed.
Lemma w_get t l : within 1 (g_get t l). Proof. atom1. Qed.
Lemma w_put t l x : within 1 (g_put t l x). Proof. atom1. Qed.
Lemma w_bad {A} : within 1 (cbad : code dst A). Proof. atom1. Qed.
Lemma w_seq {A B} (k m j : nat) (c : code dst A) (f : A -> code dst B) :
  within k c -> (forall r, within m (f r)) -> k + m <= j -> within j (cbind c f).
Proof. intros H1 H2 H3. apply within_more with (k + m); [exact H3|]. now apply within_bind. Qed.
Lemma w_dtor t l : within 3 (g_dtor t l).
Proof.
  apply (w_seq 1 2); [apply w_get|intros g|lia]. apply (w_seq 1 1); [|intros _; apply w_put|lia].
  destruct (gp g); [apply w_bad|exact Logic.I|apply w_unlock].
Qed.
Lemma w_move t l : within 3 (g_move t l).
Proof.
  apply (w_seq 1 2); [apply w_get|intros g|lia]. apply (w_seq 1 1); [apply w_new|intros l'|lia].
  apply (w_seq 1 0); [apply w_put|intros _; exact Logic.I|lia].
Qed.
Lemma w_return t l : within 7 (g_return t l).
Proof.
  apply within_act. intros [|m] s; [exact Logic.I|]. apply (w_seq 3 3); [apply w_move|intros l'|lia].
  apply (w_seq 3 0); [apply w_dtor|intros _; exact Logic.I|lia].
Qed.
Lemma w_dimpl t c : within 14 (dimpl recur false t c).
Proof.
  destruct c as [k [|]|l|l|l|l|l v]; cbn [dimpl].
  - apply (w_seq 5 7); [|intros [l|]; [|exact Logic.I]; apply (w_seq 7 0); [apply w_return|intros; exact Logic.I|lia]|lia].
    apply (w_seq 1 4); [apply w_new|intros l|lia]. apply (w_seq 1 3); [apply w_try|intros []|lia].
    + apply (w_seq 1 0); [apply w_put|intros; exact Logic.I|lia].
    + apply (w_seq 1 0); [apply w_put|intros; exact Logic.I|lia].
    + apply (w_seq 3 0); [apply w_dtor|intros; exact Logic.I|lia].
  - apply (w_seq 5 7); [|intros [l|]; [|exact Logic.I]; apply (w_seq 7 0); [apply w_return|intros; exact Logic.I|lia]|lia].
    apply (w_seq 1 4); [apply w_new|intros l|lia]. apply (w_seq 1 3); [apply w_lock|intros []|lia]; try exact Logic.I.
    apply (w_seq 3 0); [apply w_dtor|intros; exact Logic.I|lia].
  - apply (w_seq 3 0); [apply w_move|intros; exact Logic.I|lia].
  - apply (w_seq 3 0); [apply w_dtor|intros; exact Logic.I|lia].
  - apply (w_seq 1 1); [apply w_get|intros g|lia]. destruct (gp g); [apply w_bad|exact Logic.I|exact Logic.I].
  - apply (w_seq 3 0); [|intros; exact Logic.I|lia]. apply (w_seq 1 2); [apply w_get|intros g|lia].
    destruct (gp g); try (apply within_more with 1; [lia|apply w_bad]). apply (w_seq 1 1); [atom1|intros _; atom1|lia].
  - apply (w_seq 3 0); [|intros; exact Logic.I|lia]. apply (w_seq 1 2); [apply w_get|intros g|lia].
    destruct (gp g); try (apply within_more with 1; [lia|apply w_bad]).
    destruct (gk g); try (apply within_more with 1; [lia|apply w_bad]). apply (w_seq 1 1); [atom1|intros _; atom1|lia].
Qed.

(** ** What is waited for *)

(** [t] has not locked the mutex, and somebody else has. *)
Definition kept_out (t : nat) (s : dst) : Prop :=
  match mex s with
  | Some (u, _) => u <> t
  | None => is_in t (msh s) = false /\ msh s <> []
  end.
Fixpoint outP {A} (t : nat) (c : code dst A) : Prop :=
  match c with
  | Ret _ => True
  | Act a => forall n s, match a n s with
                         | Next _ c' => outP t c'
                         | Wait => kept_out t s /\ forall m, a m s = Wait
                         | Bad => True
                         end
  end.
Fixpoint outP_bind {A B} t (c : code dst A) (f : A -> code dst B) {struct c} :
  outP t c -> (forall r, outP t (f r)) -> outP t (cbind c f).
Proof.
  destruct c as [r|a]; cbn [cbind outP]; [auto|]. intros H Hf n s. specialize (H n s).
  destruct (a n s) as [s' c'| |]; auto. destruct H as [H1 H2]. split; [exact H1|]. intros m. now rewrite H2.
Qed.
Ltac out1 := intros m s; repeat (cbn; auto; destruct_one); cbn; auto.
Lemma o_lock ex t : outP t (m_lock recur false ex t).
Proof.
  assert (forall s, match m_take recur ex t s Wait with Next _ c => outP t c | Wait => kept_out t s | Bad => True end) as H.
  { intros s. unfold m_take, kept_out. destruct (mex s) as [[u d]|] eqn:Em.
    - destruct (Nat.eqb_spec u t) as [->|Hn]; [destruct (ex && recur); exact Logic.I|exact Hn].
    - destruct ex.
      + destruct (msh s) as [|x l] eqn:E; [exact Logic.I|]. rewrite <- E. destruct (is_in t (msh s)) eqn:Ei; [exact Logic.I|].
        rewrite E. split; [reflexivity|discriminate].
      + destruct (is_in t (msh s) && negb recur); exact Logic.I. }
  unfold m_lock. cbn [outP]. intros n s.
  assert (forall m, match m with 0 => m_take recur ex t s Wait | S _ => m_take recur ex t s Wait end = m_take recur ex t s Wait) as E by (now intros []).
  rewrite E. specialize (H s). destruct (m_take recur ex t s Wait) as [s' c| |] eqn:F; auto.
Qed.
Lemma o_try ex t : outP t (m_try recur false ex t).
Proof. unfold m_try, m_take. out1. Qed.
Lemma o_unlock ex t : outP t (m_unlock ex t). Proof. out1. Qed.
Lemma o_new t k p : outP t (g_new t k p). Proof. out1. Qed.
Lemma o_get t l : outP t (g_get t l). Proof. out1. Qed.
Lemma o_put t l x : outP t (g_put t l x). Proof. out1. Qed.
Lemma o_bad {A} t : outP t (cbad : code dst A). Proof. out1. Qed.
Lemma o_dtor t l : outP t (g_dtor t l).
Proof.
  apply outP_bind; [apply o_get|intros g]. apply outP_bind; [|intros _; apply o_put].
  destruct (gp g); [apply o_bad|exact Logic.I|apply o_unlock].
Qed.
Lemma o_move t l : outP t (g_move t l).
Proof.
  apply outP_bind; [apply o_get|intros g]. apply outP_bind; [apply o_new|intros l'].
  apply outP_bind; [apply o_put|intros _; exact Logic.I].
Qed.
Lemma o_return t l : outP t (g_return t l).
Proof.
  intros [|m] s; [exact Logic.I|]. change (outP t (cbind (g_move t l) (fun l' => cbind (g_dtor t l) (fun _ => Ret l')))). apply outP_bind; [apply o_move|intros l'].
  apply outP_bind; [apply o_dtor|intros _; exact Logic.I].
Qed.
Lemma o_dimpl t c : outP t (dimpl recur false t c).
Proof.
  destruct c as [k [|]|l|l|l|l|l v]; cbn [dimpl].
  - apply outP_bind; [|intros [l|]; [|exact Logic.I]; apply outP_bind; [apply o_return|intros; exact Logic.I]].
    apply outP_bind; [apply o_new|intros l]. apply outP_bind; [apply o_try|intros []];
      (apply outP_bind; [apply o_put || apply o_dtor|intros; exact Logic.I]).
  - apply outP_bind; [|intros [l|]; [|exact Logic.I]; apply outP_bind; [apply o_return|intros; exact Logic.I]].
    apply outP_bind; [apply o_new|intros l]. apply outP_bind; [apply o_lock|intros []]; try exact Logic.I.
    apply outP_bind; [apply o_dtor|intros; exact Logic.I].
  - apply outP_bind; [apply o_move|intros; exact Logic.I].
  - apply outP_bind; [apply o_dtor|intros; exact Logic.I].
  - apply outP_bind; [apply o_get|intros g]. destruct (gp g); [apply o_bad|exact Logic.I|exact Logic.I].
  - apply outP_bind; [|intros; exact Logic.I]. apply outP_bind; [apply o_get|intros g].
    destruct (gp g); try apply o_bad. apply outP_bind; [out1|intros _; out1].
  - apply outP_bind; [|intros; exact Logic.I]. apply outP_bind; [apply o_get|intros g].
    destruct (gp g); try apply o_bad. destruct (gk g); try apply o_bad. apply outP_bind; [out1|intros _; out1].
Qed.

Variable v0 : nat.
Notation dreach := (reach (dimpl recur false) dcview drview (dallowed recur) (start (dst0 v0))).

Lemma reach_out c : dreach c -> forall t x, th c t = Some x -> outP t x.
Proof.
  induction 1 as [|c c' Hr IH Hs]; [discriminate|]. intros u x Hx.
  destruct Hs as [s T h t k HT Ha|s T h t a n s' k HT Ha|s T h t r HT]; cbn [th] in *;
    (destruct (Nat.eq_dec u t) as [->|Hn]; [rewrite setm_eq in Hx|rewrite setm_neq in Hx by auto; eauto]).
  - inversion Hx. apply o_dimpl.
  - inversion Hx; subst. specialize (IH t (Act a) HT n s). rewrite Ha in IH. exact IH.
  - discriminate.
Qed.

(** Who has locked the mutex, when it is locked. *)
Lemma is_in_eq t l : is_in t l = true -> In t l.
Proof. unfold is_in. intros H. apply existsb_exists in H. destruct H as (x & Hx & E). apply Nat.eqb_eq in E. now subst. Qed.
Lemma in_is_in t l : In t l -> is_in t l = true.
Proof. intros H. apply existsb_exists. exists t. split; [exact H|apply Nat.eqb_refl]. Qed.

Theorem waits_for_guards c : dreach c ->
  quiet c \/ can_go drview c \/
  (exists t, th c t = None /\ exists ex, 0 < guards t ex (sh c)).
Proof.
  intros Hc. destruct (quiet_or (dimpl recur false) dcview drview (dallowed recur) (dst0 v0) 14 w_dimpl c Hc) as [Hq|(t & x & Hx)]; [now left|].
  right. pose proof (dreach_not_bad recur v0 c Hc) as Hb.
  assert (forall u y, th c u = Some y -> can_go drview c \/ kept_out u (sh c)) as G.
  { intros u y Hy. pose proof (reach_out c Hc u y Hy) as Ho. destruct y as [r|a].
    - left. destruct c as [s T h]. eexists. eapply g_ret. exact Hy.
    - specialize (Ho 0 (sh c)). destruct (a 0 (sh c)) as [s' k| |] eqn:E.
      + left. destruct c as [s T h]. eexists. eapply g_act; eauto.
      + right. apply Ho.
      + exfalso. apply Hb. now exists u, a, 0. }
  destruct (G t x Hx) as [?|Ho]; [now left|].
  pose proof (dreach_mutex recur v0 c Hc) as Hm. unfold mutex_ok in Hm.
  assert (exists u ex, 0 < holds u ex (sh c) /\ ~ kept_out u (sh c)) as (u & ex & Hh & Hk).
  { unfold kept_out in *. destruct (mex (sh c)) as [[u d]|] eqn:E.
    - exists u, true. unfold holds. rewrite E, Nat.eqb_refl. split; [apply Hm|auto].
    - destruct Ho as [_ Ho]. destruct (msh (sh c)) as [|u l] eqn:El; [contradiction|].
      exists u, false. unfold holds. rewrite El. split.
      + cbn. destruct (Nat.eq_dec u u); [lia|contradiction].
      + intros [Hi _]. rewrite in_is_in in Hi; [discriminate|now left]. }
  destruct (th c u) as [y|] eqn:Ey.
  - destruct (G u y Ey) as [?|?]; [now left|contradiction].
  - right. exists u. split; [exact Ey|]. exists ex. now rewrite <- (dreach_locked recur v0 c u Hc Ey).
Qed.
End Dmutex.
