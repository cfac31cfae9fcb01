(** The calls of strong_try_rec_mutex and data_mutex come to an end. *)
From Coq Require Import List Arith ZArith Bool Lia.
From Verif Require Import Base ConcModel ConcSpec ConcProofs MutexModel MutexSpec MutexProofs LiveSpec LiveProofs.
Import ListNotations.
Open Scope nat_scope.

Section Mutex.
Variable dmax : Z.
Definition unmarked (t : nat) (s : mst) : Prop := False.
Notation lk := (lkP inner unmarked).

(** ** How many actions *)
Lemma w_atom {A} (a : nat -> mst -> aout mst (code mst A)) :
  (forall m s, match a m s with Next _ (Act _) => False | _ => True end) -> within 1 (Act a).
Proof. intros H m s. specialize (H m s). destruct (a m s) as [s' [r|b]| |]; auto. Qed.
Ltac destruct_one :=
  match goal with
  | |- context[match ?x with _ => _ end] =>
      lazymatch x with context[match _ with _ => _ end] => fail | _ => destruct x end
  end.
Ltac atom1 := apply w_atom; intros m s; repeat (cbn; auto; destruct_one); cbn; auto.
Lemma w_lock t : within 1 (m_lock t). Proof. atom1. Qed.
Lemma w_unlock t : within 1 (m_unlock t). Proof. atom1. Qed.
Lemma w_go t : within 1 (get_owner t). Proof. atom1. Qed.
Lemma w_so t o : within 1 (set_owner t o). Proof. atom1. Qed.
Lemma w_gd t : within 1 (get_depth t). Proof. atom1. Qed.
Lemma w_sd t d : within 1 (set_depth t d). Proof. atom1. Qed.
Lemma w_bad {A} : within 1 (cbad : code mst A). Proof. atom1. Qed.
Lemma w_seq {A B} (k m j : nat) (c : code mst A) (f : A -> code mst B) :
  within k c -> (forall r, within m (f r)) -> k + m <= j -> within j (cbind c f).
Proof. intros H1 H2 H3. apply within_more with (k + m); [exact H3|]. now apply within_bind. Qed.
Lemma w_assert b : within 1 (assert_that b).
Proof. destruct b; [exact Logic.I|apply w_bad]. Qed.
Lemma w_inc t : within 2 (inc_depth dmax t).
Proof. apply (w_seq 1 1); [apply w_gd|intros d|lia]. destruct (d <? dmax)%Z; [apply w_sd|apply w_bad]. Qed.
Lemma w_dec t : within 2 (dec_depth dmax t).
Proof. apply (w_seq 1 1); [apply w_gd|intros d|lia]. destruct (- dmax - 1 <? d)%Z; [apply w_sd|apply w_bad]. Qed.

Lemma w_mimpl t c : within 10 (mimpl dmax t c).
Proof.
  destruct c; cbn [mimpl].
  - apply (w_seq 1 8); [apply w_lock|intros _|lia]. apply (w_seq 1 7); [apply w_go|intros [u|]|lia].
    + apply (w_seq 1 6); [apply w_go|intros o'|lia]. destruct (negb _).
      * apply (w_seq 1 0); [apply w_unlock|intros; exact Logic.I|lia].
      * apply (w_seq 2 1); [apply w_inc|intros _|lia]. apply (w_seq 1 0); [apply w_unlock|intros; exact Logic.I|lia].
    + apply (w_seq 1 6); [apply w_gd|intros d|lia]. apply (w_seq 1 5); [apply w_assert|intros _|lia].
      apply (w_seq 1 4); [apply w_so|intros _|lia]. apply (w_seq 2 1); [apply w_inc|intros _|lia].
      apply (w_seq 1 0); [apply w_unlock|intros; exact Logic.I|lia].
  - apply (w_seq 1 9); [apply w_lock|intros _|lia]. apply (w_seq 1 8); [apply w_go|intros o|lia].
    apply (w_seq 1 7); [apply w_assert|intros _|lia]. apply (w_seq 1 6); [apply w_gd|intros d|lia].
    apply (w_seq 1 5); [apply w_assert|intros _|lia]. apply (w_seq 2 3); [apply w_dec|intros _|lia].
    apply (w_seq 1 2); [apply w_gd|intros d'|lia]. apply (w_seq 1 1); [destruct (d' =? 0)%Z; [apply w_so|exact Logic.I]|intros _|lia].
    apply (w_seq 1 0); [apply w_unlock|intros; exact Logic.I|lia].
Qed.

(** ** m_mutex *)
Lemma lk_atom {A} t h k (a : nat -> mst -> aout mst (code mst A)) (Q : A -> bool -> bool -> Prop) :
  (forall m s, match a m s with
               | Next s' c => inner s' = inner s /\ lk t h k c Q
               | Wait => False
               | Bad => True
               end) -> lk t h k (Act a) Q.
Proof.
  intros H m s Hh Hk. specialize (H m s). destruct (a m s) as [s' c| |]; [|destruct H|exact H].
  destruct H as (F & C). split; [now left|]. split; [intros u []|].
  exists h, k. split; [now rewrite F|]. split; [|exact C]. exact Hk.
Qed.
Ltac quiet1 := apply lk_atom; intros m s; repeat (cbn; auto; destruct_one); cbn; auto.
Lemma l_lock t k (Q : _ -> _ -> _ -> Prop) : Q tt true k -> lk t false k (m_lock t) Q.
Proof.
  intros HQ m s Hh Hk. destruct (inner s) as [u|] eqn:E.
  - split; [now intros|]. left. split; [reflexivity|eauto].
  - cbn. split; [right; left; now split|]. split; [auto|]. exists true, k. repeat split; auto.
Qed.
Lemma l_unlock t k (Q : _ -> _ -> _ -> Prop) : Q tt false k -> lk t true k (m_unlock t) Q.
Proof.
  intros HQ m s Hh Hk. unfold holds. rewrite (proj1 Hh eq_refl), Nat.eqb_refl.
  split; [right; right; now split|]. split; [auto|].
  exists false, k. split; [split; discriminate|]. split; auto.
Qed.
Section One.
Variables (t : nat) (h k : bool).
Lemma l_go (Q : _ -> _ -> _ -> Prop) : (forall o, Q o h k) -> lk t h k (get_owner t) Q.
Proof. intros HQ. quiet1. Qed.
Lemma l_so o (Q : _ -> _ -> _ -> Prop) : Q tt h k -> lk t h k (set_owner t o) Q.
Proof. intros HQ. quiet1. Qed.
Lemma l_gd (Q : _ -> _ -> _ -> Prop) : (forall d, Q d h k) -> lk t h k (get_depth t) Q.
Proof. intros HQ. quiet1. Qed.
Lemma l_sd d (Q : _ -> _ -> _ -> Prop) : Q tt h k -> lk t h k (set_depth t d) Q.
Proof. intros HQ. quiet1. Qed.
Lemma l_bad {A} (Q : A -> _ -> _ -> Prop) : lk t h k (cbad) Q.
Proof. quiet1. Qed.
Lemma l_assert b (Q : _ -> _ -> _ -> Prop) : Q tt h k -> lk t h k (assert_that b) Q.
Proof. intros HQ. destruct b; [exact HQ|apply l_bad]. Qed.
Lemma l_inc (Q : _ -> _ -> _ -> Prop) : Q tt h k -> lk t h k (inc_depth dmax t) Q.
Proof. intros HQ. apply lkP_bind, l_gd. intros d. destruct (d <? dmax)%Z; [now apply l_sd|apply l_bad]. Qed.
Lemma l_dec (Q : _ -> _ -> _ -> Prop) : Q tt h k -> lk t h k (dec_depth dmax t) Q.
Proof. intros HQ. apply lkP_bind, l_gd. intros d. destruct (- dmax - 1 <? d)%Z; [now apply l_sd|apply l_bad]. Qed.
End One.
Lemma l_mimpl t c : lk t false false (mimpl dmax t c) given_back.
Proof.
  destruct c; cbn [mimpl].
  - apply lkP_bind, l_lock, lkP_bind, l_go. intros [u|].
    + apply lkP_bind, l_go. intros o'. destruct (negb _).
      * apply lkP_bind, l_unlock. reflexivity.
      * apply lkP_bind, l_inc, lkP_bind, l_unlock. reflexivity.
    + apply lkP_bind, l_gd. intros d. apply lkP_bind, l_assert, lkP_bind, l_so, lkP_bind, l_inc, lkP_bind, l_unlock. reflexivity.
  - apply lkP_bind, l_lock, lkP_bind, l_go. intros o. apply lkP_bind, l_assert, lkP_bind, l_gd. intros d.
    apply lkP_bind, l_assert, lkP_bind, l_dec, lkP_bind, l_gd. intros d'. apply lkP_bind.
    destruct (d' =? 0)%Z; [apply l_so|]; apply lkP_bind, l_unlock; reflexivity.
Qed.
End Mutex.
