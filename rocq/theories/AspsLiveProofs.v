(** The calls of atomic_shared_ptr_storage come to an end. *)
From Coq Require Import List Arith Bool Lia.
From Verif Require Import Base ConcModel ConcSpec ConcProofs AspsModel AspsSpec AspsProofs LiveSpec LiveProofs.
Import ListNotations.

(** An object whose destructor uses the storage was destroyed by [t] with the lock held. *)
Definition marked (uses : nat -> bool) (t : nat) (s : ast) : Prop :=
  exists b, uses b = true /\ In (b, t, true) (gone s).

Section Asps.
Variable uses : nat -> bool.
Variable n : nat.
Notation lk := (lkP flag (marked uses)).

(** ** How many actions *)
Lemma w_atom {A} (a : nat -> ast -> aout ast (code ast A)) :
  (forall m s, match a m s with Next _ (Act _) => False | _ => True end) -> within 1 (Act a).
Proof. intros H m s. specialize (H m s). destruct (a m s) as [s' [r|b]| |]; auto. Qed.
Ltac destruct_one :=
  match goal with
  | |- context[match ?x with _ => _ end] =>
      lazymatch x with context[match _ with _ => _ end] => fail | _ => destruct x end
  end.
Ltac atom1 := apply w_atom; intros m s; repeat (cbn; auto; destruct_one); cbn; auto.
Lemma w_get t l : within 1 (sp_get t l). Proof. atom1. Qed.
Lemma w_add t p : within 1 (sp_add t p). Proof. atom1. Qed.
Lemma w_move t l : within 1 (sp_move t l). Proof. atom1. Qed.
Lemma w_swap t k l : within 1 (sp_swap t k l). Proof. atom1. Qed.
Lemma w_release t l : within 1 (sp_release t l). Proof. atom1. Qed.
Lemma w_dispose t b : within 1 (dispose t b). Proof. atom1. Qed.
Lemma w_lock t : within 1 (sl_lock t). Proof. atom1. Qed.
Lemma w_unlock t : within 1 (sl_unlock t). Proof. atom1. Qed.

Lemma w_seq {A B} (k m j : nat) (c : code ast A) (f : A -> code ast B) :
  within k c -> (forall r, within m (f r)) -> k + m <= j -> within j (cbind c f).
Proof. intros H1 H2 H3. apply within_more with (k + m); [exact H3|]. now apply within_bind. Qed.

Lemma w_copy t l : within 2 (sp_copy t l).
Proof. apply (w_seq 1 1); [apply w_get|intros; apply w_add|lia]. Qed.
Lemma w_load t : within 4 (load t).
Proof.
  apply (w_seq 1 3); [apply w_lock|intros _|lia]. apply (w_seq 2 1); [apply w_copy|intros r|lia].
  apply (w_seq 1 0); [apply w_unlock|intros _; exact Logic.I|lia].
Qed.
Definition D (n : nat) : nat := 6 * n + 2.
Lemma w_destroy m : forall t l, within (D m) (destroy uses m t l).
Proof.
  induction m as [|m IH]; intros t l; cbn [destroy].
  - apply (w_seq 1 1); [apply w_release| |unfold D; lia].
    intros [b|]; [|exact Logic.I]. apply (w_seq 1 0); [apply w_dispose|intros _; destruct (uses b); exact Logic.I|lia].
  - apply (w_seq 1 (1 + (4 + D m))); [apply w_release| |unfold D; lia].
    intros [b|]; [|exact Logic.I]. apply (w_seq 1 (4 + D m)); [apply w_dispose|intros _; destruct (uses b); [|exact Logic.I]|apply Nat.le_refl].
    apply (w_seq 4 (D m)); [apply w_load|intros r; apply IH|lia].
Qed.
Definition K : nat := 18 * n + 14.
Lemma w_impl t c : within K (impl uses n t c).
Proof.
  assert (forall l, within (D n) (destroy uses n t l)) as Hd by (intros; apply w_destroy).
  unfold K. destruct c; cbn [impl].
  - apply (w_seq 4 0); [apply w_load|intros; exact Logic.I|lia].
  - unfold store, holder_store. apply (w_seq (4 + D n + D n) 0); [|intros; exact Logic.I|unfold D; lia].
    apply (w_seq 1 (3 + D n + D n)); [apply w_move|intros q|lia]. apply (w_seq (3 + D n) (D n)); [|intros _; apply Hd|lia].
    apply (w_seq 1 (2 + D n)); [apply w_lock|intros _|lia]. apply (w_seq 1 (1 + D n)); [apply w_swap|intros _|lia].
    apply (w_seq 1 (D n)); [apply w_unlock|intros _; apply Hd|lia].
  - unfold exchange, holder_exchange. apply (w_seq (5 + D n + D n) 0); [|intros; exact Logic.I|unfold D; lia].
    apply (w_seq 1 (4 + D n + D n)); [apply w_move|intros q|lia]. apply (w_seq (4 + D n) (D n)); [|intros r|lia].
    + apply (w_seq 1 (3 + D n)); [apply w_lock|intros _|lia]. apply (w_seq 1 (2 + D n)); [apply w_swap|intros _|lia].
      apply (w_seq 1 (1 + D n)); [apply w_unlock|intros _|lia]. apply (w_seq 1 (D n)); [apply w_move|intros r|lia].
      apply (w_seq (D n) 0); [apply Hd|intros; exact Logic.I|lia].
    + apply (w_seq (D n) 0); [apply Hd|intros; exact Logic.I|lia].
  - unfold compare_exchange, holder_cas. apply (w_seq (8 + D n + D n + D n) 0); [|intros; exact Logic.I|unfold D; lia].
    apply (w_seq 1 (7 + D n + D n + D n)); [apply w_move|intros q|lia]. apply (w_seq (7 + D n + D n) (D n)); [|intros r|lia].
    + apply (w_seq 1 (6 + D n + D n)); [apply w_lock|intros _|lia]. apply (w_seq 1 (5 + D n + D n)); [apply w_get|intros a|lia].
      apply (w_seq 1 (4 + D n + D n)); [apply w_get|intros b|lia]. destruct (px a =? px b).
      * apply (w_seq 1 (1 + D n)); [apply w_swap|intros _|lia]. apply (w_seq 1 (D n)); [apply w_unlock|intros _|lia].
        apply (w_seq (D n) 0); [apply Hd|intros; exact Logic.I|lia].
      * apply (w_seq (3 + D n) (1 + D n)); [|intros _|lia].
        -- unfold sp_assign. apply (w_seq 2 (1 + D n)); [apply w_copy|intros x|lia].
           apply (w_seq 1 (D n)); [apply w_swap|intros _; apply Hd|lia].
        -- apply (w_seq 1 (D n)); [apply w_unlock|intros _|lia]. apply (w_seq (D n) 0); [apply Hd|intros; exact Logic.I|lia].
    + apply (w_seq (D n) 0); [apply Hd|intros; exact Logic.I|lia].
  - apply within_more with 1; [lia|]. unfold make. atom1.
  - apply (w_seq 1 0); [apply w_add|intros; exact Logic.I|lia].
  - apply (w_seq 1 1); [apply w_get|intros p|lia]. apply (w_seq 1 0); [apply w_add|intros; exact Logic.I|lia].
  - apply (w_seq (D n) 0); [apply Hd|intros; exact Logic.I|unfold D; lia].
  - apply within_more with 1; [lia|]. unfold give. atom1.
Qed.

(** ** The lock *)
Lemma lk_atom {A} t h k (a : nat -> ast -> aout ast (code ast A)) (Q : A -> bool -> bool -> Prop) :
  (forall m s, match a m s with
               | Next s' c => flag s' = flag s /\ gone s' = gone s /\ lk t h k c Q
               | Wait => False
               | Bad => True
               end) -> lk t h k (Act a) Q.
Proof.
  intros H m s Hh Hk. specialize (H m s). destruct (a m s) as [s' c| |]; [|destruct H|exact H].
  destruct H as (F & G & C). split; [now left|]. split; [intros u; unfold marked; now rewrite G|].
  exists h, k. split; [now rewrite F|]. split; [|exact C]. unfold marked. rewrite G. exact Hk.
Qed.
Ltac quiet1 := apply lk_atom; intros m s; repeat (cbn; auto; destruct_one); cbn; auto.

Section One.
Variables (t : nat) (h k : bool).
Lemma l_get l (Q : _ -> _ -> _ -> Prop) : (forall p, Q p h k) -> lk t h k (sp_get t l) Q.
Proof. intros HQ. quiet1. Qed.
Lemma l_add p (Q : _ -> _ -> _ -> Prop) : (forall l, Q l h k) -> lk t h k (sp_add t p) Q.
Proof. intros HQ. quiet1. Qed.
Lemma l_move l (Q : _ -> _ -> _ -> Prop) : (forall p, Q p h k) -> lk t h k (sp_move t l) Q.
Proof. intros HQ. quiet1. Qed.
Lemma l_swap l j (Q : _ -> _ -> _ -> Prop) : Q tt h k -> lk t h k (sp_swap t l j) Q.
Proof. intros HQ. quiet1. Qed.
Lemma l_release l (Q : _ -> _ -> _ -> Prop) : (forall o, Q o h k) -> lk t h k (sp_release t l) Q.
Proof. intros HQ. quiet1. Qed.
Lemma l_copy l (Q : _ -> _ -> _ -> Prop) : (forall x, Q x h k) -> lk t h k (sp_copy t l) Q.
Proof. intros HQ. apply lkP_bind, l_get. intros p. apply l_add, HQ. Qed.
End One.

Lemma l_lock t k (Q : _ -> _ -> _ -> Prop) : Q tt true k -> lk t false k (sl_lock t) Q.
Proof.
  intros HQ m s Hh Hk. destruct (flag s) as [u|] eqn:E.
  - split; [now intros|]. left. split; [reflexivity|eauto].
  - cbn. split; [right; left; now split|]. split; [auto|]. exists true, k. repeat split; auto.
Qed.
(** Taking it a second time waits for ever. *)
Lemma l_lock_held t (Q : _ -> _ -> _ -> Prop) : lk t true true (sl_lock t) Q.
Proof.
  intros m s Hh Hk. rewrite (proj1 Hh eq_refl). split; [now intros|]. right. now split.
Qed.
Lemma l_unlock t k (Q : _ -> _ -> _ -> Prop) : Q tt false k -> lk t true k (sl_unlock t) Q.
Proof.
  intros HQ m s Hh Hk. cbn. split; [right; right; split; [now apply Hh|reflexivity]|]. split; [auto|].
  exists false, k. split; [split; discriminate|]. split; auto.
Qed.
Lemma l_dispose t h k b (Q : _ -> _ -> _ -> Prop) :
  (forall k', (h && uses b = true -> k' = true) -> Q tt h k') -> lk t h k (dispose t b) Q.
Proof.
  intros HQ m s Hh Hk. destruct (existsb _ (gone s)); [exact Logic.I|]. cbn [flag gone]. split; [now left|]. split.
  - intros u (b' & A & B). exists b'. split; [exact A|]. apply in_or_app. now left.
  - exists h, (k || (h && uses b)). split; [exact Hh|]. split; [|apply HQ; now intros ->; rewrite orb_true_r].
    destruct k; cbn [orb].
    + intros _. destruct (Hk eq_refl) as (b' & A & B). exists b'. split; [exact A|]. apply in_or_app. now left.
    + intros E. apply andb_true_iff in E. destruct E as [-> E]. exists b. split; [exact E|]. cbn [gone].
      apply in_or_app. right. left. unfold has_flag. rewrite (proj1 Hh eq_refl), Nat.eqb_refl. reflexivity.
Qed.

Lemma l_load t k (Q : _ -> _ -> _ -> Prop) : (forall r, Q r false k) -> lk t false k (load t) Q.
Proof.
  intros HQ. apply lkP_bind, l_lock, lkP_bind, l_copy. intros r. apply lkP_bind, l_unlock. apply HQ.
Qed.
Lemma l_destroy m : forall t h k l (Q : _ -> _ -> _ -> Prop), (forall k', Q tt h k') -> lk t h k (destroy uses m t l) Q.
Proof.
  induction m as [|m IH]; intros t h k l Q HQ; cbn [destroy]; apply lkP_bind, l_release; intros [b|]; try apply HQ;
    apply lkP_bind, l_dispose; intros k' Hk'; destruct (uses b); try apply HQ.
  destruct h; [rewrite (Hk' eq_refl); apply lkP_bind, lkP_bind, l_lock_held|].
  apply lkP_bind, l_load. intros r. now apply IH.
Qed.
Lemma l_impl t c : lk t false false (impl uses n t c) given_back.
Proof.
  destruct c; cbn [impl].
  - apply lkP_bind, l_load. intros r. reflexivity.
  - apply lkP_bind, lkP_bind, l_move. intros q. apply lkP_bind, lkP_bind, l_lock, lkP_bind, l_swap, lkP_bind, l_unlock, l_destroy.
    intros k'. apply l_destroy. intros k2. reflexivity.
  - apply lkP_bind, lkP_bind, l_move. intros q. apply lkP_bind, lkP_bind, l_lock, lkP_bind, l_swap, lkP_bind, l_unlock, lkP_bind, l_move.
    intros r. apply lkP_bind, l_destroy. intros k'. apply lkP_bind, l_destroy. intros k2. reflexivity.
  - apply lkP_bind, lkP_bind, l_move. intros q. apply lkP_bind, lkP_bind, l_lock, lkP_bind, l_get. intros a. apply lkP_bind, l_get. intros b.
    destruct (px a =? px b).
    + apply lkP_bind, l_swap, lkP_bind, l_unlock, lkP_bind, l_destroy. intros k'. apply lkP_bind, l_destroy. intros k2. reflexivity.
    + apply lkP_bind, lkP_bind, l_copy. intros x. apply lkP_bind, l_swap, l_destroy. intros k1. apply lkP_bind, l_unlock, lkP_bind, l_destroy.
      intros k'. apply lkP_bind, l_destroy. intros k2. reflexivity.
  - unfold make. apply lk_atom. intros m s. repeat split.
  - apply lkP_bind, l_add. reflexivity.
  - apply lkP_bind, l_get. intros p. apply lkP_bind, l_add. reflexivity.
  - apply lkP_bind, l_destroy. reflexivity.
  - unfold give. apply lk_atom. intros m s. destruct (acc t l s); [|exact Logic.I]. repeat split.
Qed.
End Asps.

(** ** Starvation: thread 0 loads again and again, thread 1 finds the lock taken *)
Section Starve.
Variable uses : nat -> bool.
Variable n : nat.
Notation im := (impl uses n).
Notation ccfg := (cfg ast rs vcall vres).

Definition turn (c : ccfg) : ccfg :=
  match th c 0 with
  | None => Cfg (sh c) (setm (th c) 0 (Some (im 0 CLoad))) (hist c ++ [EInv 0 VLoad])
  | Some (Ret r) => Cfg (sh c) (setm (th c) 0 None) (hist c ++ [ERes 0 (rview (sh c) r)])
  | Some (Act a) =>
      match a 0 (sh c) with
      | Next s' k => Cfg s' (setm (th c) 0 (Some k)) (hist c)
      | _ => c
      end
  end.
Fixpoint turns (i : nat) (c : ccfg) : ccfg := match i with 0 => c | S i' => turn (turns i' c) end.

Notation fin := (fun r => Ret (RLoc r)).
Definition k2 : code ast rs := cbind (cbind (sp_copy 0 0) (fun r => cbind (sl_unlock 0) (fun _ => Ret r))) fin.
Definition k3 p : code ast rs := cbind (cbind (sp_add 0 p) (fun r => cbind (sl_unlock 0) (fun _ => Ret r))) fin.
Definition k4 r : code ast rs := cbind (cbind (sl_unlock 0) (fun _ => Ret r)) fin.
Definition at_phase (i : nat) (c : ccfg) : Prop :=
  match i with
  | 0 => th c 0 = None /\ flag (sh c) = None
  | 1 => th c 0 = Some (im 0 CLoad) /\ flag (sh c) = None
  | 2 => th c 0 = Some k2 /\ flag (sh c) = Some 0
  | 3 => th c 0 = Some (k3 sp_empty) /\ flag (sh c) = Some 0
  | 4 => exists r, th c 0 = Some (k4 r) /\ flag (sh c) = Some 0
  | _ => exists r, th c 0 = Some (Ret (RLoc r)) /\ flag (sh c) = None
  end.
Definition phase (i : nat) (c : ccfg) : Prop :=
  th c 1 = Some (im 1 CLoad) /\ nth_error (objs (sh c)) 0 = Some (Some sp_empty) /\ at_phase i c.
Definition next_phase (i : nat) : nat := match i with 0 => 1 | 1 => 2 | 2 => 3 | 3 => 4 | 4 => 5 | _ => 0 end.

Notation astep := (step im cview rview allowed).
Lemma turn_ok i c : phase i c -> i <= 5 ->
  phase (next_phase i) (turn c) /\ astep c (turn c) /\ (i = 5 -> returned (hist (turn c)) = S (returned (hist c))) /\
  returned (hist c) <= returned (hist (turn c)).
Proof.
  destruct c as [s T h]. unfold phase, turn. cbn [th sh hist]. intros (H1 & H0 & Hp) Hi.
  assert (forall x : option (code ast rs), setm T 0 x 1 = T 1) as E1 by (intros; apply setm_neq; discriminate).
  assert (forall t e (h : list (event vcall vres)), returned (h ++ [EInv t e]) = returned h) as R1.
  { clear. intros t e. induction h as [|[u x|u x] h IH]; cbn; lia. }
  assert (forall t e (h : list (event vcall vres)), returned (h ++ [ERes t e]) = S (returned h)) as R2.
  { clear. intros t e. induction h as [|[u x|u x] h IH]; cbn; lia. }
  destruct i as [|[|[|[|[|[|i]]]]]]; [..|lia]; cbn [at_phase next_phase th sh] in Hp |- *.
  - destruct Hp as [Hp Hf]. rewrite Hp. cbn [th sh]. rewrite E1, setm_eq. cbn [hist]. rewrite R1.
    repeat split; auto; try discriminate. change VLoad with (cview s CLoad). now constructor.
  - destruct Hp as [Hp Hf]. rewrite Hp. cbn [impl load sl_lock cbind]. rewrite Hf. cbn [th sh]. rewrite E1, setm_eq.
    repeat split; auto; try discriminate. eapply s_act with (n := 0); [exact Hp|]. cbn. now rewrite Hf.
  - destruct Hp as [Hp Hf]. rewrite Hp. unfold k2. cbn [sp_copy sp_get cbind]. unfold acc, has_flag. cbn [Nat.eqb].
    assert (obj s 0 = Some sp_empty) as Ho by (unfold obj; now rewrite H0). rewrite Hf, Ho. cbn [th sh cbind Nat.eqb]. rewrite E1, setm_eq.
    repeat split; auto; try discriminate. eapply s_act with (n := 0); [exact Hp|]. cbn -[obj]. unfold acc, has_flag. cbn -[obj]. now rewrite Hf, Ho.
  - destruct Hp as [Hp Hf]. rewrite Hp. unfold k3. cbn [sp_add cbind cb sp_empty]. cbn [th sh cbind Nat.eqb]. rewrite E1, setm_eq.
    repeat split; auto; try discriminate.
    + cbn. destruct (objs s) as [|a l]; [discriminate|exact H0].
    + eexists. split; [reflexivity|exact Hf].
    + eapply s_act with (n := 0); [exact Hp|]. reflexivity.
  - destruct Hp as (r & Hp & Hf). rewrite Hp. unfold k4. cbn [sl_unlock cbind]. cbn [th sh]. rewrite E1, setm_eq.
    repeat split; auto; try discriminate.
    + eexists. split; reflexivity.
    + eapply s_act with (n := 0); [exact Hp|]. reflexivity.
  - destruct Hp as (r & Hp & Hf). rewrite Hp. cbn [th sh]. rewrite E1, setm_eq. cbn [hist]. rewrite R2.
    repeat split; auto. now constructor.
Qed.

Lemma phase2_waits c : phase 2 c -> waiting c 1.
Proof.
  intros (H1 & _ & _ & Hf). cbn [impl load sl_lock cbind] in H1. eexists. split; [exact H1|]. intros m. cbn beta. now rewrite Hf.
Qed.

Lemma turns_phase c : phase 0 c -> forall i, exists p, p <= 5 /\ phase p (turns i c).
Proof.
  intros H i. induction i as [|i (p & Hp & IH)]; [exists 0; split; [lia|exact H]|].
  destruct (turn_ok p _ IH Hp) as (K & _). exists (next_phase p). split; [|exact K].
  destruct p as [|[|[|[|[|[|p]]]]]]; cbn; lia.
Qed.
(** From every phase each other is reached. *)
Lemma turns_add i j c : turns (i + j) c = turns i (turns j c).
Proof. induction i as [|i IH]; cbn; [reflexivity|now rewrite IH]. Qed.
Lemma phases_on i p c : p <= 5 -> phase p c -> phase (Nat.iter i next_phase p) (turns i c) /\ Nat.iter i next_phase p <= 5.
Proof.
  intros Hp H. induction i as [|i [IH1 IH2]]; [split; auto|].
  change (Nat.iter (S i) next_phase p) with (next_phase (Nat.iter i next_phase p)). cbn [turns].
  destruct (turn_ok _ _ IH1 IH2) as (K & _). split; [exact K|]. clear IH1 K. revert IH2.
  generalize (Nat.iter i next_phase p). intros [|[|[|[|[|[|q]]]]]]; cbn; lia.
Qed.

Theorem starvation : exists f : nat -> ccfg,
  reach im cview rview allowed (start ast0) (f 0) /\
  (forall i, astep (f i) (f (S i))) /\
  (forall i, th (f i) 1 = Some (im 1 CLoad)) /\
  (forall i, exists j, i <= j /\ waiting (f j) 1) /\
  (forall i, exists j, i <= j /\ returned (hist (f i)) < returned (hist (f j))).
Proof.
  set (c0 := Cfg ast0 (setm (fun _ => None) 1 (Some (im 1 CLoad))) ([] ++ [EInv 1 VLoad]) : ccfg).
  assert (phase 0 c0) as H0 by (repeat split).
  exists (fun i => turns i c0).
  assert (forall i q, q <= 5 -> exists j, i <= j /\ phase q (turns j c0)) as Hq.
  { intros i q Hq. destruct (turns_phase c0 H0 i) as (p & Hp & K).
    assert (exists m, Nat.iter m next_phase p = q) as (m & Hm).
    { destruct p as [|[|[|[|[|[|p]]]]]], q as [|[|[|[|[|[|q]]]]]]; try lia;
        solve [exists 0; reflexivity|exists 1; reflexivity|exists 2; reflexivity|exists 3; reflexivity|exists 4; reflexivity|exists 5; reflexivity]. }
    exists (m + i). split; [lia|]. rewrite turns_add, <- Hm. now apply phases_on. }
  assert (forall i j, i <= j -> returned (hist (turns i c0)) <= returned (hist (turns j c0))) as Hmon.
  { intros i j Hij. induction Hij as [|j Hij IH]; [lia|]. destruct (turns_phase c0 H0 j) as (p & Hp & K).
    destruct (turn_ok p _ K Hp) as (_ & _ & _ & L). cbn [turns]. lia. }
  split; [|split; [|split; [|split]]].
  - cbn [turns]. eapply r_step; [apply r_refl|]. unfold c0, start. change VLoad with (cview ast0 CLoad). now constructor.
  - intros i. destruct (turns_phase c0 H0 i) as (p & Hp & K). now destruct (turn_ok p _ K Hp) as (_ & L & _).
  - intros i. destruct (turns_phase c0 H0 i) as (p & Hp & K). apply K.
  - intros i. destruct (Hq i 2) as (j & Hj & K); [lia|]. exists j. split; [exact Hj|]. now apply phase2_waits.
  - intros i. destruct (Hq i 5) as (j & Hj & K); [lia|]. exists (S j). split; [lia|]. cbn [turns].
    destruct (turn_ok 5 _ K (Nat.le_refl 5)) as (_ & _ & L & _). rewrite L by reflexivity. specialize (Hmon i j Hj). lia.
Qed.
End Starve.
