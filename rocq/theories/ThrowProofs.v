(** The model of throw_ex does what the specification says. *)
From Coq Require Import List Bool.
From Verif Require Import Base ThrowModel ThrowSpec.
Import ListNotations.

Section Proofs.
Context {C F : Type}.
Variable fmt0 : F.
Variable used : F -> F.
Variable args_first : bool.
Variable ctor_throws : nat -> list C -> option nat.
Notation run := (@run C F fmt0 used args_first ctor_throws).
Notation ev := (ev fmt0 used ctor_throws).
Notation plain := (plain fmt0 used ctor_throws).

Lemma insert_shows (xs : list (step C F)) : forall f t f' t0, shows used f xs t f' ->
  insert used (mkStream t0 f false) xs = inl (mkStream (t0 ++ t) f' false).
Proof.
  induction xs as [|x xs IH]; intros f t f' t0 H; inversion H; subst; cbn.
  - now rewrite app_nil_r.
  - erewrite IH by eassumption. now rewrite app_assoc.
  - now apply IH.
Qed.

Lemma shift_texts u E (xs : list (operand C F)) : forall f ts t0, texts used f xs ts ->
  exists f' : F, shift used args_first ctor_throws u E (mkStream t0 f false) xs =
             destroy ctor_throws u E (mkStream (t0 ++ concat ts) f' false).
Proof.
  induction xs as [|x xs IH]; intros f ts t0 H; inversion H as [|? ? ? t ts' f1 Ex Sx Tx]; subst; cbn.
  - exists f. now rewrite app_nil_r.
  - rewrite Ex. replace (if args_first then None else None) with (@None nat) by now destruct args_first.
    rewrite (insert_shows _ _ _ _ t0 Sx). destruct (IH _ ts' (t0 ++ t) Tx) as [f2 ->].
    exists f2. now rewrite <- app_assoc.
Qed.

Lemma texts_args f (xs : list (operand C F)) ts : texts used f xs ts -> first_arg xs = None.
Proof. induction 1 as [|f x xs t ts f' E _ _ IH]; cbn; [reflexivity|]. now rewrite E. Qed.

Lemma throw_ex_texts u E (xs : list (operand C F)) ts : texts used fmt0 xs ts ->
  exists f : F, throw_ex fmt0 used args_first ctor_throws u E xs =
            destroy ctor_throws u E (mkStream (concat ts) f false).
Proof.
  intros H. unfold throw_ex. rewrite (texts_args _ _ _ H).
  replace (if args_first then None else None) with (@None nat) by now destruct args_first.
  destruct (shift_texts u E xs fmt0 ts [] H) as [f E']. exists f. exact E'.
Qed.

Lemma quiet_shows (xs : list (step C F)) : forall f,
  Forall (fun s => match s with Fails | Throws _ => False | _ => True end) xs ->
  exists t f', shows used f xs t f'.
Proof.
  induction xs as [|x xs IH]; intros f H; inversion H as [|? ? Hx Hxs]; subst.
  - eexists _, _. constructor.
  - destruct x as [r|g| |n]; try tauto.
    + destruct (IH (used f) Hxs) as (t & f' & S). eexists _, _. constructor. exact S.
    + destruct (IH (g f) Hxs) as (t & f' & S). eexists _, _. constructor. exact S.
Qed.
Lemma quiet_texts (xs : list (operand C F)) : forall f, Forall quiet xs -> exists ts, texts used f xs ts.
Proof.
  induction xs as [|x xs IH]; intros f H; inversion H as [|? ? [Hx1 Hx2] Hxs]; subst.
  - eexists. constructor.
  - destruct (quiet_shows (inserts x) f Hx2) as (t & f' & S). destruct (IH f' Hxs) as (ts & T).
    eexists. econstructor; eauto.
Qed.

(** The specification is met. *)
Lemma run_ev u p c o : ev u p c o -> run u p = (c, o).
Proof.
  induction 1 as [u|E xs ts x T M|E xs ts T|u n|u p q c c' o _ IH1 _ IH2|u p q c o _ IH N|
    u p h c x c' o _ IH1 _ IH2|u p h c o _ IH N|u p d c c' _ IH1 _ IH2|u p d c x c' _ IH1 _ IH2|
    u p d c c' o _ IH1 _ IH2 N|u p d c x c' o _ IH1 _ IH2 N|u p d c _ IH]; cbn; auto.
  - destruct (throw_ex_texts false E xs ts T) as [f ->]. cbn.
    destruct M as [[-> ->]|(n & -> & ->)]; reflexivity.
  - destruct (throw_ex_texts true E xs ts T) as [f ->]. reflexivity.
  - now rewrite IH1, IH2.
  - rewrite IH. destruct o; congruence.
  - now rewrite IH1, IH2.
  - rewrite IH. destruct o; try reflexivity. now destruct (N x).
  - now rewrite IH1, IH2.
  - now rewrite IH1, IH2.
  - rewrite IH1, IH2. now destruct o.
  - rewrite IH1, IH2. now destruct o.
  - now rewrite IH.
Qed.

(** And speaks of all programs with quiet operands. *)
Lemma ev_total p : calm p -> forall u, exists c o, ev u p c o.
Proof.
  induction p as [|E xs|n|p IHp q IHq|p IHp h IHh|p IHp d IHd]; cbn; intros H u.
  - eexists _, _. constructor.
  - destruct (quiet_texts xs fmt0 H) as [ts T]. destruct u; [eexists _, _; eapply ev_twice; eauto|].
    destruct (ctor_throws E (concat ts)) as [n|] eqn:M; eexists _, _; eapply ev_throw; eauto.
    + right. eauto. + left. eauto.
  - eexists _, _. constructor.
  - destruct H as [Hp Hq]. destruct (IHp Hp u) as (c & o & Ep). destruct (IHq Hq u) as (c' & o' & Eq).
    destruct o; eexists _, _; [eapply ev_seq; eauto| |]; eapply ev_seq_out; eauto; discriminate.
  - destruct H as [Hp Hq]. destruct (IHp Hp u) as (c & o & Ep). destruct (IHh Hq u) as (c' & o' & Eq).
    destruct o; eexists _, _; [|eapply ev_try; eauto|]; eapply ev_try_out; eauto; discriminate.
  - destruct H as [Hp Hq]. destruct (IHp Hp u) as (c & o & Ep). destruct o as [|x|].
    + destruct (IHd Hq u) as (c' & o' & Ed). destruct o'; eexists _, _;
        [eapply ev_scope; eauto| |]; eapply ev_scope_dtor; eauto; discriminate.
    + destruct (IHd Hq true) as (c' & o' & Ed). destruct o'; eexists _, _;
        [eapply ev_scope_throw; eauto| |]; eapply ev_scope_both; eauto; discriminate.
    + eexists _, _. eapply ev_scope_end; eauto.
Qed.

(** C67 *)
Lemma run_plain (p : prog C F) : forall u c o, (u = false \/ without p) -> dtors_without p -> plain p c o ->
  run u p = (c, o).
Proof.
  assert (W : forall q : prog C F, without q -> dtors_without q).
  { clear. induction q; cbn; tauto. }
  intros u c o Hu D H. revert u Hu D.
  induction H as [|E xs ts x T M|n|p q c c' o _ IH1 _ IH2|p q c o _ IH N|
    p h c x c' o _ IH1 _ IH2|p h c o _ IH N|p d c c' o _ IH1 N _ IH2|
    p d c c' o o' _ IH1 N _ IH2 N'|p d c _ IH]; cbn; intros u Hu D; auto.
  - destruct Hu as [->|[]]. destruct (throw_ex_texts false E xs ts T) as [f ->]. cbn.
    destruct M as [[-> ->]|(n & -> & ->)]; reflexivity.
  - rewrite IH1, IH2 by tauto. reflexivity.
  - rewrite IH by tauto. destruct o; congruence.
  - rewrite IH1, IH2 by tauto. reflexivity.
  - rewrite IH by tauto. destruct o; try reflexivity. now destruct (N x).
  - rewrite IH1 by tauto. destruct o; try congruence; rewrite IH2; intuition.
  - rewrite IH1 by tauto. destruct o; try congruence; rewrite IH2 by (intuition); now destruct o'.
  - rewrite IH by tauto. reflexivity.
Qed.
End Proofs.
