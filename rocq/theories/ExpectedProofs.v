(** Proofs about expected. *)
From Coq Require Import List Arith Bool Lia.
From Verif Require Import Base ExpectedModel ExpectedSpec.
Import ListNotations.

Section P.
Context {V E : Type}.
Variable U : moves V E.
Variable none : E.

(** The object of an alternative, up to the members the specialisation does not have. *)
Definition form (k : kind) (a : alt V E) (b : bool) (r : option V) : ex V E :=
  mkEx (match a with
        | Val v => if stores_value k then LiveV v else Dead
        | Err e => if stores_error k then LiveE e else Dead
        end)
       (if is_ref k then b else is_val a)
       (if is_ref k then match a with Val v => Some v | Err _ => None end else r).

Lemma holds_form k x a : holds_alt k x a -> exists b r, x = form k a b r.
Proof.
  destruct x as [m f r]. unfold holds_alt. cbn [mem flag ref]. intros (-> & H).
  exists f, r. unfold form. destruct (is_ref k); now rewrite H.
Qed.
Lemma form_holds k a b r : holds_alt k (form k a b r) a.
Proof. unfold holds_alt, form. cbn. split; [reflexivity|]. now destruct (is_ref k). Qed.

Lemma held_some k s t i a : holds_all k s t -> t i = Some a ->
  exists b r, s i = Some (form k a b r).
Proof.
  intros H Hi. specialize (H i). rewrite Hi in H. destruct (s i) as [x|]; [|contradiction].
  destruct (holds_form k x a H) as (b & r & ->). eauto.
Qed.
Lemma held_none k (s : store V E) t i : holds_all k s t -> t i = None -> s i = None.
Proof. intros H Hi. specialize (H i). rewrite Hi in H. now destruct (s i). Qed.

Lemma holds_set k (s : store V E) t i x a :
  holds_all k s t -> holds_alt k x a -> holds_all k (setm s i (Some x)) (setm t i (Some a)).
Proof. intros H Hx j. unfold setm. destruct (j =? i); [exact Hx|apply H]. Qed.
Lemma holds_unset k (s : store V E) t i :
  holds_all k s t -> holds_all k (setm s i None) (setm t i None).
Proof. intros H j. unfold setm. destruct (j =? i); [exact I|apply H]. Qed.

Definition after (r : res (store V E) (ans V E)) : option (store V E * ans V E) :=
  match r with
  | Ok a s => Some (s, a)
  | Throw _ s => Some (s, AThrew)
  | _ => None
  end.

(** Runs a call on objects given by equations [s i = Some (mkEx ...)]. *)
Ltac look :=
  repeat match goal with
  | |- context [setm ?s ?i ?x ?i] => rewrite (setm_eq s i x)
  | H : ?j <> ?i |- context [setm ?s ?i ?x ?j] => rewrite (setm_neq s i j x H)
  | H : ?i <> ?j |- context [setm ?s ?i ?x ?j] => rewrite (setm_neq s i j x (not_eq_sym H))
  | H : ?s ?i = _ |- context [?s ?i] => rewrite H
  | H : ?s ?i = _, H' : context [?s ?i] |- _ => lazymatch H' with H => fail | _ => rewrite H in H' end
  end.
Ltac unf :=
  unfold call, impl_of, impl_te, impl_re, impl_ve, impl_tv, impl_rv, impl_vv,
    ctor_val, ctor_err, ctor_move, ctor_copy, assign_move, assign_copy, dtor, has, value,
    value_rv, value_or, value_or_rv, error, error_rv, clear, emplace,
    te_destroy, te_ctor_move, te_assign_move, mem_value, mem_value_rv, mem_value_or,
    mem_value_or_rv, mem_error, mem_error_rv, re_ctor_move, re_assign_move, re_destroy,
    ref_value, ref_value_or, ve_ctor_move, ve_assign_move, ve_destroy, tv_ctor_copy,
    tv_assign_copy, tv_ctor_move, tv_assign_move, tv_destroy, tv_clear, tv_emplace,
    rv_copy, vv_copy, constructing, alloc, release, has_flag, has_ref, assign_v, assign_e,
    copy_assign_v, new_v_from, new_e_from, del_v, del_e, new_v, new_e, read_v, read_e,
    set_mem, set_flag, set_ref, set_obj, obj, nothing, ub, throw, bind, ret in *.
Ltac crunch := repeat (progress (unf; cbn; look)).

(** Two states which are pointwise equal hold the same. *)
Lemma holds_ext k (s s' : store V E) t :
  (forall i, s i = s' i) -> holds_all k s t -> holds_all k s' t.
Proof. intros He H i. rewrite <- He. apply H. Qed.

Ltac pointwise H :=
  let m := fresh "m" in intros m; specialize (H m); unfold setm in *; cbn;
  repeat match goal with
  | |- context [m =? ?i] => destruct (Nat.eqb_spec m i); [subst|]
  end; look; try exact I; try contradiction; try exact H;
  try (unfold holds_alt; cbn; auto; fail).

Lemma call_sim k s t o : holds_all k s t -> legal k t o ->
  exists s', after (call (impl_of U k) o s) = Some (s', snd (step U none k t o)) /\
    holds_all k s' (fst (step U none k t o)).
Proof.
  intros H L. destruct o; cbn [legal] in L; unfold exists_, with_value, with_error in L; cbn [step].
  - (* New *) apply (held_none k s t i H) in L as N. destruct k; crunch; eexists; (split; [reflexivity|]); pointwise H.
  - apply (held_none k s t i H) in L as N. destruct k; crunch; eexists; (split; [reflexivity|]); pointwise H.
  - (* NewMove *) destruct L as (L1 & L2). apply (held_none k s t i H) in L1 as N.
    destruct (t j) as [a|] eqn:Tj; [|congruence]. destruct (held_some k s t j a H Tj) as (b & r & Sj).
    assert (i <> j) as D by congruence.
    destruct k, a; crunch; eexists; (split; [reflexivity|]); pointwise H.
  - (* NewCopy *) destruct L as (L0 & L1 & L2). apply (held_none k s t i H) in L1 as N.
    destruct (t j) as [a|] eqn:Tj; [|congruence]. destruct (held_some k s t j a H Tj) as (b & r & Sj).
    assert (i <> j) as D by congruence.
    destruct k; try discriminate L0; destruct a, throws; crunch; eexists; (split; [reflexivity|]); pointwise H.
  - (* Assign *) destruct L as (L1 & L2 & L3).
    destruct (t j) as [a|] eqn:Tj; [|congruence]. destruct (held_some k s t j a H Tj) as (b & r & Sj).
    destruct (t i) as [a'|] eqn:Ti; [|congruence]. destruct (held_some k s t i a' H Ti) as (b' & r' & Si).
    destruct (Nat.eqb_spec i j) as [->|D].
    + assert (a' = a) as -> by congruence. assert (b' = b /\ r' = r \/ True) as _ by auto.
      clear Si b' r' Ti.
      destruct k, a; crunch; rewrite ?Nat.eqb_refl; crunch;
        try (exfalso; apply L3; eauto; fail); eexists; (split; [reflexivity|]); pointwise H.
    + apply Nat.eqb_neq in D as D'.
      destruct k, a, a'; crunch; rewrite ?D'; crunch;
        try (exfalso; apply L3; eauto; fail); eexists; (split; [reflexivity|]); pointwise H.
  - (* CopyAssign *) destruct L as (L0 & L1 & L2 & L3).
    destruct (t j) as [a|] eqn:Tj; [|congruence]. destruct (held_some k s t j a H Tj) as (b & r & Sj).
    destruct (t i) as [a'|] eqn:Ti; [|congruence]. destruct (held_some k s t i a' H Ti) as (b' & r' & Si).
    destruct (Nat.eq_dec i j) as [->|D].
    + assert (a' = a) as -> by congruence. clear Si b' r' Ti.
      destruct k; try discriminate L0; destruct a, throws; crunch; eexists; (split; [reflexivity|]); pointwise H.
    + destruct k; try discriminate L0; destruct a, a', throws; crunch;
        try (exfalso; apply L3; eauto; fail); eexists; (split; [reflexivity|]); pointwise H.
  - (* Destroy *)
    destruct (t i) as [a|] eqn:Ti; [|congruence]. destruct (held_some k s t i a H Ti) as (b & r & Si).
    destruct k, a; crunch; eexists; (split; [reflexivity|]); pointwise H.
  - destruct (t i) as [a|] eqn:Ti; [|congruence]. destruct (held_some k s t i a H Ti) as (b & r & Si).
    destruct k, a; crunch; eexists; (split; [reflexivity|]); pointwise H.
  - destruct L as (L0 & v & Ti). destruct (held_some k s t i _ H Ti) as (b & r & Si). look.
    destruct k; try discriminate L0; crunch; eexists; (split; [reflexivity|]); pointwise H.
  - destruct L as (L0 & v & Ti). destruct (held_some k s t i _ H Ti) as (b & r & Si). look.
    destruct k; try discriminate L0; crunch; eexists; (split; [reflexivity|]); pointwise H.
  - destruct L as (L0 & L1).
    destruct (t i) as [a|] eqn:Ti; [|congruence]. destruct (held_some k s t i a H Ti) as (b & r & Si).
    destruct k; try discriminate L0; destruct a; crunch; eexists; (split; [reflexivity|]); pointwise H.
  - destruct L as (L0 & L1).
    destruct (t i) as [a|] eqn:Ti; [|congruence]. destruct (held_some k s t i a H Ti) as (b & r & Si).
    destruct k; try discriminate L0; destruct a; crunch; eexists; (split; [reflexivity|]); pointwise H.
  - destruct L as (L0 & v & Ti). destruct (held_some k s t i _ H Ti) as (b & r & Si). look.
    destruct k; try discriminate L0; crunch; eexists; (split; [reflexivity|]); pointwise H.
  - destruct L as (L0 & v & Ti). destruct (held_some k s t i _ H Ti) as (b & r & Si). look.
    destruct k; try discriminate L0; crunch; eexists; (split; [reflexivity|]); pointwise H.
  - destruct L as (L0 & L1).
    destruct (t i) as [a|] eqn:Ti; [|congruence]. destruct (held_some k s t i a H Ti) as (b & r & Si).
    destruct k; try discriminate L0; destruct a; crunch; eexists; (split; [reflexivity|]); pointwise H.
  - destruct L as (L0 & L1 & L2).
    destruct (t i) as [b|] eqn:Ti; [|congruence]. destruct (held_some k s t i b H Ti) as (c & r & Si).
    destruct a as [v|].
    + destruct k; try discriminate L0; destruct b, throws; crunch; eexists; (split; [reflexivity|]); pointwise H.
    + destruct (L2 eq_refl) as (L3 & v & [= ->]).
      destruct k; try discriminate L0; try congruence; crunch; eexists; (split; [reflexivity|]); pointwise H.
Qed.

Lemma run_sim k os : forall s t, holds_all k s t -> legal_along U none k t os ->
  exists s', run (impl_of U k) s os = Some (s', snd (spec_run U none k t os)) /\
    holds_all k s' (fst (spec_run U none k t os)).
Proof.
  induction os as [|o os IH]; intros s t H L; cbn [run spec_run legal_along] in *; [eauto|].
  destruct L as (Lo & L). destruct (call_sim k s t o H Lo) as (s1 & R & H1).
  destruct (step U none k t o) as (t1, a). cbn [fst snd] in *.
  destruct (IH s1 t1 H1 L) as (s2 & R2 & H2).
  destruct (spec_run U none k t1 os) as (t2, rs). cbn [fst snd] in *. exists s2. split; [|exact H2].
  destruct (call (impl_of U k) o s); cbn [after] in R; try discriminate; injection R as <- <-; now rewrite R2.
Qed.
End P.
