(** Properties C35, C36, C61 and C62: expected. *)
From Coq Require Import List Arith Bool Lia.
From Verif Require Import Base ExpectedModel ExpectedSpec ExpectedProofs.
Import ListNotations.

(** C35. In every specialisation, for every history of any number of objects: no member
    is used which is not alive, the answers are those of "the value or the error last
    given", and afterwards every object has exactly the member alive which it reports.

    Not covered, since false: assignment of a value to a value for expected<void, E>, see
    below; the exception case of C36; and emplace with the own value, C62. *)
Theorem C35_histories_partial :
  forall (V E : Type) (U : moves V E) (none : E) (k : kind) (os : list (op V E)),
  legal_along U none k no_alts os ->
  exists s,
    run (impl_of U k) no_objects os = Some (s, snd (spec_run U none k no_alts os)) /\
    holds_all k s (fst (spec_run U none k no_alts os)).
Proof. intros V E U none k os L. apply run_sim; [|exact L]. intros i. exact I. Qed.
Print Assumptions C35_histories_partial.

(** expected<void, E>: assigning a value to a value assigns to an error which is not
    alive, whatever the objects, also for an object and itself. *)
Theorem C35_void_assign_refuted :
  forall (V E : Type) (U : moves V E) (s : store V E) (t : table V E) (i j : nat),
  holds_all VE s t -> with_value t i -> with_value t j ->
  call (impl_of U VE) (Assign i j) s = UB.
Proof.
  intros V E U s t i j H (v & Hi) (w & Hj).
  destruct (held_some VE s t i _ H Hi) as (b & r & Si). destruct (held_some VE s t j _ H Hj) as (b' & r' & Sj).
  unfold call, impl_of, impl_ve, assign_move, ve_assign_move, has_flag, assign_e, read_e, obj, bind, ret.
  rewrite Si, Sj. cbn. rewrite Si. reflexivity.
Qed.
Print Assumptions C35_void_assign_refuted.

(** Strings which are empty after a move; copies which throw half-way leave 0. *)
Definition strings : moves (list nat) (list nat) :=
  mkMoves _ _ (fun _ => []) (fun _ => []) (fun v => v) (fun e => e) (fun _ _ => [0]).

Example C35_met_te :
  let os := [New 0 [1]; NewErr 1 [2]; NewMove 2 0; Assign 0 1; Has 0; Error 0; Error 1;
             Assign 1 2; Value 1; ValueOr 2 [9]; ErrorRv 0; Error 0; Assign 0 0; Assign 0 1;
             ValueOrRv 0 [8]; ValueOrRv 0 [8]; Destroy 0; Destroy 1; Destroy 2] in
  legal_along strings [] TE no_alts os /\
  snd (spec_run strings [] TE no_alts os) =
    [ANone; ANone; ANone; ANone; ABool false; AErr [2]; AErr [];
     ANone; AVal [1]; AVal []; AErr [2]; AErr []; ANone; ANone;
     AVal [1]; AVal []; ANone; ANone; ANone].
Proof.
  split; [|reflexivity]. cbn. unfold exists_, with_value, with_error.
  repeat split; try discriminate; try reflexivity; eauto; cbn; eauto.
Qed.
Example C35_met_tv :
  let os := [New 0 [1]; NewErr 1 [2]; NewCopy 2 0 false; NewCopy 3 0 true; CopyAssign 1 0 false;
             Clear 0; Has 0; Emplace 0 (Fresh [5]) false; Value 0; Emplace 0 (Fresh [6]) true;
             Has 0; CopyAssign 2 1 true; Value 2; Destroy 0; Destroy 1; Destroy 2] in
  legal_along strings [] TV no_alts os /\
  snd (spec_run strings [] TV no_alts os) =
    [ANone; ANone; ANone; AThrew; ANone;
     ANone; ABool false; ANone; AVal [5]; AThrew;
     ABool false; AThrew; AVal [0]; ANone; ANone; ANone].
Proof.
  split; [|reflexivity]. cbn. unfold exists_, with_value, with_error.
  repeat split; try discriminate; try reflexivity; eauto; cbn; eauto.
  intros _ _ ((e & H) & _). discriminate.
Qed.
Example C35_met_void :
  let os := [New 0 [1]; New 1 [1]] in
  exists s, run (impl_of strings VE) no_objects os = Some (s, [ANone; ANone]) /\
    holds_all VE s (fst (spec_run strings [] VE no_alts os)) /\
    with_value (fst (spec_run strings [] VE no_alts os)) 0 /\
    with_value (fst (spec_run strings [] VE no_alts os)) 1 /\
    call (impl_of strings VE) (Assign 0 1) s = UB.
Proof.
  cbv zeta. destruct (C35_histories_partial _ _ strings [] VE [New 0 [1]; New 1 [1]]) as (s & R & H).
  { cbn. auto. }
  assert (with_value (fst (spec_run strings [] VE no_alts [New 0 [1]; New 1 [1]])) 0) as A by (eexists; reflexivity).
  assert (with_value (fst (spec_run strings [] VE no_alts [New 0 [1]; New 1 [1]])) 1) as B by (eexists; reflexivity).
  exists s. split; [exact R|]. split; [exact H|]. split; [exact A|]. split; [exact B|].
  exact (C35_void_assign_refuted _ _ strings s _ 0 1 H A B).
Qed.

(** C36. Copy assignment of expected<T, void>, when the copy throws: the target says
    truthfully what it holds.

    Not covered, since false: the target has no value and the source has one. *)
Theorem C36_copy_assign_partial :
  forall (V E : Type) (U : moves V E) (none : E) (s : store V E) (t : table V E) (i j : nat),
  holds_all TV s t -> exists_ t i -> exists_ t j -> ~ (with_error t i /\ with_value t j) ->
  exists s' t',
    (call (impl_of U TV) (CopyAssign i j true) s = Ok ANone s' \/
     exists e, call (impl_of U TV) (CopyAssign i j true) s = Throw e s') /\
    holds_all TV s' t' /\ exists_ t' i /\ (forall m, m <> i -> t' m = t m).
Proof.
  intros V E U none s t i j H Hi Hj Hn.
  assert (legal TV t (CopyAssign i j true)) as L by (cbn; auto).
  destruct (call_sim U none TV s t _ H L) as (s' & R & H').
  exists s', (fst (step U none TV t (CopyAssign i j true))).
  split; [|split; [exact H'|]].
  - destruct (call (impl_of U TV) (CopyAssign i j true) s) as [a s1|e s1| |] eqn:C; cbn [after] in R; try discriminate.
    + injection R as -> ->. left. f_equal. cbn [call] in C. unfold bind, ret in C.
      destruct (assign_copy _ _ _ _ s); congruence.
    + injection R as -> _. right. eauto.
  - unfold exists_ in *. cbn [step]. destruct (t i) as [a|] eqn:Ti; [|congruence]. destruct (t j) as [b|] eqn:Tj; [|congruence].
    destruct a, b; cbn [andb stores_value fst]; split; try (rewrite setm_eq; discriminate); intros m Hm; now apply setm_neq.
Qed.
Print Assumptions C36_copy_assign_partial.

(** In the remaining case the target reports a value although none was constructed:
    reading it and destroying the object are undefined. *)
Theorem C36_no_value_refuted :
  forall (V E : Type) (U : moves V E) (s : store V E) (t : table V E) (i j : nat),
  holds_all TV s t -> with_error t i -> with_value t j ->
  exists s',
    call (impl_of U TV) (CopyAssign i j true) s = Throw ElemThrow s' /\
    call (impl_of U TV) (Has i) s' = Ok (ABool true) s' /\
    call (impl_of U TV) (Value i) s' = UB /\
    call (impl_of U TV) (Destroy i) s' = UB.
Proof.
  intros V E U s t i j H (e & Hi) (w & Hj).
  assert (j <> i) as D by congruence.
  destruct (held_some TV s t i _ H Hi) as (b & r & Si). destruct (held_some TV s t j _ H Hj) as (b' & r' & Sj).
  exists (setm s i (Some (mkEx Dead true r))).
  unfold call, impl_of, impl_tv, assign_copy, tv_assign_copy, has, value, mem_value, dtor, tv_destroy, has_flag, read_v,
    del_v, read_v, new_v, set_flag, set_mem, set_obj, obj, bind, ret, throw.
  repeat (rewrite ?Si, ?Sj, ?setm_eq; cbn; rewrite ?(setm_neq _ _ _ _ D)). repeat split.
Qed.
Print Assumptions C36_no_value_refuted.

Example C36_met :
  let os := [NewErr 0 [2]; New 1 [1]; New 2 [3]] in
  exists s, run (impl_of strings TV) no_objects os = Some (s, [ANone; ANone; ANone]) /\
    let t := fst (spec_run strings [] TV no_alts os) in
    holds_all TV s t /\ with_error t 0 /\ with_value t 1 /\
    exists_ t 1 /\ exists_ t 2 /\ ~ (with_error t 1 /\ with_value t 2).
Proof.
  cbv zeta. destruct (C35_histories_partial _ _ strings [] TV [NewErr 0 [2]; New 1 [1]; New 2 [3]]) as (s & R & H).
  { cbn. auto. }
  exists s. split; [exact R|]. split; [exact H|]. unfold with_error, with_value, exists_.
  repeat split; try (eexists; reflexivity); try discriminate.
  intros ((e & X) & _). discriminate.
Qed.

(** C61. expected(unexpected(x)) with an lvalue x leaves x as it is: it does not, x is
    moved from. *)
Theorem C61_unexpected_lvalue_refuted :
  forall (V E : Type) (U : moves V E) (k : kind) (s : store V E) (i : nat) (x : E),
  stores_error k = true -> s i = None ->
  exists s', ctor_unexpected U i (ctor_err (impl_of U k)) true x s = Ok (mvE U x) s' /\
    call (impl_of U k) (Error i) s' = Ok (AErr x) s'.
Proof.
  intros V E U k s i x Hk Hi. destruct k; try discriminate Hk;
    (eexists; split;
     [unfold ctor_unexpected, make_unexpected, error_from, impl_of, impl_te, impl_re, impl_ve, ctor_err, constructing, alloc, new_e,
       set_flag, set_ref, set_mem, set_obj, obj, bind, ret; rewrite Hi; repeat (cbn; rewrite setm_eq); reflexivity
     |unfold call, impl_of, impl_te, impl_re, impl_ve, error, mem_error, read_e, obj, bind, ret; repeat (rewrite setm_eq; cbn); reflexivity]).
Qed.
Print Assumptions C61_unexpected_lvalue_refuted.

(** It does only if moving from an error does not change it. *)
Theorem C61_trivial_errors_partial :
  forall (V E : Type) (U : moves V E) (k : kind) (s : store V E) (i : nat) (x : E),
  stores_error k = true -> s i = None -> mvE U x = x ->
  exists s', ctor_unexpected U i (ctor_err (impl_of U k)) true x s = Ok x s' /\
    call (impl_of U k) (Error i) s' = Ok (AErr x) s'.
Proof.
  intros V E U k s i x Hk Hi Hm. destruct (C61_unexpected_lvalue_refuted V E U k s i x Hk Hi) as (s' & A & B).
  rewrite Hm in A. eauto.
Qed.
Print Assumptions C61_trivial_errors_partial.

Example C61_met : exists s',
  ctor_unexpected strings 0 (ctor_err (impl_of strings TE)) true [7; 8] no_objects = Ok [] s' /\
  mvE strings [] = [].
Proof. eexists. split; reflexivity. Qed.

(** C62. emplace(e.value()) keeps the value: with expected<T, void> the constructor reads a
    value which has been destroyed. *)
Theorem C62_own_value_refuted :
  forall (V E : Type) (U : moves V E) (s : store V E) (t : table V E) (i : nat) (throws : bool),
  holds_all TV s t -> with_value t i ->
  call (impl_of U TV) (Emplace i OwnValue throws) s = UB.
Proof.
  intros V E U s t i th H (v & Hi). destruct (held_some TV s t i _ H Hi) as (b & r & Si).
  unfold call, impl_of, impl_tv, emplace, tv_emplace, tv_clear, has_flag, del_v, read_v, set_mem, set_flag, set_obj, obj, bind, ret.
  repeat (rewrite ?Si, ?setm_eq; cbn). reflexivity.
Qed.
Print Assumptions C62_own_value_refuted.

(** References and void. *)
Theorem C62_no_object_partial :
  forall (V E : Type) (U : moves V E) (none : E) (k : kind) (s : store V E) (t : table V E) (i : nat) (throws : bool),
  k = RV \/ k = VV -> holds_all k s t -> with_value t i ->
  exists s', call (impl_of U k) (Emplace i OwnValue throws) s = Ok ANone s' /\ holds_all k s' t.
Proof.
  intros V E U none k s t i th Hk H Hi.
  assert (legal k t (Emplace i OwnValue th)) as L.
  { cbn. destruct Hi as (v & Hv). unfold exists_. rewrite Hv. destruct Hk as [->| ->]; repeat split; try discriminate; eexists; eauto. }
  destruct (call_sim U none k s t _ H L) as (s' & R & H'). exists s'. split; [|exact H'].
  destruct Hi as (v & Hv). destruct (held_some k s t i _ H Hv) as (b & r & Si).
  destruct Hk as [->| ->]; revert R;
    unfold call, impl_of, impl_rv, impl_vv, emplace, ref_value, set_ref, set_flag, set_obj, obj, bind, ret;
    repeat (rewrite ?Si; cbn); intros [= <-]; reflexivity.
Qed.
Print Assumptions C62_no_object_partial.

Example C62_met :
  let os := [New 0 [1]] in
  forall k, exists s, run (impl_of strings k) no_objects os = Some (s, [ANone]) /\
    holds_all k s (fst (spec_run strings [] k no_alts os)) /\
    with_value (fst (spec_run strings [] k no_alts os)) 0.
Proof.
  intros os k. destruct (C35_histories_partial _ _ strings [] k os) as (s & R & H); [cbn; auto|].
  exists s. split; [exact R|]. split; [exact H|]. eexists. reflexivity.
Qed.
