(** C55, C66: the helpers for shared pointers. *)
From Coq Require Import List Arith Bool.
From Verif Require Import Base SharedModel SharedSpec SharedProofs.
Import ListNotations.

Section Props.
Context {V : Type}.
Variable cxx17 : bool.

(** Every history of calls, whatever its length, does what the specification says: there an
    aliased pointer of an empty owner is null and any other one owns too, shared_from and
    weak_from share ownership or throw, an object lives as long as it is owned. In particular
    nothing is undefined, use_count() counts the owners and expired() tells whether there are
    any. *)
Theorem C55_history os xs (a : ast V) : ssteps cxx17 ainit os xs a ->
  exists s, calls cxx17 os init = Ok xs s.
Proof. intros H. destruct (history_good cxx17 os xs a H) as (s & E & _). eauto. Qed.

(** No object which something owns is destroyed; every other one was destroyed exactly once. *)
Theorem C55_destroyed_once os xs (a : ast V) s o : ssteps cxx17 ainit os xs a ->
  calls cxx17 os init = Ok xs s -> o < anext a ->
  (alive a o -> count_occ Nat.eq_dec (destroyed s) o = 0) /\
  (~ alive a o -> count_occ Nat.eq_dec (destroyed s) o = 1).
Proof.
  intros H E L. destruct (history_good cxx17 os xs a H) as (s' & E' & G).
  rewrite E in E'. injection E' as <-. now apply good_destroyed.
Qed.

(** No control block outlives its owners and observers. *)
Theorem C55_blocks_freed os xs (a : ast V) s c b : ssteps cxx17 ainit os xs a ->
  calls cxx17 os init = Ok xs s -> cbs s c = Some b ->
  owned a (managed b) \/ exists w p, awk a w = Some (Some (managed b), p).
Proof.
  intros H E Ec. destruct (history_good cxx17 os xs a H) as (s' & E' & G).
  rewrite E in E'. injection E' as <-. now apply (good_blocks s a c).
Qed.

(** The specification leaves no legal call out: after any history, each one has an outcome. *)
Theorem C55_every_call os xs (a : ast V) o : ssteps cxx17 ainit os xs a -> legal a o ->
  exists x a', sstep cxx17 a o x a'.
Proof.
  intros H L. destruct (history_good cxx17 os xs a H) as (s & E & G). eapply progress; eauto.
Qed.

(** C66: shared_from_this() and weak_from_this() give "the managing pointer but type erased to
    void" if the base class enable_shared_from comes first in the object. *)
Theorem C66_first_base_partial os xs (a : ast V) x y o v s : ssteps cxx17 ainit os xs a ->
  calls cxx17 os init = Ok xs s ->
  kind a o = Some (v, Some 0) -> ash a y = Some (Some o, Some (o, 0)) -> ash a x = None ->
  exists s', calls cxx17 [SharedFromThis x o; Get x; Get y] s =
             Ok [Nothing; Address (Some (o, 0)); Address (Some (o, 0))] s'.
Proof.
  intros H E K Y X. destruct (history_good cxx17 os xs a H) as (s' & E' & G).
  rewrite E in E'. injection E' as <-.
  destruct (calls_sim cxx17 s a [SharedFromThis x o; Get x; Get y]
              [Nothing; Address (Some (o, 0)); Address (Some (o, 0))]
              (with_ash a x (Some (Some o, Some (o, 0)))) G) as (s' & E' & _); [|eauto].
  assert (ne : y <> x) by congruence.
  eapply ss_cons; [eapply s_this; eauto; exists y, (Some (o, 0)); exact Y|].
  eapply ss_cons; [eapply s_get; cbn; now rewrite setm_eq|].
  eapply ss_cons; [eapply s_get; cbn; rewrite setm_neq by assumption; exact Y|]. constructor.
Qed.
End Props.
Print Assumptions C55_history.
Print Assumptions C55_destroyed_once.
Print Assumptions C55_blocks_freed.
Print Assumptions C55_every_call.
Print Assumptions C66_first_base_partial.

(** An object adopted from a unique pointer, shared by its own members, aliased, observed; the
    first owners go, the alias keeps it, and then it goes too. *)
Definition ex_ops : list (op nat) :=
  [ MakeUnique 0 7 (Some 16); SharedFrom 9 0 (Some (0, 4)); Adopt 1 0; SharedFromThis 2 0;
    WeakFrom 5 0 (Some (0, 8)); MakeAliased 3 2 (Some (0, 4)); UseCount 1; Drop 1; Reset 2; Get 3;
    Value 0; Lock 4 5; UseCount 4; Drop 4; StdAlias 6 2 (Some (8, 8)); MakeAliased 7 6 (Some (9, 9));
    Get 6; Get 7; Drop 3; Expired 5; Lock 8 5; Get 8; WeakDrop 5 ].
Definition ex_outs : list (out nat) :=
  [ Object 0; Thrown; Nothing; Nothing; Nothing; Nothing; Number 3; Nothing; Nothing;
    Address (Some (0, 4)); Val 7; Nothing; Number 2; Nothing; Nothing; Nothing;
    Address (Some (8, 8)); Address None; Nothing; Bool true; Nothing; Address None; Nothing ].
Example C55_ex : forall cxx17,
  match calls cxx17 ex_ops init with
  | Ok xs s => xs = ex_outs /\ destroyed s = [0] /\ cbs s 0 = None
  | _ => False
  end.
Proof. intros []; vm_compute; auto. Qed.
Lemma ex_two (P : nat -> Prop) : P 3 -> P 4 -> (forall x, P x -> x = 3 \/ x = 4) -> exactly 2 P.
Proof.
  intros P3 P4 H. exists [3; 4]. split; [repeat constructor; cbn; intuition discriminate|].
  split; [reflexivity|]. intros x. cbn. split; [intros [<-|[<-|[]]]; auto|]. intros Hx.
  apply H in Hx. intuition.
Qed.
(** Such histories are histories of the specification. *)
Example C55_ex_spec : exists a, ssteps true ainit
  [ MakeUnique 0 7 (Some 16); SharedFrom 9 0 (Some (0, 4)); Adopt 3 0; SharedFromThis 4 0; UseCount 3;
    Drop 3; WeakFrom 5 0 (Some (0, 8)); Drop 4; Lock 4 5; MakeAliased 6 4 (Some (0, 4)) ]
  [ Object 0; Thrown; Nothing; Nothing; Number 2; Nothing; Nothing; Nothing; Nothing; Nothing ] a
  /\ ~ alive a 0 /\ 0 < anext a.
Proof.
  eexists. split; [|split].
  - eapply ss_cons; [apply s_make_unique; reflexivity|].
    eapply ss_cons.
    { eapply s_from_none; [reflexivity|right; exists 0; reflexivity|]. intros (x & p & E). discriminate. }
    eapply ss_cons; [eapply s_adopt; reflexivity|].
    eapply ss_cons; [eapply s_this; try reflexivity; exists 3; eexists; reflexivity|].
    eapply ss_cons.
    { eapply s_count; [reflexivity|]. apply ex_two.
      - eexists; reflexivity. - eexists; reflexivity.
      - intros x (p & E). do 5 (destruct x as [|x]; [try discriminate; auto|]). discriminate. }
    eapply ss_cons; [eapply s_drop; reflexivity|].
    eapply ss_cons; [eapply s_wfrom; try reflexivity; exists 4; eexists; reflexivity|].
    eapply ss_cons; [eapply s_drop; reflexivity|].
    eapply ss_cons.
    { eapply s_lock_dead; [reflexivity|reflexivity|]. intros (x & p & E).
      do 5 (destruct x as [|x]; [discriminate|]). discriminate. }
    eapply ss_cons; [eapply s_aliased_null; reflexivity|]. apply ss_nil.
  - intros [(x & p & E)|(u & E)].
    + do 7 (destruct x as [|x]; [discriminate|]). discriminate.
    + destruct u; discriminate.
  - cbn. auto.
Qed.

(** Otherwise it is not the managing pointer: it points into the object, to the base class. *)
Theorem C66_other_base_refuted : forall cxx17 d, d <> 0 ->
  match calls cxx17 [ MakeShared 1 7 (Some d); SharedFromThis 2 0; Get 1; Get 2 ] init with
  | Ok [_; _; Address p1; Address p2] _ => p1 <> p2
  | _ => False
  end.
Proof. intros cxx17 d H. cbn. congruence. Qed.
Print Assumptions C66_other_base_refuted.
