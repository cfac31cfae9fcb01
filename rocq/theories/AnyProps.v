(** Properties C37, C38, C39, C63 and C98: any. *)
From Coq Require Import List Arith Bool Lia NArith.
From Verif Require Import Base AnyModel AnySpec AnyProofs.
Import ListNotations.

(** C37. Whatever is done with any number of anys, with any allocators, throwing
    constructors and failing allocations, as long as no any is made from an lvalue: the
    answers are those of anys which hold values, and all of them hold values of their own.

    Not covered, since false: lvalues and copy assignment to itself, see below; the own
    object as a source, C63; move assignment between different allocators, C38. *)
Lemma own_step {Val} copyable (mv : Val -> Val) w q : legal w q -> no_lvalues q ->
  (forall i al o, tab w i = Some (al, Some o) -> is_link o = false) ->
  forall i al x, tab (fst (step copyable mv w q)) i = Some (al, Some x) -> is_link x = false.
Proof.
  intros L N H.
  assert (forall i x, (forall al o, x = Some (al, Some o) -> is_link o = false) ->
    forall k al y, tab (set_tab w i x) k = Some (al, Some y) -> is_link y = false) as Set_.
  { intros i x Hx k al y E. unfold set_tab in E. cbn [tab] in E. destruct (Nat.eq_dec k i) as [->|D].
    - rewrite setm_eq in E. eapply Hx; eauto.
    - rewrite setm_neq in E by auto. eapply H; eauto. }
  assert (forall i al o f, is_link o = false -> forall k al' y, tab (fst (fill w i al (made o f))) k = Some (al', Some y) -> is_link y = false) as Fill.
  { intros i al o f K. destruct f; cbn [made]; rewrite ?K; cbn [fill fst]; apply Set_; congruence. }
  assert (forall i al o f, is_link o = false -> forall k al' y, tab (fst (fill_new w i al (made o f))) k = Some (al', Some y) -> is_link y = false) as FillN.
  { intros i al o f K. destruct f; cbn [made]; rewrite ?K; cbn [fill_new fst]; [|exact H|exact H]; apply Set_; congruence. }
  assert (forall i al o f, is_link o = false -> forall k al' y, tab (fst (fill w i al (copied copyable o f))) k = Some (al', Some y) -> is_link y = false) as Copy.
  { intros i al o f K. destruct o as [ty v|]; [|discriminate]. destruct f; cbn [copied]; destruct (copyable ty); try apply Fill; auto; cbn [fill fst]; apply Set_; congruence. }
  assert (forall i al o f, is_link o = false -> forall k al' y, tab (fst (fill_new w i al (copied copyable o f))) k = Some (al', Some y) -> is_link y = false) as CopyN.
  { intros i al o f K. destruct o as [ty v|]; [|discriminate]. destruct f; cbn [copied]; destruct (copyable ty); try apply FillN; auto; cbn [fill_new fst]; exact H. }
  assert (forall i al o v, tab w i = Some (al, Some o) -> forall k al' y, tab (poke w i al o v) k = Some (al', Some y) -> is_link y = false) as Poke.
  { intros i al o v E. specialize (H i al o E) as K. destruct o; [|discriminate]. cbn [poke]. apply Set_. intros ? ? [= _ <-]. reflexivity. }
  destruct q; cbn [step legal no_lvalues] in *.
  - cbn [fst]. apply Set_. congruence.
  - destruct src; [|contradiction|destruct L as [_ L]; cbn in L; congruence]. cbn [forwarded]. now apply FillN.
  - destruct (tab w j) as [(al, c)|] eqn:E; [|exact H]. cbn [fst]. intros k al' y F. unfold set_tab in F. cbn [tab] in F.
    destruct (Nat.eq_dec k i) as [->|D1]; [rewrite setm_eq in F; injection F as -> ->; eapply H; eauto|].
    rewrite setm_neq in F by auto. destruct (Nat.eq_dec k j) as [->|D2]; [rewrite setm_eq in F; discriminate|].
    rewrite setm_neq in F by auto. eapply H; eauto.
  - destruct (tab w j) as [(al, [o|])|] eqn:E; [| |exact H]; [apply CopyN; eauto|]. cbn [fst]. apply Set_. congruence.
  - destruct (i =? j); [exact H|]. destruct (tab w i) as [(al, c)|]; [|exact H].
    destruct (tab w j) as [(al', c')|] eqn:E; [|exact H]. cbn [fst]. intros k al2 y F. unfold set_tab in F. cbn [tab] in F.
    destruct (Nat.eq_dec k i) as [->|D1]; [rewrite setm_eq in F; injection F as _ ->; eapply H; eauto|].
    rewrite setm_neq in F by auto. destruct (Nat.eq_dec k j) as [->|D2]; [rewrite setm_eq in F; discriminate|].
    rewrite setm_neq in F by auto. eapply H; eauto.
  - destruct (tab w i) as [(al, c)|]; [|exact H].
    destruct (tab w j) as [(al', [o|])|] eqn:E; [| |exact H]; [apply Copy; eauto|]. cbn [fst]. apply Set_. congruence.
  - destruct (tab w i) as [(al, c)|]; [|exact H].
    destruct src; [|contradiction|destruct L as [_ L]; cbn in L; congruence]. cbn [forwarded]. now apply Fill.
  - destruct (tab w i) as [(al, c)|]; [|exact H]. destruct (emplaced w ty src) as [o|] eqn:E; [|exact H].
    apply Fill. destruct src; cbn [emplaced] in E; [now injection E as <-| |discriminate].
    destruct (look w (Link ty (Some x))); [|discriminate]. now injection E as <-.
  - destruct (tab w i) as [(al, c)|]; [|exact H]. cbn [fst]. apply Set_. congruence.
  - cbn [fst]. apply Set_. congruence.
  - destruct (tab w i) as [(al, c)|]; exact H.
  - destruct (tab w i) as [(al, c)|]; exact H.
  - destruct (tab w i) as [(al, [o|])|]; try exact H. destruct (type_of o =? ty); exact H.
  - destruct (tab w i) as [(al, [o|])|]; try exact H. destruct (type_of o =? ty); exact H.
  - destruct (tab w i) as [(al, [o|])|] eqn:E; try exact H. destruct (type_of o =? ty); try exact H.
    destruct (look w o); try exact H. cbn [fst]. eauto.
  - destruct (tab w i) as [(al, [o|])|] eqn:E; try exact H. destruct (type_of o =? ty); try exact H. cbn [fst]. eauto.
  - exact H.
  - exact H.
Qed.
Lemma own_run {Val} copyable (mv : Val -> Val) os : forall w, legal_along copyable mv w os -> Forall no_lvalues os ->
  (forall i al o, tab w i = Some (al, Some o) -> is_link o = false) ->
  forall i al x, tab (fst (spec_run copyable mv w os)) i = Some (al, Some x) -> is_link x = false.
Proof.
  induction os as [|o os IH]; intros w L N H; [exact H|]. destruct L as (Lo & L). inversion N; subst.
  cbn [spec_run]. destruct (step copyable mv w o) as (w', a) eqn:E.
  specialize (IH w'). destruct (spec_run copyable mv w' os) as (w2, rs). cbn [fst] in *. apply IH; auto.
  replace w' with (fst (step copyable mv w o)) by now rewrite E. now apply own_step.
Qed.

Theorem C37_independent_partial :
  forall (Val : Type) (copyable : nat -> bool) (layout : bool -> nat -> nat * nat)
         (mv : Val -> Val) (os : list (op Val)),
  legal_along copyable mv nothing os -> Forall no_lvalues os ->
  exists s,
    run copyable layout mv start os = Some (s, snd (spec_run copyable mv nothing os)) /\
    is_world layout s (fst (spec_run copyable mv nothing os)) /\
    forall i al o, tab (fst (spec_run copyable mv nothing os)) i = Some (al, Some o) ->
      exists ty v, o = Own ty v.
Proof.
  intros Val copyable layout mv os L N.
  destruct (run_sim copyable layout mv os start nothing (start_world layout) L) as (s & R & H).
  exists s. split; [exact R|]. split; [exact H|]. intros i al o E.
  assert (is_link o = false) as K by (eapply (own_run copyable mv os nothing); eauto; discriminate).
  destruct o; [eauto|discriminate].
Qed.
Print Assumptions C37_independent_partial.

(** What an any holds stays the same until the any itself is changed: whatever else is
    done, with other anys (also with copies of it) and with the variables, a later
    any_cast gives the value it held. *)
Lemma untouched_step {Val} copyable (mv : Val -> Val) w o i : ~ touches i o ->
  legal w o ->
  tab (fst (step copyable mv w o)) i = tab w i.
Proof.
  intros N L.
  assert (forall (u : world Val) k x, k <> i -> tab (set_tab u k x) i = tab u i) as Set_.
  { intros u k x D. unfold set_tab. cbn [tab]. apply setm_neq. auto. }
  assert (forall k al r, k <> i -> tab (fst (fill w k al r)) i = tab w i) as Fill.
  { intros k al [x|e] D; cbn [fill fst]; auto. }
  assert (forall k al r, k <> i -> tab (fst (fill_new w k al r)) i = tab w i) as FillN.
  { intros k al [x|e] D; cbn [fill_new fst]; auto. }
  destruct o; cbn [step touches] in *; auto;
    repeat match goal with
    | |- tab (fst (match ?x with _ => _ end)) _ = _ => destruct x
    end; cbn [fst]; auto.
  all: try (rewrite !Set_ by intuition; reflexivity).
  all: try (destruct s; cbn [poke]; auto; destruct x; cbn [tab]; auto).
  all: try (destruct s as [? ?|? [?|]]; cbn [poke]; auto).
Qed.
Theorem C37_untouched_partial :
  forall (Val : Type) (copyable : nat -> bool) (layout : bool -> nat -> nat * nat)
         (mv : Val -> Val) (s : st Val) (w : world Val) (i al ty : nat) (v : Val)
         (os : list (op Val)),
  is_world layout s w -> tab w i = Some (al, Some (Own ty v)) ->
  legal_along copyable mv w os -> Forall (fun o => ~ touches i o) os ->
  exists s' rs,
    run copyable layout mv s os = Some (s', rs) /\
    call copyable layout mv (CastVal i ty) s' = Ok (AVal (Some v)) s'.
Proof.
  intros Val copyable layout mv s w i al ty v os H E L N.
  destruct (run_sim copyable layout mv os s w H L) as (s' & R & H').
  exists s', (snd (spec_run copyable mv w os)). split; [exact R|].
  assert (tab (fst (spec_run copyable mv w os)) i = Some (al, Some (Own ty v))) as E'.
  { clear - E L N. revert w E L. induction os as [|o os IH]; intros w E L; [exact E|].
    destruct L as (Lo & L). inversion N; subst. pose proof (untouched_step copyable mv w o i H1 Lo) as U.
    cbn [spec_run]. destruct (step copyable mv w o) as (w', a). specialize (IH H2 w').
    destruct (spec_run copyable mv w' os) as (w2, rs). cbn [fst] in *. apply IH; auto. congruence. }
  cbn [call]. pose proof (do_cast_ok layout s' _ i ty al _ H' E') as D. cbn [type_of look] in D. rewrite Nat.eqb_refl in D.
  erewrite bind_ok by exact D. reflexivity.
Qed.
Print Assumptions C37_untouched_partial.

(** An any made from an lvalue, or assigned one, refers to it: a later change of the
    variable is seen in the any, and after the variable's end reading the any is UB. *)
Theorem C37_lvalue_refuted :
  forall (Val : Type) (copyable : nat -> bool) (layout : bool -> nat -> nat * nat)
         (mv : Val -> Val) (s : st Val) (w : world Val) (i a x ty : nat) (v v' : Val),
  is_world layout s w -> tab w i = None -> svars w x = Some (ty, v) ->
  (exists s', run copyable layout mv s [NewVal i a (LVar x) NoFault; SetVar x ty v'; CastVal i ty] =
      Some (s', [ANone; ANone; AVal (Some v')])) /\
  run copyable layout mv s [NewVal i a (LVar x) NoFault; EndVar x; CastVal i ty] = None.
Proof.
  intros Val copyable layout mv s w i a x ty v v' H Ei Ex. split.
  - destruct (run_sim copyable layout mv [NewVal i a (LVar x) NoFault; SetVar x ty v'; CastVal i ty] s w H) as (s' & R & _).
    + cbn [legal_along]. split; [|split; [|split]]; auto.
      * cbn [legal forwarded]. rewrite Ex. split; [exact Ei|discriminate].
      * exact I.
      * cbn [step forwarded]. rewrite Ex. cbn [made is_link fill_new fst legal].
        unfold live_any, readable, set_tab. cbn [tab]. rewrite setm_eq. split; [discriminate|].
        intros al o [= <- <-] _. cbn [look svars]. rewrite setm_eq, Nat.eqb_refl. discriminate.
    + exists s'. rewrite R. cbn [spec_run step forwarded]. rewrite Ex. cbn [made is_link fill_new].
      unfold set_tab. cbn [tab]. rewrite setm_eq. cbn [type_of]. rewrite Nat.eqb_refl. cbn [look svars]. rewrite setm_eq, Nat.eqb_refl. reflexivity.
  - destruct (run_sim copyable layout mv [NewVal i a (LVar x) NoFault; EndVar x] s w H) as (s' & R & H').
    + cbn [legal_along legal forwarded]. rewrite Ex. repeat split; auto. discriminate.
    + cbn [spec_run step forwarded] in *. rewrite Ex in *. cbn [made is_link fill_new fst snd] in *.
      assert (call copyable layout mv (CastVal i ty) s' = UB) as D.
      { cbn [call]. match type of H' with is_world _ _ ?u => pose proof (do_cast_ok layout s' u i ty a (Some (Link ty (Some x))) H') as D end.
        unfold bind. rewrite D; [|unfold set_tab; cbn [tab]; apply setm_eq].
        cbn [type_of look svars set_tab load]. rewrite Nat.eqb_refl, setm_eq.
        rewrite (same_vars _ _ _ H'). cbn [svars]. rewrite setm_eq. reflexivity. }
      revert R. cbn [run]. destruct (call copyable layout mv (NewVal i a (LVar x) NoFault) s) as [r t|e t| |]; try discriminate;
      (destruct (call copyable layout mv (EndVar x) t) as [r1 t1|e1 t1| |]; try discriminate; intros [= ? ?]; subst; try (now rewrite D)).
Qed.
Print Assumptions C37_lvalue_refuted.

(** Copy assignment of any any to itself leaves it empty. *)
Theorem C37_self_copy_refuted :
  forall (Val : Type) (copyable : nat -> bool) (layout : bool -> nat -> nat * nat)
         (mv : Val -> Val) (s : st Val) (w : world Val) (i al : nat) (o : stored Val) (f : fault),
  is_world layout s w -> tab w i = Some (al, Some o) ->
  exists s',
    call copyable layout mv (CopyAssign i i f) s = Ok ANone s' /\
    is_world layout s' (set_tab w i (Some (al, None))) /\
    call copyable layout mv (Has i) s' = Ok (ABool false) s'.
Proof.
  intros Val copyable layout mv s w i al o f H E.
  destruct (reset_ok layout s w i al (Some o) H E) as (s1 & R1 & H1).
  pose proof (any_is_empty layout s1 _ i al H1 (is_empty_tab _ _ _ _)) as Ai.
  exists s1. split; [|split; [exact H1|]]; cbn [call].
  - unfold copy_from. unfold bind at 1. unfold bind at 1. rewrite R1. erewrite bind_ok by (apply the_ok; exact Ai). reflexivity.
  - erewrite bind_ok by (apply the_ok; exact Ai). reflexivity.
Qed.
Print Assumptions C37_self_copy_refuted.

(** Type 0 cannot be copied; moved-from values are 0. *)
Definition some_copyable (ty : nat) : bool := negb (ty =? 0).
Definition some_layout (r : bool) (ty : nat) : nat * nat := if r then (24, 8) else (16 + 8 * ty, 8).
Definition gone (v : nat) : nat := 0.

Example C37_met :
  let os := [New 0 7; NewVal 1 8 (RVal 1 5) NoFault; NewCopy 2 1 9 NoFault; Mutate 1 1 6; CastVal 2 1;
             CastVal 1 1; CopyAssign 0 2 NoFault; Reset 2; CastPtr 0 1; SetVar 3 2 11; Emplace 2 2 (LVar 3) NoFault;
             SetVar 3 2 12; CastVal 2 2; CopyAssign 1 2 CtorThrows; Has 1; NewMove 4 2; Has 2; TypeOf 4;
             AssignVal 0 (RVal 0 13) NoFault; CopyAssign 1 0 NoFault; NewCopy 5 0 3 NoFault; CastMove 0 0; CastVal 0 0;
             Drop 0; Drop 1; Drop 2; Drop 4] in
  legal_along some_copyable gone nothing os /\ Forall no_lvalues os /\
  snd (spec_run some_copyable gone nothing os) =
    [ANone; ANone; ANone; ANone; AVal (Some 5);
     AVal (Some 6); ANone; ANone; AVal (Some 5); ANone; ANone;
     ANone; AVal (Some 11); AThrew ElemThrow; ABool false; ANone; ABool false; AType (Some 2);
     ANone; AThrew BadCast; AThrew BadCast; AVal (Some 13); AVal (Some 0);
     ANone; ANone; ANone; ANone].
Proof.
  cbv zeta. split; [|split; [|reflexivity]].
  - vm_compute. repeat split; try discriminate; try congruence; intros ? ? [= <- <-]; discriminate.
  - repeat constructor.
Qed.
Example C37_untouched_met :
  let os := [NewVal 1 8 (RVal 1 5) NoFault] in
  let w := fst (spec_run some_copyable gone nothing os) in
  let more := [NewCopy 2 1 9 NoFault; Mutate 2 1 6; SetVar 0 1 9; New 3 8; CopyAssign 3 1 NoFault; CastMove 3 1] in
  tab w 1 = Some (8, Some (Own 1 5)) /\ legal_along some_copyable gone w more /\
  Forall (fun o => ~ touches 1 o) more.
Proof.
  cbv zeta. split; [reflexivity|]. split.
  - cbn. unfold live_any, readable. cbn. repeat split; try discriminate; try congruence; intros ? ? [= <- <-]; discriminate.
  - repeat (apply Forall_cons; [cbn; try (intros X; discriminate); tauto|]). apply Forall_nil.
Qed.
Example C37_refuted_met :
  let w := fst (spec_run some_copyable gone nothing [SetVar 3 1 5; New 0 7; AssignVal 0 (RVal 1 4) NoFault]) in
  tab w 1 = None /\ svars w 3 = Some (1, 5) /\ tab w 0 = Some (7, Some (Own 1 4)).
Proof. repeat split. Qed.

(** C38. For every history, with any allocators, failing allocations, throwing
    constructors and types which cannot be copied: nothing goes wrong (no block is given
    back twice, with another size or alignment, to another allocator or with an object
    alive in it), the blocks are exactly those of the objects held, and none are left
    when the anys are gone.

    Not covered, since false: move assignment between different allocators. *)
Theorem C38_balanced_partial :
  forall (Val : Type) (copyable : nat -> bool) (layout : bool -> nat -> nat * nat)
         (mv : Val -> Val) (os : list (op Val)),
  legal_along copyable mv nothing os ->
  exists s,
    run copyable layout mv start os = Some (s, snd (spec_run copyable mv nothing os)) /\
    is_world layout s (fst (spec_run copyable mv nothing os)) /\
    ((forall i, tab (fst (spec_run copyable mv nothing os)) i = None) -> forall b, heap s b = None).
Proof.
  intros Val copyable layout mv os L.
  destruct (run_sim copyable layout mv os start nothing (start_world layout) L) as (s & R & H).
  exists s. split; [exact R|]. split; [exact H|]. intros N b.
  destruct (heap s b) as [k|] eqn:E; [|reflexivity].
  destruct (no_leaks _ _ _ H b) as (i & a & A & _); [congruence|].
  rewrite (any_is_none layout s _ i H (N i)) in A. discriminate.
Qed.
Print Assumptions C38_balanced_partial.

(** Move assignment between any two anys whose allocators differ, when the source holds
    something: the next thing which releases it gives it back to the wrong allocator. *)
Theorem C38_move_assign_refuted :
  forall (Val : Type) (copyable : nat -> bool) (layout : bool -> nat -> nat * nat)
         (mv : Val -> Val) (s : st Val) (w : world Val) (i j al al' : nat)
         (c : option (stored Val)) (o : stored Val),
  is_world layout s w -> i <> j -> tab w i = Some (al, c) -> tab w j = Some (al', Some o) -> al <> al' ->
  exists s',
    call copyable layout mv (Assign i j) s = Ok ANone s' /\
    call copyable layout mv (Reset i) s' = UB /\
    call copyable layout mv (Drop i) s' = UB.
Proof.
  intros Val copyable layout mv s w i j al al' c o H D Ei Ej N.
  destruct (reset_ok layout s w i al c H Ei) as (s1 & R1 & H1).
  set (w1 := set_tab w i (Some (al, None))) in *.
  assert (tab w1 i = Some (al, None)) as E1 by apply is_empty_tab.
  assert (tab w1 j = Some (al', Some o)) as Ej1 by (unfold w1, set_tab; cbn [tab]; rewrite setm_neq; auto).
  pose proof (any_is_empty layout s1 w1 i al H1 E1) as Ai.
  destruct (any_is_full layout s1 w1 j al' o H1 Ej1) as (b & Aj & Hb).
  set (s' := mkSt (heap s1) (next s1) (setm (setm (anys s1) i (Some (mkAny al (Some b)))) j (Some (mkAny al' None))) (vars s1)).
  assert (reset i s' = UB) as R'.
  { unfold reset, the, bind, s'. cbn [anys]. rewrite setm_neq by auto. rewrite setm_eq. cbn [m_block]. unfold blk. cbn [heap].
    rewrite Hb. unfold block_for. destruct (layout (is_link o) (type_of o)) as (size, align). cbn [object header].
    unfold put_blk, get, set_heap, bind. cbn [heap anys next vars provider bsize balign].
    unfold free_block, the, bind. cbn [anys]. rewrite setm_neq by auto. rewrite setm_eq. cbn [m_block]. unfold blk. cbn [heap]. rewrite setm_eq.
    cbn [object provider bsize balign allocator]. rewrite (proj2 (Nat.eqb_neq al' al)) by auto. reflexivity. }
  exists s'. split; [|split].
  - cbn [call]. unfold bind at 1. unfold assign_move. rewrite (proj2 (Nat.eqb_neq i j) D). erewrite bind_ok by exact R1.
    erewrite bind_ok by (apply the_ok; exact Aj). cbn [m_block].
    unfold set_block, the, put_any, set_anys, get, bind. rewrite Ai. cbn [anys heap next vars allocator].
    rewrite !setm_neq by auto. rewrite Aj. reflexivity.
  - cbn [call]. unfold bind. now rewrite R'.
  - cbn [call]. unfold dtor, bind. now rewrite R'.
Qed.
Print Assumptions C38_move_assign_refuted.

Example C38_met :
  let os := [NewVal 0 7 (RVal 1 5) NoFault; SetVar 9 2 4; NewVal 1 7 (LVar 9) NoFault; Assign 0 1;
             NewVal 2 8 (RVal 1 6) CtorThrows; NewCopy 2 0 8 AllocFails; NewCopy 2 0 8 NoFault;
             CastVal 2 2; EndVar 9; Drop 0; Drop 1; Drop 2] in
  legal_along some_copyable gone nothing os /\
  snd (spec_run some_copyable gone nothing os) =
    [ANone; ANone; ANone; ANone; AThrew ElemThrow; AThrew BadAlloc; ANone;
     AVal (Some 4); ANone; ANone; ANone; ANone] /\
  (forall i, tab (fst (spec_run some_copyable gone nothing os)) i = None).
Proof.
  cbv zeta. split; [|split; [reflexivity|]].
  - cbn. unfold live_any, readable. cbn. repeat split; try discriminate; try congruence;
      try (intros ? ? [= <- <-]; discriminate); intros ? ? ? ? [= <- <-] [= <- <-]; reflexivity.
  - intros i. cbn. unfold setm. destruct i as [|[|[|i]]]; reflexivity.
Qed.
Example C38_refuted_met :
  let w := fst (spec_run some_copyable gone nothing [New 0 7; NewVal 1 8 (RVal 1 4) NoFault]) in
  tab w 0 = Some (7, None) /\ tab w 1 = Some (8, Some (Own 1 4)) /\ 7 <> 8.
Proof. repeat split. discriminate. Qed.

(** C39. Whatever any i holds (for any(lvalue): while the variable exists): any_cast to
    type ty succeeds exactly if it holds a ty, and then gives that object's value;
    otherwise the pointer form gives null and the other forms throw bad_cast. The any is
    unchanged, except that the moving form leaves a moved-from value. *)
Theorem C39_any_cast :
  forall (Val : Type) (copyable : nat -> bool) (layout : bool -> nat -> nat * nat)
         (mv : Val -> Val) (s : st Val) (w : world Val) (i ty al : nat) (c : option (stored Val)),
  is_world layout s w -> tab w i = Some (al, c) -> readable w i ty ->
  match c with
  | Some o =>
      if Nat.eq_dec (type_of o) ty then
        exists v s',
          look w o = Some v /\
          call copyable layout mv (CastPtr i ty) s = Ok (AVal (Some v)) s /\
          call copyable layout mv (CastVal i ty) s = Ok (AVal (Some v)) s /\
          call copyable layout mv (CastMove i ty) s = Ok (AVal (Some v)) s' /\
          is_world layout s' (poke w i al o (mv v))
      else
        call copyable layout mv (CastPtr i ty) s = Ok (AVal None) s /\
        call copyable layout mv (CastVal i ty) s = Throw BadCast s /\
        call copyable layout mv (CastMove i ty) s = Throw BadCast s
  | None =>
      call copyable layout mv (CastPtr i ty) s = Ok (AVal None) s /\
      call copyable layout mv (CastVal i ty) s = Throw BadCast s /\
      call copyable layout mv (CastMove i ty) s = Throw BadCast s
  end.
Proof.
  intros Val copyable layout mv s w i ty al c H E Rd.
  pose proof (cast_ok layout s w i ty al c H E) as RC. pose proof (do_cast_ok layout s w i ty al c H E) as RD.
  cbn [call]. destruct c as [o|].
  - destruct (Nat.eq_dec (type_of o) ty) as [T|T].
    + rewrite (proj2 (Nat.eqb_eq _ _) T) in RC, RD. destruct (look w o) as [v|] eqn:K; [|exfalso; eapply Rd; eauto].
      destruct (store_ok layout s w i al o (mv v) v H E K) as (s' & R' & H').
      exists v, s'. split; [reflexivity|]. split; [|split; [|split; [|exact H']]].
      * change (cast i ty s = Ok (Some o) s) in RC. rewrite (bind_ok _ _ _ _ _ RC). cbv beta iota. erewrite bind_ok by (apply (load_ok layout s w o v H K)). reflexivity.
      * erewrite bind_ok by exact RD. reflexivity.
      * erewrite bind_ok by exact RD. erewrite bind_ok by (apply (held_ok layout s w i al _ H E)). cbv beta iota. erewrite bind_ok by exact R'. reflexivity.
    + rewrite (proj2 (Nat.eqb_neq _ _) T) in RC, RD. unfold bind. rewrite RC, RD. auto.
  - unfold bind. rewrite RC, RD. auto.
Qed.
Print Assumptions C39_any_cast.

Example C39_met :
  let w := fst (spec_run some_copyable gone nothing [New 0 7; NewVal 1 8 (RVal 1 4) NoFault]) in
  tab w 0 = Some (7, None) /\ readable w 0 1 /\
  tab w 1 = Some (8, Some (Own 1 4)) /\ readable w 1 1 /\ readable w 1 2.
Proof.
  cbv zeta. split; [reflexivity|]. split; [intros ? ?; discriminate|]. split; [reflexivity|].
  split; intros ? ? [= <- <-]; discriminate.
Qed.

(** C63. An any which holds an object of its own, given that object: emplace constructs
    the new object from the destroyed one, and assignment leaves a reference to it, which
    cannot be read. *)
Theorem C63_own_object_refuted :
  forall (Val : Type) (copyable : nat -> bool) (layout : bool -> nat -> nat * nat)
         (mv : Val -> Val) (s : st Val) (w : world Val) (i al ty : nat) (v : Val) (f : fault),
  is_world layout s w -> tab w i = Some (al, Some (Own ty v)) -> f <> AllocFails ->
  call copyable layout mv (Emplace i ty Itself f) s = UB /\
  exists s',
    call copyable layout mv (AssignVal i Itself f) s = Ok ANone s' /\
    call copyable layout mv (CastVal i ty) s' = UB.
Proof.
  intros Val copyable layout mv s w i al ty v f H E Nf.
  pose proof (held_ok layout s w i al _ H E) as HI.
  split.
  - destruct (reset_ok layout s w i al _ H E) as (s1 & R1 & H1).
    cbn [call emplace]. unfold bind at 1. erewrite bind_ok by exact HI. unfold emplace_obj. erewrite bind_ok by exact R1.
    destruct (layout false ty) as (size, align).
    assert (alloc_fails f = false) as -> by (destruct f; try reflexivity; congruence).
    set (w1 := set_tab w i (Some (al, None))) in *.
    destruct (alloc_step layout s1 w1 i al size align (fun b => guarded (let* x := ub in construct b x (ctor_throws f) ;;; set_header b size align) i size align) H1 (is_empty_tab _ _ _ _)) as (s2 & B & R).
    rewrite R. reflexivity.
  - destruct (emplace_obj_ok layout s w i al _ (ret (Link ty None)) (Link ty None) true ty (match f with CtorThrows => NoFault | _ => f end) H E) as (s' & R & H'); auto.
    { destruct f; discriminate. }
    assert (made (Link ty None) (match f with CtorThrows => NoFault | _ => f end) = @inl (stored Val) exn (Link ty None)) as K by (destruct f; try reflexivity; congruence).
    rewrite K in R, H'. cbn [fill fst snd] in R, H'.
    exists s'. split.
    + cbn [call emplace_fwd]. unfold bind at 1. erewrite bind_ok by exact HI.
      match type of R with after ?m = _ => destruct m as [[] ?|? ?| |]; cbn [after] in R; try discriminate end. now injection R as ->.
    + cbn [call]. unfold bind. rewrite (do_cast_ok layout s' _ i ty al _ H' (is_empty_tab _ _ _ _)).
      cbn [type_of look load]. now rewrite Nat.eqb_refl.
Qed.
Print Assumptions C63_own_object_refuted.

(** If the any refers to a variable which exists, both work. *)
Theorem C63_linked_partial :
  forall (Val : Type) (copyable : nat -> bool) (layout : bool -> nat -> nat * nat)
         (mv : Val -> Val) (s : st Val) (w : world Val) (i al ty x : nat) (v : Val),
  is_world layout s w -> tab w i = Some (al, Some (Link ty (Some x))) -> svars w x = Some (ty, v) ->
  (exists s', call copyable layout mv (Emplace i ty Itself NoFault) s = Ok ANone s' /\
     is_world layout s' (set_tab w i (Some (al, Some (Own ty v))))) /\
  (exists s', call copyable layout mv (AssignVal i Itself NoFault) s = Ok ANone s' /\
     is_world layout s' w).
Proof.
  intros Val copyable layout mv s w i al ty x v H E Ex.
  pose proof (held_ok layout s w i al _ H E) as HI. split.
  - destruct (emplace_ok layout s w i al _ ty (LVar x) NoFault (Own ty v) H E) as (s' & R & H').
    { cbn [emplaced look]. now rewrite Ex, Nat.eqb_refl. }
    exists s'. split; [|exact H']. cbn [call emplace] in *. unfold bind at 1. erewrite bind_ok by exact HI.
    match type of R with after ?m = _ => destruct m as [[] ?|? ?| |]; cbn [after fill made fst snd] in R; try discriminate end. now injection R as ->.
  - destruct (emplace_fwd_ok layout s w i al _ (LVar x) NoFault (Link ty (Some x)) H E) as (s' & R & H').
    { cbn [forwarded]. now rewrite Ex. }
    exists s'. split.
    + cbn [call emplace_fwd] in *. unfold bind at 1. erewrite bind_ok by exact HI. rewrite bind_get, (same_vars _ _ _ H), Ex in R.
      match type of R with after ?m = _ => destruct m as [[] ?|? ?| |]; cbn [after fill made fst snd] in R; try discriminate end. now injection R as ->.
    + eapply world_ext; [| |exact H']; auto. intros k. cbn [made fill fst]. unfold set_tab. cbn [tab].
      destruct (Nat.eq_dec k i) as [->|D]; [now rewrite setm_eq|now rewrite setm_neq by auto].
Qed.
Print Assumptions C63_linked_partial.

Example C63_met :
  let w := fst (spec_run some_copyable gone nothing [SetVar 3 1 5; NewVal 0 7 (LVar 3) NoFault; NewVal 1 8 (RVal 1 4) NoFault]) in
  tab w 0 = Some (7, Some (Link 1 (Some 3))) /\ svars w 3 = Some (1, 5) /\
  tab w 1 = Some (8, Some (Own 1 4)).
Proof. repeat split. Qed.

(** C98. The block of every object is as large and as aligned as its obj_block_for needs, after
    every history, for copies as for emplaced objects, as long as sizeof and alignof fit in
    32 bits. *)
Theorem C98_room_partial :
  forall (Val : Type) (copyable : nat -> bool) (size_of align_of : bool -> nat -> N)
         (mv : Val -> Val) (os : list (op Val)),
  legal_along copyable mv nothing os ->
  exists s rs,
    run copyable (narrow size_of align_of) mv start os = Some (s, rs) /\
    forall i al o, tab (fst (spec_run copyable mv nothing os)) i = Some (al, Some o) ->
    exists b k,
      anys s i = Some (mkAny al (Some b)) /\ heap s b = Some k /\ object k = Some o /\
      ((size_of (is_link o) (type_of o) < 2 ^ 32)%N ->
         N.of_nat (bsize k) = size_of (is_link o) (type_of o)) /\
      ((align_of (is_link o) (type_of o) < 2 ^ 32)%N ->
         N.of_nat (balign k) = align_of (is_link o) (type_of o)).
Proof.
  intros Val copyable size_of align_of mv os L.
  destruct (run_sim copyable (narrow size_of align_of) mv os start nothing (start_world _) L) as (s & R & H).
  exists s, (snd (spec_run copyable mv nothing os)). split; [exact R|]. intros i al o E.
  destruct (any_is_full _ s _ i al o H E) as (b & A & B).
  exists b, (block_for (narrow size_of align_of) al o). repeat split; auto; intros F;
    cbn [block_for narrow bsize balign]; rewrite N2Nat.id; now apply N.mod_small.
Qed.
Print Assumptions C98_room_partial.

(** It is false for larger types: after every history, an any which holds an object whose
    obj_block_for takes 2^32 bytes or more has constructed it in a block which is too small. *)
Theorem C98_large_refuted :
  forall (Val : Type) (copyable : nat -> bool) (size_of align_of : bool -> nat -> N)
         (mv : Val -> Val) (os : list (op Val)),
  legal_along copyable mv nothing os ->
  exists s rs,
    run copyable (narrow size_of align_of) mv start os = Some (s, rs) /\
    forall i al o, tab (fst (spec_run copyable mv nothing os)) i = Some (al, Some o) ->
    (2 ^ 32 <= size_of (is_link o) (type_of o))%N ->
    exists b k,
      anys s i = Some (mkAny al (Some b)) /\ heap s b = Some k /\ object k = Some o /\
      (N.of_nat (bsize k) < 2 ^ 32 <= size_of (is_link o) (type_of o))%N.
Proof.
  intros Val copyable size_of align_of mv os L.
  destruct (run_sim copyable (narrow size_of align_of) mv os start nothing (start_world _) L) as (s & R & H).
  exists s, (snd (spec_run copyable mv nothing os)). split; [exact R|]. intros i al o E F.
  destruct (any_is_full _ s _ i al o H E) as (b & A & B).
  exists b, (block_for (narrow size_of align_of) al o). repeat split; auto.
  cbn [block_for narrow bsize balign]. rewrite N2Nat.id. now apply N.mod_lt.
Qed.
Print Assumptions C98_large_refuted.

(** Type 1 takes 2^32 + 16 bytes: its block has 16. *)
Example C98_met :
  let size_of (_ : bool) ty := if ty =? 1 then (2 ^ 32 + 16)%N else 24%N in
  let os := [NewVal 0 7 (RVal 1 4) NoFault; NewVal 1 8 (RVal 2 5) NoFault; NewCopy 2 0 9 NoFault] in
  legal_along some_copyable gone nothing os /\
  tab (fst (spec_run some_copyable gone nothing os)) 2 = Some (9, Some (Own 1 4)) /\
  match run some_copyable (narrow size_of (fun _ _ => 8%N)) gone start os with
  | Some (s, _) => map (fun b => option_map (@bsize nat) (heap s b)) [0; 1; 2] = [Some 16; Some 24; Some 16]
  | None => False
  end.
Proof. vm_compute. repeat split; try reflexivity; try discriminate. Qed.
