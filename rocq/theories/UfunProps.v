(** C68, C69: ufunction. *)
From Coq Require Import List Arith Bool.
From Verif Require Import Base UfunModel UfunSpec UfunProofs.
Import ListNotations.

Section Props.
Context {St A R : Type}.
Variable apply : St -> A -> R * St.

(** Every history of calls in which moving function objects does not throw and memory does not
    run out does what the specification says: a ufunction calls the function last given to it,
    in the state its calls have left it in, wherever it has been moved. *)
Theorem C68_history_partial os xs (a : ast St) : ssteps apply ainit os xs a ->
  exists s, calls apply os init = Ok xs s.
Proof.
  intros Hs. destruct (calls_sim apply init ainit os xs a good_init Hs) as (s & E & _). eauto.
Qed.
(** The specification leaves out no call a program may make. *)
Theorem C68_every_call_partial (a : ast St) (o : op St A) : legal a o ->
  exists x a', sstep apply a o x a'.
Proof. apply progress. Qed.
(** A function has one owner, and is released exactly once, when it has none. *)
Theorem C68_released_once_partial os xs (a : ast St) s r : ssteps apply ainit os xs a ->
  calls apply os init = Ok xs s -> r < count a ->
  (owned a r -> count_occ Nat.eq_dec (released s) r = 0) /\
  (~ owned a r -> count_occ Nat.eq_dec (released s) r = 1) /\
  (forall u u' f f', owns a u = Some (Some (r, f)) -> owns a u' = Some (Some (r, f')) -> u = u').
Proof.
  intros Hs E L. destruct (calls_sim apply init ainit os xs a good_init Hs) as (s' & E' & G).
  rewrite E in E'. injection E' as <-. destruct (good_released s a r G L) as [R1 R2].
  split; [exact R1|]. split; [exact R2|]. intros u u' f f'. now apply (good_one_owner s).
Qed.
(** Nothing is left behind: parameters and temporaries are gone. *)
Theorem C68_no_leak_partial os xs (a : ast St) s i : ssteps apply ainit os xs a ->
  calls apply os init = Ok xs s -> places s i <> None ->
  exists u w, owns a u = Some (Some w) /\ places s i = Some (Some w).
Proof.
  intros Hs E N. destruct (calls_sim apply init ainit os xs a good_init Hs) as (s' & E' & G).
  rewrite E in E'. injection E' as <-.
  destruct (g_cover _ _ _ G i N) as [[u Eu]|[w []]]. exists u.
  pose proof (g_uf _ _ _ G u) as U. destruct (owns a u) as [[w|]|]; try congruence.
  destruct U as (j & Eu' & Ej). rewrite Eu in Eu'. injection Eu' as <-. eauto.
Qed.
(** Otherwise it terminates: the constructor is noexcept. *)
Theorem C68_throws_refuted u f al th (s : store St) : al = true \/ th = true ->
  call apply (FromObject u f al th) s = Dead /\ call apply (SetObject u f al th) s = Dead.
Proof.
  intros H. cbn [call]. unfold wrap, std_function, move_new, bind, new_param, new_place.
  destruct th; [split; reflexivity|]. destruct H as [->|]; [|discriminate].
  unfold get_place, set_place. repeat (cbn [places nplace]; rewrite ?setm_eq). split; reflexivity.
Qed.

(** C69: where no null pointers and empty functions are wrapped, it is std::move_only_function. *)
Theorem C69_as_move_only_partial os xs (a : ast St) : Forall solid os ->
  msteps apply ainit os xs a -> exists s, calls apply os init = Ok xs s.
Proof. intros F H. apply (C68_history_partial os xs a). now apply msteps_ssteps. Qed.
(** Made of a null pointer to a function of another type, or an empty std::function, a
    move_only_function is empty; a ufunction says it is not. Calling the former is undefined. *)
Theorem C69_wrapped_null_refuted u f : f = NullPtr \/ f = EmptyFn ->
  exists s, calls apply [FromObject u f false false; HasFn u] init = Ok [Nothing; Bool true] s /\
    exists a, msteps apply ainit [FromObject u f false false; HasFn u] [Nothing; Bool false] a.
Proof.
  intros H.
  assert (Hs : exists a, ssteps apply ainit [FromObject u f false false; HasFn u] [Nothing; Bool true] a).
  { eexists. eapply ss_cons; [apply s_object; reflexivity|]. eapply ss_cons; [|apply ss_nil].
    eapply s_has; [cbn; apply setm_eq|]. split; [discriminate|reflexivity]. }
  destruct Hs as [a Hs]. destruct (C68_history_partial _ _ _ Hs) as [s E]. exists s. split; [exact E|].
  eexists. eapply ms_cons; [apply m_object; reflexivity|]. eapply ms_cons; [|apply ms_nil].
  apply m_same; [|intros; split; discriminate].
  eapply s_has; [destruct H as [->| ->]; cbn; apply setm_eq|]. split; [discriminate|congruence].
Qed.
Theorem C69_null_call_refuted u x :
  calls apply [FromObject u NullPtr false false; Call u x] init = UB.
Proof.
  destruct (call_sim (A := A) apply init ainit _ _ _ good_init
              (s_object apply ainit u NullPtr eq_refl)) as (s & E & G).
  cbn [calls]. unfold bind at 1. rewrite E. unfold bind at 1. cbn [call].
  pose proof (g_uf _ _ _ G u) as U. cbn in U. rewrite setm_eq in U. destruct U as (i & Eu & Ei).
  unfold bind, get_uf. rewrite Eu. unfold get_place. now rewrite Ei.
Qed.
End Props.
Print Assumptions C68_history_partial.
Print Assumptions C68_every_call_partial.
Print Assumptions C68_released_once_partial.
Print Assumptions C68_no_leak_partial.
Print Assumptions C68_throws_refuted.
Print Assumptions C69_as_move_only_partial.
Print Assumptions C69_wrapped_null_refuted.
Print Assumptions C69_null_call_refuted.

(** A counter is moved about, replaced and dropped. *)
Definition ex_apply (st x : nat) : nat * nat := (st + x, st + x).
Definition ex_ops : list (op nat nat) :=
  [ FromObject 0 (Fun 5) false false; Call 0 1; FromOther 1 0; Call 1 2; HasFn 0; Call 0 9; Make 2;
    SetOther 2 1; SetOther 2 2; Call 2 3; SetObject 2 (Fun 100) false false; Call 2 1;
    SetPointer 1 (Some 7); SetPointer 1 None; HasFn 1; Drop 2 ].
Definition ex_outs : list (out nat) :=
  [ Nothing; Result 6; Nothing; Result 8; Bool false; BadCall; Nothing; Nothing; Nothing; Result 11;
    Nothing; Result 101; Nothing; Nothing; Bool false; Nothing ].
Example C68_ex : match calls ex_apply ex_ops init with
  | Ok xs s => xs = ex_outs /\ rev (released s) = [0; 2; 1]
  | _ => False
  end.
Proof. vm_compute. auto. Qed.
Example C68_ex_spec : exists a, Forall solid ex_ops /\ msteps ex_apply ainit ex_ops ex_outs a /\
  ssteps ex_apply ainit ex_ops ex_outs a /\ 0 < count a /\ ~ owned a 0.
Proof.
  assert (F : Forall solid ex_ops) by (repeat constructor; cbn; eauto).
  assert (H : exists a, msteps ex_apply ainit ex_ops ex_outs a /\ count a = 3 /\
              forall u, owns a u = match u with 0 | 1 => Some None | _ => None end).
  { eexists. split; [|split].
    - eapply ms_cons; [apply m_object; reflexivity|].
      eapply ms_cons; [apply m_same; [eapply s_call; reflexivity|split; discriminate]|].
      eapply ms_cons; [apply m_same; [eapply s_other; reflexivity|split; discriminate]|].
      eapply ms_cons; [apply m_same; [eapply s_call; reflexivity|split; discriminate]|].
      eapply ms_cons; [apply m_same; [eapply s_has; [reflexivity|split; congruence]|split; discriminate]|].
      eapply ms_cons; [apply m_same; [eapply s_call_empty; reflexivity|split; discriminate]|].
      eapply ms_cons; [apply m_same; [eapply s_make; reflexivity|split; discriminate]|].
      eapply ms_cons; [apply m_same; [eapply s_set_other; try reflexivity; discriminate|split; discriminate]|].
      eapply ms_cons; [apply m_same; [eapply s_set_self; reflexivity|split; discriminate]|].
      eapply ms_cons; [apply m_same; [eapply s_call; reflexivity|split; discriminate]|].
      eapply ms_cons; [eapply m_set_object; reflexivity|].
      eapply ms_cons; [apply m_same; [eapply s_call; reflexivity|split; discriminate]|].
      eapply ms_cons; [apply m_same; [eapply s_set_pointer; reflexivity|split; discriminate]|].
      eapply ms_cons; [apply m_same; [eapply s_set_null_pointer; reflexivity|split; discriminate]|].
      eapply ms_cons; [apply m_same; [eapply s_has; [reflexivity|split; congruence]|split; discriminate]|].
      eapply ms_cons; [apply m_same; [eapply s_drop; reflexivity|split; discriminate]|]. apply ms_nil.
    - reflexivity.
    - intros [|[|[|u]]]; reflexivity. }
  destruct H as (a & M & Ec & Eo). exists a. split; [exact F|]. split; [exact M|].
  split; [now apply msteps_ssteps|]. split; [rewrite Ec; repeat constructor|].
  intros (u & f & E). rewrite Eo in E. destruct u as [|[|u]]; discriminate.
Qed.
