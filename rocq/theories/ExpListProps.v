(** Property C113: expecteds in the values of expecteds. *)
From Coq Require Import List Arith Bool Lia.
From Verif Require Import Base ExpListModel ExpListSpec ExpListProofs.
Import ListNotations.

Lemma steps_length {D E} tv (cs : list (chain D E)) os cs' l : steps tv cs os cs' l -> length cs' = length cs.
Proof.
  induction 1 as [|cs o os cs1 a cs2 l St SS IH]; [reflexivity|]. rewrite IH.
  inversion St as [p d c Hc|p e c Hc|p d c Hc|p q c u Hc Hu Npq|p c Hc|i j k u Hu Hjk T|p d c T Hc|p q c u T Hc Hu V Npq|p c Hc]; subst;
  try destruct p as [i1 j1]; try destruct q as [i2 j2]; rewrite ?with_place_length; reflexivity.
Qed.

(** C113. Lists whose nodes own an expected of the rest: whatever is done with variables which
    hold such lists, and with the expecteds in them, at any depth, they are the lists which they
    should be, and at the end of the variables' scope, nothing is left. An expected may be
    assigned from one inside of what it holds, as in x = std::move(x->next->next): an
    expected<T, void> from every one, an expected<T, E> from one with a value. *)
Theorem C113_lists_partial :
  forall (D E : Type) (tv : bool) (m : nat) (d0 : D) (os : list (op D E)) (cs : list (chain D E)) (l : list (ans D E)),
  steps tv (repeat (Last d0) m) os cs l ->
  exists n0, forall n, n0 <= n ->
  exists s, run tv n os (start m d0) = Ok l s /\
  exists s', leave tv n m s = Ok tt s' /\ forall a, heap s' a = None.
Proof.
  intros D E tv m d0 os cs l St. destruct (steps_ok tv _ _ _ _ St) as (n0 & T & R). exists n0. intros n Hn.
  destruct (R n (start m d0) (fun i => [i]) Hn (holds_start tv m d0)) as (s & L & E1 & H).
  exists s. split; [exact E1|]. apply (leave_ok tv n m s cs L H); [|lia].
  rewrite (steps_length _ _ _ _ _ St). apply repeat_length.
Qed.
Print Assumptions C113_lists_partial.

Lemma sub_deeper {D E} (c : chain D E) : forall j k u, sub c k = Some u -> j < k -> exists c1, sub c j = Some c1.
Proof.
  induction c as [e|d|d c IH]; intros j [|k] u Hu Hjk; try lia; try discriminate. destruct j as [|j].
  - now exists (More d c).
  - apply (IH j k u); auto. lia.
Qed.
Lemma deep_inside {D E} tv (s : st D E) cs L i j k u :
  holds tv s cs L -> at_place cs (i, k) = Some u -> j < k ->
  exists a sa c b sb, walk i j s = Ok a s /\ walk i k s = Ok b s /\ lst tv s a c (a :: sa) /\ lst tv s b u (b :: sb) /\ NoDup (a :: sa) /\
    In b sa /\ length (a :: sa) <= tall cs.
Proof.
  intros H Hu Hjk.
  assert (exists c, at_place cs (i, j) = Some c) as (c & Hc).
  { unfold at_place in *. cbn [fst snd] in *. destruct (nth_error cs i) as [c0|]; [|discriminate]. eapply sub_deeper; eauto. }
  destruct (at_place_split tv _ _ _ _ _ _ H Hc) as (c0 & pre & a & sa & Ei & Li & El & Lj & K & W & ND & Su & R).
  destruct (at_place_split tv _ _ _ _ _ _ H Hu) as (c1 & pre1 & b & sb & Ek & _ & Elk & Lh & K1 & W1 & ND1 & Su1 & R1).
  exists a, sa, c, b, sb. repeat split; auto.
  - clear -ND. induction pre as [|x pre IH]; cbn in ND; auto. inversion ND; auto.
  - assert (nth_error (L i) k = Some b) as N by (rewrite Elk, nth_error_app2, Lh, Nat.sub_diag; [reflexivity|lia]).
    rewrite El, nth_error_app2 in N by lia. destruct (k - length pre) as [|g] eqn:G; [lia|]. cbn in N. eapply nth_error_In; eauto.
  - pose proof (tall_ok tv _ _ _ _ H Li) as T. rewrite El, app_length in T. lia.
Qed.

(** An expected<T, E> which gets, by assignment, an error from inside of the value it holds,
    destroys it before it reads it: so, an end of a list cannot be assigned to what is before. *)
Theorem C113_error_from_inside_refuted :
  forall (D E : Type) (m : nat) (d0 : D) (os : list (op D E)) (cs : list (chain D E)) (l : list (ans D E))
    (i j k : nat) (e : option E),
  steps false (repeat (Last d0) m) os cs l -> at_place cs (i, k) = Some (Bad e) -> j < k ->
  exists n0, forall n, n0 <= n -> run false n (os ++ [Move (i, j) (i, k)]) (start m d0) = UB.
Proof.
  intros D E m d0 os cs l i j k e St Hu Hjk. destruct (steps_ok false _ _ _ _ St) as (n0 & T & R). exists n0. intros n Hn.
  destruct (R n (start m d0) (fun i => [i]) Hn (holds_start false m d0)) as (s & L & E1 & H).
  destruct (deep_inside false s cs L i j k (Bad e) H Hu Hjk) as (a & sa & c & b & sb & W & W1 & K & K1 & ND & Ib & Ln).
  rewrite (run_app _ _ _ _ _ _ _ E1). unfold bind. cbn [call]. unfold bind. rewrite W, W1.
  assert (lst false s b (Bad e) [b]) as K2 by (inversion K1; subst; auto).
  rewrite (assign_inside_error false n s a c sa b e); auto. cbn in Ln. lia.
Qed.
Print Assumptions C113_error_from_inside_refuted.

(** emplace of an expected<T, void> with its own value, or with a value from inside of it: it is
    destroyed before it is read. *)
Theorem C113_emplace_from_inside_refuted :
  forall (D E : Type) (m : nat) (d0 : D) (os : list (op D E)) (cs : list (chain D E)) (l : list (ans D E))
    (i j k : nat) (u : chain D E),
  steps true (repeat (Last d0) m) os cs l -> at_place cs (i, k) = Some u -> j <= k ->
  exists n0, forall n, n0 <= n -> run true n (os ++ [EmplaceFrom (i, j) (i, k)]) (start m d0) = UB.
Proof.
  intros D E m d0 os cs l i j k u St Hu Hjk. destruct (steps_ok true _ _ _ _ St) as (n0 & T & R). exists n0. intros n Hn.
  destruct (R n (start m d0) (fun i => [i]) Hn (holds_start true m d0)) as (s & L & E1 & H).
  rewrite (run_app _ _ _ _ _ _ _ E1). unfold bind. cbn [call]. unfold bind.
  destruct (Nat.eq_dec j k) as [->|Njk].
  - destruct (at_place_split true _ _ _ _ _ _ H Hu) as (c0 & pre & a & sa & Ei & Li & El & Lj & K & W & ND & Su & Rr).
    rewrite W, W. unfold get_has, bind, getx, ret. destruct (lst_cell true _ _ _ _ K) as (x & Hx & _ & _). rewrite Hx.
    destruct (has x); [|reflexivity]. rewrite (emplace_from_inside true n s a u sa a); auto.
    + clear -ND. induction pre as [|y pre IH]; cbn in ND; auto. inversion ND; auto.
    + pose proof (tall_ok true _ _ _ _ H Li) as T1. rewrite El, app_length in T1. cbn in T1. lia.
    + now left.
  - destruct (deep_inside true s cs L i j k u H Hu) as (a & sa & c & b & sb & W & W1 & K & K1 & ND & Ib & Ln); [lia|].
    rewrite W, W1. unfold get_has, bind, getx, ret. destruct (lst_cell true _ _ _ _ K1) as (x & Hx & _ & _). rewrite Hx.
    destruct (has x); [|reflexivity]. rewrite (emplace_from_inside true n s a c sa b); auto; [cbn in Ln; lia|now right].
Qed.
Print Assumptions C113_emplace_from_inside_refuted.

(** The other way round: an expected moved into one which is inside of its value. That one then
    owns itself, and is never destroyed. *)
Theorem C113_to_inside_refuted :
  forall (D E : Type) (tv : bool) (d0 d : D) (n : nat), 2 <= n ->
  exists s, run (E := E) tv n [Push (0, 0) d; Move (0, 1) (0, 0)] (start 1 d0) = Ok [Done; Done] s /\
  exists s', leave tv n 1 s = Ok tt s' /\ heap s' 1 <> None.
Proof.
  intros D E tv d0 d n Hn. destruct n as [|[|n]]; try lia. destruct tv.
  - eexists. split; [reflexivity|]. eexists. split; [reflexivity|]. discriminate.
  - eexists. split; [reflexivity|]. eexists. split; [reflexivity|]. discriminate.
Qed.
Print Assumptions C113_to_inside_refuted.

(** A list of three, ended by an error; its first node dropped; its rest moved to another
    variable; and so on. *)
Definition C113_history : list (op nat nat) :=
  [SetError (0, 0) 7; Push (0, 0) 3; Push (0, 0) 2; Push (0, 0) 1; Peek (0, 2); Move (0, 0) (0, 1);
   Move (1, 0) (0, 1); Peek (0, 0); Peek (1, 1); Move (1, 0) (1, 0); SetValue (1, 1) 4; Push (1, 1) 5].
Example C113_met :
  steps false (repeat (Last 0) 2) C113_history [More 2 (Last 3); More 3 (More 5 (Last 4))]
    [Done; Done; Done; Done; SawValue 3; Done; Done; SawValue 2; SawError (Some 7); Done; Done; Done].
Proof.
  unfold C113_history.
  eapply steps_cons; [eapply step_set_error; reflexivity|].
  do 3 (eapply steps_cons; [eapply step_push; reflexivity|]).
  eapply steps_cons; [eapply (step_peek _ _ _ (More 3 (Bad (Some 7)))); reflexivity|].
  eapply steps_cons; [eapply step_move_from_inside; [reflexivity|lia|right; reflexivity]|].
  eapply steps_cons; [eapply step_move; [reflexivity|reflexivity|discriminate]|].
  eapply steps_cons; [eapply (step_peek _ _ _ (More 2 (Last 3))); reflexivity|].
  eapply steps_cons; [eapply (step_peek _ _ _ (Bad (Some 7))); reflexivity|].
  eapply steps_cons; [eapply step_move_same; reflexivity|].
  eapply steps_cons; [eapply step_set_value; reflexivity|].
  eapply steps_cons; [eapply step_push; reflexivity|].
  apply steps_nil.
Qed.
(** The end of a list of one assigned to its beginning *)
Example C113_error_met : exists cs l,
  steps false (repeat (Last 0) 1) [SetError (0, 0) 7; Push (0, 0) 1] cs l /\ at_place cs (0, 1) = Some (Bad (Some 7)).
Proof.
  eexists _, _. split.
  - eapply steps_cons; [eapply step_set_error; reflexivity|]. eapply steps_cons; [eapply step_push; reflexivity|]. apply steps_nil.
  - reflexivity.
Qed.
(** With an expected<T, void>, that is right, as are clear and emplace at any depth. *)
Definition C113_optionals : list (op nat nat) :=
  [SetError (0, 0) 7; Push (0, 0) 3; Push (0, 0) 2; Emplace (0, 2) 4; Peek (0, 2); EmplaceFrom (1, 0) (0, 1); Peek (1, 1);
   SetError (1, 1) 0; Move (1, 0) (1, 1); Peek (1, 0)].
Example C113_optionals_met :
  steps true (repeat (Last 0) 2) C113_optionals [More 2 (Last 3); Bad None]
    [Done; Done; Done; Done; SawValue 4; Done; SawValue 4; Done; Done; SawError None].
Proof.
  unfold C113_optionals.
  eapply steps_cons; [eapply step_set_error; reflexivity|].
  do 2 (eapply steps_cons; [eapply step_push; reflexivity|]).
  eapply steps_cons; [eapply step_emplace; reflexivity|].
  eapply steps_cons; [eapply (step_peek _ _ _ (Last 4)); reflexivity|].
  eapply steps_cons; [eapply step_emplace_from; [reflexivity|reflexivity|reflexivity|reflexivity|discriminate]|].
  eapply steps_cons; [eapply (step_peek _ _ _ (Last 4)); reflexivity|].
  eapply steps_cons; [eapply step_set_error; reflexivity|].
  eapply steps_cons; [eapply step_move_from_inside; [reflexivity|lia|left; reflexivity]|].
  eapply steps_cons; [eapply (step_peek _ _ _ (Bad None)); reflexivity|].
  apply steps_nil.
Qed.
