(** Property C107: anys in anys. *)
From Coq Require Import List Arith Bool Lia.
From Verif Require Import Base AnyNestModel AnyNestSpec AnyNestProofs.
Import ListNotations.

Lemma place_length {A} p (ts : list (tree A)) k t : length (place ts k p t) = length ts.
Proof.
  destruct p as [|k' p]; cbn; [apply upd_length|]. destruct (nth_error ts k) as [[|a ks]|]; auto. apply upd_length.
Qed.
Lemma steps_length {V} cp av c (ts : list (tree V)) os c' ts' l : steps cp av c ts os c' ts' l -> length ts' = length ts.
Proof.
  induction 1 as [|c ts o os c1 ts1 a c2 ts2 l St SS IH]; [reflexivity|]. rewrite IH.
  inversion St; subst; unfold with_path; rewrite ?place_length; reflexivity.
Qed.

(** C107. Whatever is done with variables of type any and with the anys in the objects they
    hold, at any depth, where no any is assigned to or from something inside of it: the anys
    are trees, a copy is a tree of its own, a copy which throws leaves the any assigned to
    empty and everything else as it was; and when the variables are gone, so are all blocks. *)
Theorem C107_trees_partial :
  forall (V : Type) (copyable : V -> bool) (lay : V -> nat * nat) (avail : nat -> bool) (m : nat)
    (os : list (op V)) (c : nat) (ts : list (tree V)) (l : list (ans V)),
  steps copyable avail 0 (repeat E m) os c ts l ->
  exists n0, forall n, n0 <= n ->
  exists s, run copyable lay avail n os (start m) = Ok l s /\
  exists s', leave n m s = Ok tt s' /\ forall b, heap s' b = None.
Proof.
  intros V copyable lay avail m os c ts l St.
  destruct (steps_ok copyable lay avail _ _ _ _ _ _ St) as (n0 & R).
  exists (max n0 (S (list_max (map height ts)))). intros n Hn.
  destruct (R n (start m) (repeat E m)) as (s & af & E1 & H & Es & _); [lia|apply holds_start|apply strip_start|reflexivity|].
  exists s. split; [exact E1|]. apply (leave_ok copyable lay avail n m s af H).
  - unfold tall. rewrite Es. lia.
  - apply steps_length in St. rewrite repeat_length in St. rewrite <- (map_length strip), Es, St. lia.
  - intros j t Lj Ej. apply steps_length in St. rewrite repeat_length in St.
    assert (j < length af) as L by (apply nth_error_Some; congruence). rewrite <- (map_length strip), Es, St in L. lia.
Qed.
Print Assumptions C107_trees_partial.

(** An any which gets, by copy or move assignment, an any from inside of what it holds,
    destroys it before it reads it. (std::any may be given such a one.) *)
Theorem C107_from_inside_refuted :
  forall (V : Type) (copyable : V -> bool) (lay : V -> nat * nat) (avail : nat -> bool) (m : nat)
    (os : list (op V)) (c : nat) (ts : list (tree V)) (l : list (ans V)) (i : nat) (p : list nat) (k : nat) (q : list nat)
    (u : tree V),
  steps copyable avail 0 (repeat E m) os c ts l -> at_path ts (i, p ++ k :: q) = Some u ->
  exists n0, forall n, n0 <= n ->
  run copyable lay avail n (os ++ [Copy (i, p) (i, p ++ k :: q)]) (start m) = UB /\
  run copyable lay avail n (os ++ [Move (i, p) (i, p ++ k :: q)]) (start m) = UB.
Proof.
  intros V copyable lay avail m os c ts l i p k q u St Eu.
  destruct (steps_ok copyable lay avail _ _ _ _ _ _ St) as (n0 & R).
  exists (max n0 (S (list_max (map height ts)))). intros n Hn.
  destruct (R n (start m) (repeat E m)) as (s & af & E1 & H & Es & _); [lia|apply holds_start|apply strip_start|reflexivity|].
  rewrite <- Es in Eu. destruct (at_strip _ _ _ Eu) as (u' & Eu' & _).
  assert (exists t, at_path af (i, p) = Some t) as (t & Et).
  { clear -Eu'. unfold at_path in *. cbn [fst snd] in *. revert af i Eu'. induction p as [|k1 p IH]; intros af i H; cbn in *.
    - destruct (nth_error af i); [eauto|discriminate].
    - destruct (nth_error af i) as [[|a ks]|]; try discriminate. eauto. }
  destruct (holds_find copyable lay avail _ _ _ _ _ H Et) as (r & Er & Fr & _). destruct (holds_find copyable lay avail _ _ _ _ _ H Eu') as (o & Eo & Fo & _).
  destruct (inside_UB copyable lay avail n s af (i, p) t r k q o u' H Et Er) as [U1 U2]; auto.
  { unfold tall. rewrite Es. lia. }
  rewrite !(run_app _ _ _ _ _ _ _ _ _ E1). cbn [run call]. unfold bind. rewrite Fr, Fo, U1, U2. auto.
Qed.
Print Assumptions C107_from_inside_refuted.

(** An any assigned to an any inside of what it holds: copying meets the block which is being
    made, and reads it; moving ties the block to itself, and it is never given back. *)
Theorem C107_to_inside_refuted :
  forall (V : Type) (copyable : V -> bool) (lay : V -> nat * nat) (avail : nat -> bool) (v : V) (n : nat),
  copyable v = true -> (forall i, avail i = true) -> 2 <= n ->
  run copyable lay avail n [Emplace (0, []) v 1; Copy (0, [0]) (0, [])] (start 1) = UB /\
  exists s, run copyable lay avail n [Emplace (0, []) v 1; Move (0, [0]) (0, [])] (start 1) = Ok [Done; Done] s /\
  exists s', leave n 1 s = Ok tt s' /\ heap s' 0 <> None.
Proof.
  intros V copyable lay avail v n Cv Av Hn. destruct n as [|[|n]]; try lia. split.
  - cbn -[reset]. unfold bind, emplace, bind, slot_of, allocate, put_slot. cbn. rewrite Av. cbn.
    unfold slot_of, allocate, put_slot, put_blk, bind, blk; cbn. rewrite Av. cbn. rewrite Cv. reflexivity.
  - eexists. split; [cbn; unfold emplace, bind, slot_of, allocate, put_slot; cbn; rewrite Av; reflexivity|].
    cbn. unfold slot_of, bind. cbn. eexists. split; [reflexivity|]. cbn. discriminate.
Qed.
Print Assumptions C107_to_inside_refuted.

(** Objects which cannot be copied have value 9; the sixth allocation fails. Two levels are
    built, copied, the copy is changed, moved out of; then copies fail, for either reason. *)
Definition C107_history : list (op nat) :=
  [Emplace (0, []) 1 2; Emplace (0, [1]) 2 1; Copy (1, []) (0, []); Emplace (0, [1]) 3 0; Peek (1, [1]);
   Move (0, [0]) (1, [1]); Move (0, []) (0, []); Peek (0, [0]); Copy (1, [0]) (0, []);
   Emplace (0, [1]) 9 0; Copy (1, [1]) (0, []); Peek (0, [1]); Reset (0, [0])].
Ltac apart_tac := split; intros [H1 (r & H2)]; cbn in *; congruence.
Example C107_met :
  exists c, steps (fun v => negb (v =? 9)) (fun i => negb (i =? 5)) 0 (repeat E 2) C107_history c
    [N 1 [E; N 9 []]; N 1 [E; E]]
    [Done; Done; Done; Done; Saw (Some 2); Done; Done; Saw (Some 2); Raised BadAlloc;
     Done; Raised BadCast; Saw (Some 9); Done].
Proof.
  eexists. unfold C107_history.
  eapply steps_cons; [eapply step_emplace; reflexivity|].
  eapply steps_cons; [eapply step_emplace; reflexivity|].
  eapply steps_cons; [eapply step_copy; [reflexivity|reflexivity|apart_tac|reflexivity]|].
  eapply steps_cons; [eapply step_emplace; reflexivity|].
  eapply steps_cons; [apply (step_peek _ _ _ _ _ (N 2 [E])); reflexivity|].
  eapply steps_cons; [eapply step_move; [reflexivity|reflexivity|apart_tac]|].
  eapply steps_cons; [eapply step_move_same; reflexivity|].
  eapply steps_cons; [apply (step_peek _ _ _ _ _ (N 2 [E])); reflexivity|].
  eapply steps_cons; [eapply step_copy_fails; [reflexivity|reflexivity|apart_tac|vm_compute; reflexivity]|].
  eapply steps_cons; [eapply step_emplace; reflexivity|].
  eapply steps_cons; [eapply step_copy_fails; [reflexivity|reflexivity|apart_tac|vm_compute; reflexivity]|].
  eapply steps_cons; [apply (step_peek _ _ _ _ _ (N 9 [])); reflexivity|].
  eapply steps_cons; [eapply step_reset; reflexivity|].
  apply steps_nil.
Qed.
Example C107_inside_met : at_path [N 1 [E; N 9 []]; N 1 [E; E]] (0, [] ++ 1 :: []) = Some (N 9 []).
Proof. reflexivity. Qed.
