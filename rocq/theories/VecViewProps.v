(** Property C118 of VecViewModel.v: elements which look at the vector they are in. *)
From Coq Require Import List Arith Bool Lia.
From Verif Require Import Base SeqSpec PtrSpec VecViewModel VecViewSpec VecViewProofs VecViewStaticProofs VecViewSmallProofs.
From Verif Require PtrModel.
Import ListNotations.

Definition pushes (n : nat) : list (vop unit) := repeat (PushBack tt) n.
Definition small_pushes (n : nat) : list PtrModel.smallop := repeat (PtrModel.Seq (PushBack tt)) n.
Definition state_of (r : res st unit) (d : st) : st := match r with Ok _ s | Throw _ s => s | _ => d end.
Definition static_5_of_8 : st := state_of (s_calls 8 (pushes 5) (init_static 8)) (init_static 8).
Definition small_5_of_4 : st := state_of (calls 4 2 (small_pushes 5) (init_small 4)) (init_small 4).

(** static_vector: what the constructors and destructors which a call runs can see is a whole vector exactly if
    the call is one of those of [static_quiet]. *)
Theorem C118_static_partial : forall C s n o,
  static_whole C s n -> proper n o ->
  exists s' ev, (s_call C o s = Ok tt s' \/ s_call C o s = Throw OutOfRange s') /\ seen s' = seen s ++ ev /\
    static_whole C s' (static_next C n o) /\ (Forall good ev <-> static_quiet C n o = true).
Proof. intros C s n o W P. exact (static_call C s n o W P). Qed.
Print Assumptions C118_static_partial.

Lemma init_static_whole C : static_whole C (init_static C) 0.
Proof. repeat split; auto; cbn; try lia; intros a i; now rewrite andb_false_r. Qed.
Lemma init_small_whole SC : 0 < SC -> small_whole SC (init_small SC) 0.
Proof. intros H. repeat split; auto; cbn; try lia; intros a i; now rewrite andb_false_r. Qed.

(** So it is for all calls which are ever made on a vector: everything every element has seen is whole exactly
    if all calls were of the quiet ones. *)
Theorem C118_static_histories_partial : forall C os, all_proper C 0 os ->
  exists s', s_calls C os (init_static C) = Ok tt s' /\ static_whole C s' (last_size C 0 os) /\
    (Forall good (seen s') <-> all_quiet C 0 os = true).
Proof.
  intros C os.
  assert (H : forall os s n, static_whole C s n -> all_proper C n os ->
    exists s' ev, s_calls C os s = Ok tt s' /\ seen s' = seen s ++ ev /\ static_whole C s' (last_size C n os) /\
      (Forall good ev <-> all_quiet C n os = true)).
  { clear os. induction os as [|o os IH]; intros s n W P.
    - exists s, []. rewrite app_nil_r. cbn. repeat split; auto; apply W.
    - destruct P as [P P']. destruct (static_call C s n o W P) as (s1 & e1 & E1 & S1 & W1 & G1).
      destruct (IH s1 _ W1 P') as (s2 & e2 & E2 & S2 & W2 & G2).
      exists s2, (e1 ++ e2). split; [|split; [|split]].
      + cbn. destruct E1 as [-> | ->]; exact E2.
      + now rewrite S2, S1, app_assoc.
      + exact W2.
      + cbn. now rewrite Forall_app, andb_true_iff, G1, G2. }
  intros P. destruct (H os _ _ (init_static_whole C) P) as (s' & ev & E & S & W & G). exists s'. rewrite S. auto.
Qed.
Print Assumptions C118_static_histories_partial.
Example C118_static_histories_meets :
  all_proper 8 0 (pushes 5 ++ [Insert 2 tt; Erase 0; PopBack; Resize 7; InsertN 1 2 tt]) /\
  all_quiet 8 0 (pushes 5 ++ [Insert 2 tt; Erase 0; PopBack; Resize 7; InsertN 1 2 tt]) = true /\
  last_size 8 0 (pushes 5 ++ [Insert 2 tt; Erase 0; PopBack; Resize 7; InsertN 1 2 tt]) = 7 /\
  all_quiet 8 0 (pushes 5 ++ [Insert 2 tt; Erase 0; PopBack; Resize 6; InsertN 1 2 tt]) = false.
Proof. repeat split; cbn; lia. Qed.
Lemma static_5_whole : static_whole 8 static_5_of_8 5.
Proof.
  destruct (C118_static_histories_partial 8 (pushes 5)) as (s & E & W & _); [repeat split; auto|].
  unfold static_5_of_8. rewrite E. exact W.
Qed.
Example C118_static_meets :
  static_whole 8 static_5_of_8 5 /\ proper 5 (Erase 1) /\ static_quiet 8 5 (Erase 1) = true /\
  proper 5 (EraseRange 1 3) /\ static_quiet 8 5 (EraseRange 1 3) = false.
Proof. split; [exact static_5_whole|]. repeat split; cbn; lia. Qed.

(** Not what the property says: whoever clears a vector of two or more elements shows them dead ones. *)
Theorem C118_static_clear_refuted : forall C s n,
  static_whole C s n -> 2 <= n ->
  exists s' ev, s_call C Clear s = Ok tt s' /\ seen s' = seen s ++ ev /\ ~ Forall good ev.
Proof.
  intros C s n W N. destruct (s_clear_does C s n W) as (s' & ev & E & S & _ & G). exists s', ev. repeat split; auto.
  rewrite G. lia.
Qed.
Print Assumptions C118_static_clear_refuted.
Example C118_static_clear_meets : static_whole 8 static_5_of_8 5 /\ 2 <= 5.
Proof. split; [exact static_5_whole|lia]. Qed.

(** small_vector: the same with the calls of [small_quiet], which depend on whether the elements have to move. *)
Theorem C118_small_partial : forall SC RB s n o,
  0 < SC -> RB <= SC + 1 -> small_whole SC s n -> small_proper n o ->
  exists s' ev, call SC RB o s = Ok tt s' /\ seen s' = seen s ++ ev /\
    small_whole SC s' (small_next n o) /\ (Forall good ev <-> small_quiet RB s n o = true).
Proof. intros SC RB s n o H1 H2 W P. exact (small_call SC RB H1 H2 s n o W P). Qed.
Print Assumptions C118_small_partial.

(** And for all calls which are ever made. *)
Theorem C118_small_histories_partial : forall SC RB os, 0 < SC -> RB <= SC + 1 -> all_small_proper 0 os ->
  exists s', calls SC RB os (init_small SC) = Ok tt s' /\ small_whole SC s' (last_small_size 0 os) /\
    (Forall good (seen s') <-> small_all_quiet SC RB (init_small SC) 0 os).
Proof.
  intros SC RB os H1 H2.
  assert (H : forall os s n, small_whole SC s n -> all_small_proper n os ->
    exists s' ev, calls SC RB os s = Ok tt s' /\ seen s' = seen s ++ ev /\ small_whole SC s' (last_small_size n os) /\
      (Forall good ev <-> small_all_quiet SC RB s n os)).
  { clear os. induction os as [|o os IH]; intros s n W P.
    - exists s, []. rewrite app_nil_r. cbn. repeat split; auto; apply W.
    - destruct P as [P P']. destruct (small_call SC RB H1 H2 s n o W P) as (s1 & e1 & E1 & S1 & W1 & G1).
      destruct (IH s1 _ W1 P') as (s2 & e2 & E2 & S2 & W2 & G2).
      exists s2, (e1 ++ e2). split; [|split; [|split]].
      + cbn. unfold bind. now rewrite E1.
      + now rewrite S2, S1, app_assoc.
      + exact W2.
      + cbn. rewrite Forall_app, G1, G2. split; intros [A B]; split; auto. intros s' E. congruence. }
  intros P. destruct (H os _ _ (init_small_whole SC H1) P) as (s' & ev & E & S & W & G). exists s'. rewrite S. auto.
Qed.
Print Assumptions C118_small_histories_partial.
Example C118_small_histories_meets :
  all_small_proper 0 (small_pushes 5 ++ [PtrModel.ShrinkToFit; PtrModel.Seq (EraseRange 0 4); PtrModel.Reserve 9]) /\
  last_small_size 0 (small_pushes 5 ++ [PtrModel.ShrinkToFit; PtrModel.Seq (EraseRange 0 4); PtrModel.Reserve 9]) = 1.
Proof. repeat split; cbn; lia. Qed.
Lemma small_5_whole : small_whole 4 small_5_of_4 5.
Proof.
  destruct (C118_small_histories_partial 4 2 (small_pushes 5)) as (s & E & W & _); [lia|lia|repeat split; auto|].
  unfold small_5_of_4. rewrite E. exact W.
Qed.
Example C118_small_meets :
  small_whole 4 small_5_of_4 5 /\ vb small_5_of_4 = 1 /\ vcap small_5_of_4 = 5 /\
  small_proper 5 (PtrModel.Seq (Erase 1)) /\ small_quiet 2 small_5_of_4 5 (PtrModel.Seq (Erase 1)) = true /\
  small_proper 5 (PtrModel.Seq (PushBack tt)) /\ small_quiet 2 small_5_of_4 5 (PtrModel.Seq (PushBack tt)) = false.
Proof. split; [exact small_5_whole|]. repeat split; cbn; lia. Qed.

(** Not what the property says: push_back into a full vector of two or more elements shows them dead ones. *)
Theorem C118_small_push_refuted : forall SC RB s n,
  0 < SC -> RB <= SC + 1 -> small_whole SC s n -> n = vcap s -> 2 <= n ->
  exists s' ev, call SC RB (PtrModel.Seq (PushBack tt)) s = Ok tt s' /\ seen s' = seen s ++ ev /\ ~ Forall good ev.
Proof.
  intros SC RB s n H1 H2 W V N.
  destruct (C118_small_partial SC RB s n (PtrModel.Seq (PushBack tt)) H1 H2 W ltac:(repeat split)) as (s' & ev & E & S & _ & G).
  exists s', ev. repeat split; auto. rewrite G. cbn [small_quiet]. unfold adding, stays.
  rewrite (proj2 (Nat.leb_gt (n + 1) (vcap s))), (proj2 (Nat.leb_gt n 1)) by lia. discriminate.
Qed.
Print Assumptions C118_small_push_refuted.
Example C118_small_push_meets : small_whole 4 small_5_of_4 5 /\ 5 = vcap small_5_of_4 /\ 2 <= 5.
Proof. split; [exact small_5_whole|]. split; [reflexivity|lia]. Qed.

(** Nor during assignments to which another buffer is given: first every old element is destroyed and then every
    new one is built while end() points into another array than begin(). *)
Theorem C118_assign_end_without_begin_refuted : forall SC RB s n k,
  0 < SC -> RB <= SC + 1 -> small_whole SC s n -> stays RB s k = false ->
  exists s' e1 e2, call SC RB (PtrModel.Seq (AssignN k tt)) s = Ok tt s' /\ seen s' = seen s ++ e1 ++ e2 /\
    small_whole SC s' k /\ length e1 = n /\ length e2 = k /\ Forall (fun v => fst (vend v) <> vbegin v) e2.
Proof.
  intros SC RB s n k H1 H2 W N. destruct (assign_does SC RB H1 H2 s n k W) as (s' & ev & E & S & W' & _ & H).
  destruct (H N) as (e1 & e2 & -> & L1 & L2 & F). exists s', e1, e2. auto 7.
Qed.
Print Assumptions C118_assign_end_without_begin_refuted.
Example C118_assign_meets : small_whole 4 small_5_of_4 5 /\ stays 2 small_5_of_4 7 = false /\ stays 2 small_5_of_4 1 = false.
Proof. split; [exact small_5_whole|]. split; reflexivity. Qed.

(** What the model checks: elements are built only where there is memory and no element, destroyed only where there
    is one, moved only from one; blocks are given back once, with their capacity, and the static buffer never. *)
Theorem C118_what_is_checked : forall s s',
  (forall p, construct p s = Ok tt s' <->
     (exists c, nth_error (room s) (fst p) = Some (Some c) /\ snd p < c) /\ live s (fst p) (snd p) = false /\ s' = after s p true) /\
  (forall p, destroy p s = Ok tt s' <->
     (exists c, nth_error (room s) (fst p) = Some (Some c) /\ snd p < c) /\ live s (fst p) (snd p) = true /\ s' = after s p false) /\
  (forall p q, move_to p q s = Ok tt s' <-> live s (fst q) (snd q) = true /\ construct p s = Ok tt s') /\
  (forall a c, deallocate a c s = Ok tt s' <->
     a <> 0 /\ nth_error (room s) a = Some (Some c) /\
     s' = mkSt (live s) (upd (room s) a None) (vb s) (ve s) (vcap s) (seen s)).
Proof.
  intros s s'. repeat apply conj.
  - intros p. unfold construct. destruct (nth_error (room s) (fst p)) as [[c|]|];
      [|split; [discriminate|intros ((c & E & _) & _); discriminate E]..].
    destruct (Nat.ltb_spec (snd p) c) as [L|L], (live s (fst p) (snd p)); cbn [andb negb];
      (split; [intros E; try discriminate E|intros ((c' & [= <-] & L') & E & ->); try discriminate E; try lia; reflexivity]).
    injection E as <-. eauto.
  - intros p. unfold destroy. destruct (nth_error (room s) (fst p)) as [[c|]|];
      [|split; [discriminate|intros ((c & E & _) & _); discriminate E]..].
    destruct (Nat.ltb_spec (snd p) c) as [L|L], (live s (fst p) (snd p)); cbn [andb];
      (split; [intros E; try discriminate E|intros ((c' & [= <-] & L') & E & ->); try discriminate E; try lia; reflexivity]).
    injection E as <-. eauto.
  - intros p q. unfold move_to. destruct (live s (fst q) (snd q)); split; try tauto; try discriminate.
    intros (E & _). discriminate E.
  - intros a c. unfold deallocate. destruct a as [|a]; [split; [discriminate|intros (E & _); now destruct E]|].
    destruct (nth_error (room s) (S a)) as [[c'|]|];
      [|split; [discriminate|intros (_ & E & _); discriminate E]..].
    destruct (Nat.eqb_spec c c') as [->|N]; (split; [try discriminate|intros (_ & E & ->); congruence]).
    intros [= <-]. auto.
Qed.
Print Assumptions C118_what_is_checked.

(** Calls which are refused: small_vector refuses positions beyond the end, static_vector what it has no room for and
    to erase more than there is. Nothing was built or destroyed then. *)
Theorem C118_refused : forall s n pos k, size s = Ok n s ->
  (forall SC RB, n < pos -> insert SC RB pos k s = Throw OutOfRange s) /\
  (forall SC RB, n < pos + k -> shrink_at SC RB pos k s = Throw OutOfRange s) /\
  (forall C, C < n + k -> s_insert C pos k s = Throw OutOfRange s) /\
  (forall C, C <= n -> s_push C s = Throw OutOfRange s) /\
  (n < k -> s_shrink_at pos k s = Throw OutOfRange s).
Proof.
  intros s n pos k E. repeat apply conj; intros;
    [unfold insert|unfold shrink_at|unfold s_insert|unfold s_push|unfold s_shrink_at];
    erewrite bind_ok by exact E; unfold bind, get, throw_if;
    rewrite ?(proj2 (Nat.ltb_lt _ _)), ?(proj2 (Nat.leb_le _ _)) by lia; reflexivity.
Qed.
Print Assumptions C118_refused.
Example C118_refused_meets : size small_5_of_4 = Ok 5 small_5_of_4 /\ size static_5_of_8 = Ok 5 static_5_of_8 /\
  5 < 4 + 2 /\ 8 < 5 + 4 /\ construct (0, 5) static_5_of_8 <> UB /\ construct (0, 4) static_5_of_8 = UB /\
  destroy (0, 5) static_5_of_8 = UB /\ construct (0, 8) static_5_of_8 = UB.
Proof. repeat apply conj; try reflexivity; try (cbn; lia). vm_compute. discriminate. Qed.
