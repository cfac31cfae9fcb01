(** Proofs about the small_vector of VecViewModel.v. *)
From Coq Require Import List Arith Bool Lia.
From Verif Require Import Base SeqSpec PtrSpec VecViewModel VecViewSpec VecViewProofs.
From Verif Require PtrModel PtrSmallProofs.
Import ListNotations.

Section Small.
Variable SC RB : nat.
Hypothesis HSC : 0 < SC.
Hypothesis HRB : RB <= SC + 1.

Definition buffers (s : st) : Prop :=
  nth_error (room s) (vb s) = Some (Some (vcap s)) /\ nth_error (room s) 0 = Some (Some SC) /\
  (vb s = 0 -> vcap s = SC) /\ (vb s <> 0 -> 0 < vcap s).
Lemma whole_buffers s n : small_whole SC s n -> buffers s.
Proof. intros ((_ & _ & R & _) & H). split; auto. Qed.

(** What choose_data finds if the elements move. *)
Definition found (s : st) (d b c : nat) (r : list (option nat)) : Prop :=
  b <> vb s /\ d <= c /\ nth_error r b = Some (Some c) /\ nth_error r (vb s) = Some (Some (vcap s)) /\
  nth_error r 0 = Some (Some SC) /\ (b = 0 -> c = SC) /\ (b <> 0 -> 0 < c) /\
  (d <= vcap s -> vb s <> 0 /\ b = 0).
Lemma does_choose (f : nat * nat -> M st unit) d s Q :
  buffers s ->
  (stays RB s d = true -> d <= vcap s -> does (f (vb s, vcap s)) s Q) ->
  (forall b c r, stays RB s d = false -> found s d b c r ->
     does (f (b, c)) (mkSt (live s) r (vb s) (ve s) (vcap s) (seen s)) Q) ->
  does (let* cdr := choose_data SC RB d in f cdr) s Q.
Proof.
  intros (R & R0 & B0 & B1) H1 H2.
  assert (LEN : vb s < length (room s)) by (apply nth_error_Some; congruence).
  assert (LEN0 : 0 < length (room s)) by lia.
  assert (NEW : forall c, d <= c -> vcap s < d -> 0 < c -> found s d (length (room s)) c (room s ++ [Some c])).
  { intros c D1 D2 D3. unfold found. rewrite (nth_error_app1 _ _ LEN), (nth_error_app1 _ _ LEN0).
    rewrite nth_error_app2, Nat.sub_diag by lia. cbn. repeat split; auto; lia. }
  unfold stays in *. unfold choose_data, does, bind in *.
  destruct (Nat.eqb_spec (vb s) 0) as [Z|Z]; cbn [negb orb] in *.
  - pose proof (B0 Z) as V. destruct (Nat.ltb_spec SC d) as [D|D].
    + rewrite (proj2 (Nat.leb_gt d (vcap s)) ltac:(lia)) in H2. cbn in H2 |- *.
      apply (H2 (length (room s)) d _ eq_refl). apply NEW; lia.
    + rewrite (proj2 (Nat.leb_le d (vcap s)) ltac:(lia)) in H1. cbn in H1. apply H1; auto; lia.
  - destruct (Nat.ltb_spec (vcap s) d) as [D|D].
    + rewrite (proj2 (Nat.leb_gt d (vcap s)) D) in H2. cbn [andb] in H2.
      destruct (PtrSmallProofs.grown_ok (S d) (vcap s) d (B1 Z) ltac:(lia)) as (c & G & G1 & G2).
      rewrite G. cbn. apply (H2 (length (room s)) c _ eq_refl). apply NEW; lia.
    + rewrite (proj2 (Nat.leb_le d (vcap s)) D) in *. cbn [andb] in *.
      destruct (Nat.ltb_spec d RB) as [D'|D'].
      * rewrite (proj2 (Nat.leb_gt RB d) D') in H2.
        destruct s as [l r b e c sn]. apply (H2 0 SC r eq_refl). cbn in *. unfold found. cbn. repeat split; auto; lia.
      * apply H1; auto. now apply Nat.leb_le.
Qed.

Lemma does_deallocate a c s : a <> 0 -> nth_error (room s) a = Some (Some c) ->
  does (deallocate a c) s (fun s' ev => exists r, s' = mkSt (live s) r (vb s) (ve s) (vcap s) (seen s) /\ ev = [] /\
    forall b, b <> a -> nth_error r b = nth_error (room s) b).
Proof.
  intros N R. exists (mkSt (live s) (upd (room s) a None) (vb s) (ve s) (vcap s) (seen s)), [].
  unfold deallocate. destruct a as [|a]; [congruence|]. rewrite R, Nat.eqb_refl. cbn [seen]. rewrite app_nil_r.
  split; [reflexivity|]. split; [reflexivity|]. exists (upd (room s) (S a) None). split; [reflexivity|]. split; [reflexivity|].
  intros b NB. apply nth_error_upd_neq. congruence.
Qed.
Lemma does_release a c s : nth_error (room s) a = Some (Some c) ->
  does (release a c) s (fun s' ev => exists r, s' = mkSt (live s) r (vb s) (ve s) (vcap s) (seen s) /\ ev = [] /\
    (forall b, b <> a -> nth_error r b = nth_error (room s) b) /\ (a = 0 -> r = room s)).
Proof.
  intros R. unfold release. destruct (Nat.eqb_spec a 0) as [Z|Z].
  - apply does_ret. exists (room s). now destruct s.
  - eapply does_weaken; [apply (does_deallocate a c s Z R)|]. cbn beta. intros s' ev (r & A & B & C).
    exists r. repeat split; auto. congruence.
Qed.

Lemma small_is s b n c : vb s = b -> ve s = (b, n) -> vcap s = c -> n <= c ->
  nth_error (room s) b = Some (Some c) -> nth_error (room s) 0 = Some (Some SC) ->
  (b = 0 -> c = SC) -> (b <> 0 -> 0 < c) -> (forall x y, live s x y = (x =? b) && (y <? n)) -> small_whole SC s n.
Proof.
  intros B E V N R R0 C0 C1 L. split; [|rewrite B, V; auto]. unfold whole. rewrite B, E, V. auto.
Qed.

Lemma clear_does s n : small_whole SC s n ->
  does (clear SC RB) s (fun s' ev => small_whole SC s' 0 /\ (Forall good ev <-> n <= 1)).
Proof.
  intros SW. pose proof SW as (W & R0 & C0 & C1). pose proof W as (E & H & R & L). unfold clear.
  apply does_size; [now rewrite E|]. rewrite E. cbn [snd]. apply does_get.
  eapply does_bind.
  { apply destroy_n_does. intros j J. apply (whole_at s n j W). lia. }
  cbn beta. intros s1 e1 ((P1 & P2 & P3 & P4 & P5) & G1 & G2 & _).
  specialize (G2 eq_refl (whole_but s n W) ltac:(rewrite E; cbn; lia)).
  assert (L1 : forall x y, live s1 x y = false) by (intros x y; rewrite P5; unfold cleared; rewrite L; cases).
  destruct ((0 <? RB) && negb (vb s =? 0)) eqn:D.
  - apply andb_true_iff in D. destruct D as [_ D]. apply negb_true_iff, Nat.eqb_neq in D.
    eapply does_bind; [apply (does_deallocate (vb s) (vcap s) s1 D); now rewrite P1|]. cbn beta.
    intros s2 e2 (r & -> & -> & HR).
    eapply does_weaken; [apply does_buf|]. cbn beta. intros s3 e3 [-> ->]. cbn [app]. rewrite app_nil_r. split; [|exact G2].
    apply (small_is _ 0 0 SC); cbn [live room vb ve vcap]; auto; try lia.
    + rewrite HR by congruence. now rewrite P1.
    + rewrite HR by congruence. now rewrite P1.
    + intros x y. rewrite L1. cases.
  - eapply does_weaken; [apply does_end|]. cbn beta. intros s3 e3 [-> ->]. rewrite app_nil_r. split; [|exact G2].
    apply (small_is _ (vb s) 0 (vcap s)); cbn [live room vb ve vcap]; auto; try congruence; try lia.
    intros x y. rewrite L1. cases.
Qed.

Lemma reserve_does s n d : small_whole SC s n ->
  does (reserve SC RB d) s (fun s' ev =>
    small_whole SC s' n /\ d <= vcap s' /\ (Forall good ev <-> reserving s n d = true)).
Proof.
  intros SW. pose proof SW as (W & R0 & C0 & C1). pose proof W as (E & H & R & L). unfold reserve, reserving.
  apply does_get. destruct (Nat.leb_spec d (vcap s)) as [D|D].
  { apply does_ret. split; [exact SW|]. split; [exact D|]. split; auto. }
  apply does_choose; [exact (whole_buffers s n SW)|lia|].
  intros b c r _ (F1 & F2 & F3 & F4 & F5 & F6 & F7 & _). cbn [orb fst snd].
  apply does_size; [cbn; now rewrite E|]. cbn [ve]. rewrite E. cbn [snd].
  set (s0 := mkSt (live s) r (vb s) (vb s, n) (vcap s) (seen s)).
  assert (B0 : but s0 None).
  { destruct (whole_but s n W) as [X1 X2]. split; [reflexivity|]. rewrite E in X2. exact X2. }
  eapply does_bind.
  { apply (move_n_does n (vb s) 0 b 0 s0); [congruence| |].
    - intros j J. apply (whole_at s n j W). lia.
    - intros j J. split; [exists c; split; [exact F3|lia]|]. apply (whole_out s n b j W). auto. }
  cbn beta. intros s1 e1 ((P1 & P2 & P3 & P4 & P5) & G1). specialize (G1 ltac:(cbn; congruence) B0).
  cbn [s0 live room vb ve vcap] in P1, P2, P3, P4, P5.
  eapply does_bind.
  { apply (destroy_n_does n (vb s) 0 s1). intros j J. destruct (whole_at s n j W ltac:(lia)) as [_ X]. split.
    - exists (vcap s). rewrite P1. split; [exact F4|lia].
    - rewrite P5. unfold filled. now rewrite X. }
  cbn beta. intros s2 e2 ((Q1 & Q2 & Q3 & Q4 & Q5) & _ & G2 & _).
  assert (G2' : Forall good e2 <-> n <= 1).
  { apply G2; [exact P2| |rewrite P3; cbn; lia]. split; [now rewrite P3, P2|]. rewrite P3, P2. cbn. intros j J _.
    rewrite P5. unfold filled. destruct (whole_at s n j W J) as [_ ->]. reflexivity. }
  eapply does_bind; [apply (does_release (vb s) (vcap s) s2); now rewrite Q1, P1|]. cbn beta.
  intros s3 e3 (r' & -> & -> & HR & HR0).
  eapply does_weaken; [apply does_buf|]. cbn beta. intros s4 e4 [-> ->]. cbn [app]. rewrite app_nil_r.
  split; [|split].
  - apply (small_is _ b n c); cbn [live room vb ve vcap]; auto; try lia.
    + rewrite HR, Q1, P1; auto.
    + destruct (Nat.eq_dec (vb s) 0) as [Z|Z].
      * rewrite (HR0 Z), Q1, P1. exact F5.
      * rewrite HR, Q1, P1; auto.
    + intros x y. rewrite Q5. unfold cleared. rewrite P5. unfold filled. rewrite L. cases.
  - cbn. lia.
  - rewrite Forall_app, G2', Nat.leb_le. tauto.
Qed.

Lemma fit_loop_does k : forall a i s,
  a <> vb s -> ve s = (vb s, i) ->
  (forall j, j < i + k -> has_room s a j /\ has_room s (vb s) j) ->
  (forall x y, live s x y = (x =? vb s) && (y <? i) || (x =? a) && (i <=? y) && (y <? i + k)) ->
  does (fit_loop a i k) s (fun s' ev =>
    room s' = room s /\ vb s' = vb s /\ ve s' = (vb s, i + k) /\ vcap s' = vcap s /\
    (forall x y, live s' x y = (x =? vb s) && (y <? i + k)) /\ Forall good ev).
Proof.
  induction k as [|k IH]; intros a i s N E H L; cbn [fit_loop].
  - apply does_ret. rewrite Nat.add_0_r. repeat split; auto. intros x y. rewrite L. cases.
  - apply does_get. rewrite E. cbn [fst snd].
    assert (B0 : but s None).
    { split; [now rewrite E|]. rewrite E. cbn. intros j J _. rewrite L. cases. }
    eapply does_bind.
    { apply (does_move s (vb s) i a i).
      - apply H. lia.
      - rewrite L. cases.
      - rewrite L. cases. }
    cbn beta. intros s1 e1 [-> ->].
    eapply does_bind; [apply does_end|]. cbn beta. intros s1 e1 [-> ->].
    eapply does_bind.
    { apply does_destroy.
      - destruct (H i ltac:(lia)) as [(c & R1 & R2) _]. exists c. auto.
      - cbn. rewrite setl_ne by congruence. rewrite L. cases. }
    cbn beta. intros s1 e1 [-> ->].
    eapply does_weaken.
    { apply (IH a (S i)); cbn [after room vb ve live]; auto.
      - intros j J. destruct (H j ltac:(lia)) as [(c & R1 & R2) (c' & R3 & R4)]. split; [exists c|exists c']; auto.
      - intros x y. unfold setl. cbn [fst snd]. rewrite L. cases. }
    cbn beta. intros s2 e2 (P1 & P2 & P3 & P4 & P5 & G). cbn [after room vb ve live vcap fst snd] in *.
    replace (i + S k) with (S i + k) by lia. repeat split; auto. cbn [app].
    constructor; [|constructor; [|exact G]].
    + apply (good_at s None); auto.
    + split; [reflexivity|]. cbn [vend vbegin lives who fst snd]. intros j J. right. unfold setl. cbn [fst snd]. rewrite L. cases.
Qed.

Lemma shrink_to_fit_does s n : small_whole SC s n ->
  does (shrink_to_fit SC) s (fun s' ev => small_whole SC s' n /\ Forall good ev).
Proof.
  intros SW. pose proof SW as (W & R0 & C0 & C1). pose proof W as (E & H & R & L). unfold shrink_to_fit.
  apply does_size; [now rewrite E|]. rewrite E. cbn [snd]. apply does_get.
  destruct (Nat.eqb_spec n (vcap s)) as [D|D]; [apply does_ret; auto|].
  destruct (Nat.eqb_spec (vb s) 0) as [Z|Z]; [apply does_ret; auto|].
  assert (LEN : vb s < length (room s)) by (apply nth_error_Some; congruence).
  assert (FIT : forall r b c, b <> vb s -> n <= c -> nth_error r b = Some (Some c) ->
    nth_error r (vb s) = Some (Some (vcap s)) -> nth_error r 0 = Some (Some SC) -> (b = 0 -> c = SC) -> (b <> 0 -> 0 < c) ->
    does (fit_loop (vb s) 0 n ;;; deallocate (vb s) (vcap s)) (mkSt (live s) r b (b, 0) c (seen s))
      (fun s' ev => small_whole SC s' n /\ Forall good ev)).
  { intros r b c NB NC X1 X2 X3 X4 X5. eapply does_bind.
    { apply fit_loop_does; cbn [room vb ve live]; auto.
      - intros j J. split; [exists (vcap s)|exists c]; split; auto; lia.
      - intros x y. rewrite L. cases. }
    cbn beta. cbn [room vb ve live vcap]. intros s1 e1 (P1 & P2 & P3 & P4 & P5 & G).
    eapply does_weaken; [apply (does_deallocate (vb s) (vcap s) s1 Z); now rewrite P1|]. cbn beta.
    intros s2 e2 (r' & -> & -> & HR). rewrite app_nil_r. split; [|exact G].
    apply (small_is _ b n c); cbn [live room vb ve vcap]; auto.
    - rewrite HR, P1; auto.
    - rewrite HR, P1; auto. }
  destruct (Nat.ltb_spec n SC) as [D'|D'].
  - apply (FIT (room s) 0 SC); auto; lia.
  - assert (Y : does (fit_loop (vb s) 0 n ;;; deallocate (vb s) (vcap s))
                  (mkSt (live s) (room s ++ [Some n]) (length (room s)) (length (room s), 0) n (seen s))
                  (fun s' ev => small_whole SC s' n /\ Forall good ev)).
    { apply FIT; try lia.
      - rewrite nth_error_app2, Nat.sub_diag by lia. reflexivity.
      - rewrite nth_error_app1; auto.
      - rewrite nth_error_app1; auto. lia. }
    exact Y.
Qed.

Lemma revert_does s n : small_whole SC s n ->
  does (revert_to_static SC) s (fun s' ev => small_whole SC s' n /\ Forall good ev).
Proof.
  intros SW. pose proof SW as ((E & _) & _). unfold revert_to_static.
  apply does_size; [now rewrite E|]. rewrite E. cbn [snd]. apply does_get.
  destruct (vb s =? 0); [apply does_ret; auto|]. destruct (SC <? n); [apply does_ret; auto|].
  now apply shrink_to_fit_does.
Qed.

Lemma insert_does s n pos k : small_whole SC s n -> pos <= n -> 0 < k ->
  does (insert SC RB pos k) s (fun s' ev =>
    small_whole SC s' (n + k) /\ (Forall good ev <-> adding RB s n k = true)).
Proof.
  intros SW HP H0. pose proof SW as (W & R0 & C0 & C1). pose proof W as (E & H & R & L). unfold insert, adding.
  apply does_size; [now rewrite E|]. rewrite E. cbn [snd]. apply does_get.
  apply does_check; [apply Nat.ltb_ge; lia|].
  assert (X : pos + (n - pos) = n) by lia.
  apply does_choose; [exact (whole_buffers s n SW)| |]; cbn [fst snd].
  - intros -> HC. rewrite Nat.eqb_refl. cbn [orb]. apply does_assoc.
    eapply does_bind; [apply does_end|]. cbn beta. intros s0 e0 [-> ->]. cbn [app].
    eapply does_bind.
    { apply (grow_loop_does k H0 (n - pos) (vb s) pos).
      - intros j J. apply (whole_at s n j W). lia.
      - intros j J. apply (whole_out s n (vb s) j W). lia.
      - intros j J. exists (vcap s). cbn [room]. split; [exact R|lia]. }
    cbn beta. intros s1 e1 ((P1 & P2 & P3 & P4 & P5) & G). cbn [live room vb ve vcap] in *. rewrite X in *.
    eapply does_weaken.
    { apply (construct_n_does k (vb s) pos). intros j J. split.
      * exists (vcap s). rewrite P1. split; [exact R|lia].
      * rewrite P5. cases. }
    cbn beta. intros s3 e3 ((Q1 & Q2 & Q3 & Q4 & Q5) & G1 & G2). split.
    + apply (small_is _ (vb s) (n + k) (vcap s)); auto; try congruence.
      intros x y. rewrite Q5. unfold filled. rewrite P5, L. cases.
    + rewrite andb_true_r, Nat.eqb_eq, Forall_app, G2; [|congruence|rewrite P3, P2; reflexivity| |rewrite P3; cbn; lia].
      * split; [intros [_ ?]; lia|]. intros ->. split; [|lia]. apply G; auto.
        split; [reflexivity|]. cbn. intros j J N. rewrite L. assert (j <> n) by congruence. cases.
      * rewrite P3. cbn [snd]. intros j J N. rewrite P5, L. cases.
  - intros b c r -> (F1 & F2 & F3 & F4 & F5 & F6 & F7 & _). cbn [orb].
    destruct (Nat.eqb_spec b (vb s)); [congruence|].
    set (s0 := mkSt (live s) r (vb s) (ve s) (vcap s) (seen s)).
    assert (B0 : but s0 None) by exact (whole_but s n W).
    apply does_assoc. eapply does_bind.
    { apply (move_n_does pos (vb s) 0 b 0 s0); [congruence| |].
      - intros j J. apply (whole_at s n j W). lia.
      - intros j J. split; [exists c; split; [exact F3|lia]|]. apply (whole_out s n b j W). auto. }
    cbn beta. intros s1 e1 ((P1 & P2 & P3 & P4 & P5) & G1). specialize (G1 ltac:(cbn; congruence) B0).
    cbn [s0 live room vb ve vcap] in P1, P2, P3, P4, P5.
    assert (B1 : but s1 None).
    { split; [now rewrite P3, P2, E|]. rewrite P3, P2, E. cbn. intros j J _. rewrite P5. unfold filled. rewrite L. cases. }
    apply does_assoc. eapply does_bind.
    { apply (move_n_does (n - pos) (vb s) pos b (pos + k) s1); [congruence| |].
      - intros j J. rewrite P5. unfold filled. rewrite L. cases.
      - intros j J. split; [exists c; rewrite P1; split; [exact F3|lia]|]. rewrite P5. unfold filled. rewrite L. cases. }
    cbn beta. intros s2 e2 ((Q1 & Q2 & Q3 & Q4 & Q5) & G2). specialize (G2 ltac:(congruence) B1).
    assert (L2 : forall x y, live s2 x y =
      (x =? vb s) && (y <? n) || (x =? b) && (y <? n + k) && negb ((pos <=? y) && (y <? pos + k))).
    { intros x y. rewrite Q5. unfold filled. rewrite P5. unfold filled. rewrite L. cases. }
    apply does_assoc. eapply does_bind.
    { apply (destroy_n_does n (vb s) 0 s2). intros j J. split.
      - exists (vcap s). rewrite Q1, P1. split; [exact F4|lia].
      - rewrite L2. cases. }
    cbn beta. intros s3 e3 ((T1 & T2 & T3 & T4 & T5) & _ & G3 & _).
    assert (G3' : Forall good e3 <-> n <= 1).
    { apply G3; [congruence| |rewrite Q3, P3, E; cbn; lia]. split; [now rewrite Q3, P3, Q2, P2, E|].
      rewrite Q3, P3, Q2, P2, E. cbn [snd]. intros j J _. rewrite L2. cases. }
    apply does_assoc. eapply does_bind; [apply (does_release (vb s) (vcap s) s3); now rewrite T1, Q1, P1|]. cbn beta.
    intros s4 e4 (r' & -> & -> & HR & HR0).
    assert (R0' : nth_error r' 0 = Some (Some SC)).
    { destruct (Nat.eq_dec (vb s) 0) as [Z|Z]; [rewrite (HR0 Z)|rewrite HR by congruence]; now rewrite T1, Q1, P1. }
    eapply does_bind; [apply does_buf|]. cbn beta. intros s4 e4 [-> ->]. cbn [app live room vb ve vcap seen].
    eapply does_weaken.
    { apply (construct_n_does k b pos). cbn [live room]. intros j J. split.
      * exists c. cbn [room]. rewrite HR by congruence. rewrite T1, Q1, P1. split; [exact F3|lia].
      * rewrite T5. unfold cleared. rewrite L2. cases. }
    cbn beta. cbn [live room vb ve vcap fst snd]. intros s5 e5 ((U1 & U2 & U3 & U4 & U5) & _ & G5).
    cbn [live room vb ve vcap fst snd] in *. split.
    + apply (small_is _ b (n + k) c); auto; try congruence.
      * rewrite U1, HR by congruence. now rewrite T1, Q1, P1.
      * intros x y. rewrite U5. unfold filled. rewrite T5. unfold cleared. rewrite L2. cases.
    + rewrite !Forall_app, G3', G5, andb_true_iff, Nat.eqb_eq, Nat.leb_le; auto; try lia.
      * split; [intros (_ & _ & ? & ?); lia|]. intros [-> ?]. auto.
      * intros j J N. rewrite T5. unfold cleared. rewrite L2. cases.
Qed.

Lemma shrink_does s n pos num : small_whole SC s n -> pos + num <= n -> 0 < num ->
  does (shrink_at SC RB pos num) s (fun s' ev =>
    small_whole SC s' (n - num) /\ (Forall good ev <-> taking RB s n num = true)).
Proof.
  intros SW HP H0. pose proof SW as (W & R0 & C0 & C1). pose proof W as (E & H & R & L). unfold shrink_at, taking.
  apply does_size; [now rewrite E|]. rewrite E. cbn [snd]. apply does_get.
  apply does_check; [apply Nat.ltb_ge; lia|].
  destruct (Nat.eqb_spec (n - num) 0) as [Z|Z].
  { assert (n = num) as -> by lia. rewrite Nat.eqb_refl, Z.
    eapply does_weaken; [apply (clear_does s num SW)|]. cbn beta. intros s' ev [A G]. split; [exact A|].
    rewrite G, Nat.eqb_eq. lia. }
  destruct (Nat.eqb_spec n num) as [Z'|Z']; [lia|].
  apply does_choose; [exact (whole_buffers s n SW)| |]; cbn [fst snd].
  - intros -> HC. rewrite Nat.eqb_refl, andb_true_r.
    eapply does_bind.
    { apply (shrink_loop_does num H0 (n - (pos + num)) (vb s) pos s). intros j J. apply (whole_at s n j W). lia. }
    cbn beta. intros s1 e1 ((P1 & P2 & P3 & P4 & P5) & G). specialize (G eq_refl (whole_but s n W)).
    eapply does_bind.
    { apply (destroy_n_does num (vb s) (n - num) s1). intros j J.
      destruct (whole_at s n j W ltac:(lia)) as [(c & X1 & X2) LL].
      split; [exists c; now rewrite P1|now rewrite P5]. }
    cbn beta. intros s2 e2 ((Q1 & Q2 & Q3 & Q4 & Q5) & G1 & G2 & _).
    eapply does_weaken; [apply does_end|]. cbn beta. intros s3 e3 [-> ->]. rewrite app_nil_r. split.
    + apply (small_is _ (vb s) (n - num) (vcap s)); cbn [live room vb ve vcap]; auto; try congruence.
      intros x y. rewrite Q5. unfold cleared. rewrite P5, L. clear G1 G2. cases.
    + rewrite Forall_app, G2, Nat.eqb_eq; [split; [intros [_ ?]; lia|intros; split; [exact G|lia]]|exact P2| |rewrite P3, E; cbn; lia].
      destruct (whole_but s n W) as [X1 X2]. split; [now rewrite P3, P2|]. rewrite P3, P2. intros j J N.
      rewrite P5. now apply X2.
  - intros b c r -> (F1 & F2 & F3 & F4 & F5 & F6 & F7 & F8). destruct (F8 ltac:(lia)) as [Y ->].
    rewrite andb_false_r. destruct (Nat.eqb_spec 0 (vb s)); [congruence|]. rewrite (F6 eq_refl) in *.
    set (s0 := mkSt (live s) r (vb s) (ve s) (vcap s) (seen s)).
    eapply does_bind.
    { apply (relocate_n_does pos (vb s) 0 0 0 s0 Y).
      - intros j J. split; [exists (vcap s); split; [exact F4|lia]|]. apply (whole_at s n j W). lia.
      - intros j J. split; [exists SC; split; [exact F3|lia]|]. apply (whole_out s n 0 j W). auto. }
    cbn beta. intros s1 e1 ((P1 & P2 & P3 & P4 & P5) & _). cbn [s0 live room vb ve vcap] in P1, P2, P3, P4, P5.
    assert (L1 : forall x y, live s1 x y = (x =? vb s) && (pos <=? y) && (y <? n) || (x =? 0) && (y <? pos)).
    { intros x y. rewrite P5. unfold filled, cleared. rewrite L. cases. }
    eapply does_bind.
    { apply (destroy_n_does num (vb s) pos s1). intros j J. split.
      - exists (vcap s). rewrite P1. split; [exact F4|lia].
      - rewrite L1. cases. }
    cbn beta. intros s2 e2 ((Q1 & Q2 & Q3 & Q4 & Q5) & _ & _ & G2).
    assert (L2 : forall x y, live s2 x y = (x =? vb s) && (pos + num <=? y) && (y <? n) || (x =? 0) && (y <? pos)).
    { intros x y. rewrite Q5. unfold cleared. rewrite L1. cases. }
    eapply does_bind.
    { apply (relocate_n_does (n - (pos + num)) (vb s) (pos + num) 0 pos s2 Y).
      - intros j J. split; [exists (vcap s); rewrite Q1, P1; split; [exact F4|lia]|]. rewrite L2. cases.
      - intros j J. split; [exists SC; rewrite Q1, P1; split; [exact F3|lia]|]. rewrite L2. cases. }
    cbn beta. intros s3 e3 ((T1 & T2 & T3 & T4 & T5) & G3 & _).
    eapply does_bind; [apply (does_deallocate (vb s) (vcap s) s3 Y); now rewrite T1, Q1, P1|]. cbn beta.
    intros s4 e4 (r' & -> & -> & HR).
    eapply does_weaken; [apply does_buf|]. cbn beta. intros s4 e4 [-> ->]. cbn [app live room vb ve vcap seen].
    rewrite app_nil_r. split.
    + apply (small_is _ 0 (n - num) SC); cbn [live room vb ve vcap]; auto; try lia.
      * rewrite HR, T1, Q1, P1; auto.
      * rewrite HR, T1, Q1, P1; auto.
      * intros x y. rewrite T5. unfold filled, cleared. rewrite L2. cases.
    + split; [|discriminate]. rewrite !Forall_app. intros (_ & Y2 & Y3). exfalso. destruct (Nat.eq_dec pos 0) as [Z0|Z0].
      * refine (G3 0 _ _ _ _ Y3); [rewrite Q3, P3, E; cbn; lia| |lia|congruence]. rewrite L2, Q2, P2. cases.
      * refine (G2 0 _ _ H0 _ Y2); [rewrite P3, E; cbn; lia| |right; lia]. rewrite L1, P2. cases.
Qed.

Lemma cut_does k : forall s n, small_whole SC s n -> k <= n ->
  does (cut k) s (fun s' ev => small_whole SC s' (n - k) /\ vcap s' = vcap s /\ Forall good ev).
Proof.
  induction k as [|k IH]; intros s n SW HN; cbn [cut].
  - apply does_ret. rewrite Nat.sub_0_r. auto.
  - pose proof SW as (W & R0 & C0 & C1). pose proof W as (E & H & R & L). apply does_get. rewrite E. cbn [fst snd].
    eapply does_bind; [apply does_end|]. cbn beta. intros s1 e1 [-> ->]. cbn [app].
    eapply does_bind.
    { apply does_destroy.
      - exists (vcap s). cbn [room]. split; [exact R|lia].
      - cbn [live]. apply (whole_at s n (n - 1) W). lia. }
    cbn beta. intros s1 e1 [-> ->].
    eapply does_weaken.
    { apply (IH _ (n - 1)); [|lia]. apply (small_is _ (vb s) (n - 1) (vcap s)); cbn [after live room vb ve vcap]; auto; [lia|].
      intros x y. unfold setl. cbn [fst snd]. rewrite L. cases. }
    cbn beta. intros s2 e2 (A & B & G). cbn [after vcap] in B. replace (n - S k) with (n - 1 - k) by lia.
    split; [exact A|]. split; [exact B|]. cbn [app]. constructor; [|exact G]. split; [reflexivity|].
    cbn [vend vbegin lives who fst snd vb ve live]. intros j J. right. rewrite L. cases.
Qed.
Lemma extend_does k : forall s n, small_whole SC s n -> n + k <= vcap s ->
  does (extend k) s (fun s' ev => small_whole SC s' (n + k) /\ Forall good ev).
Proof.
  induction k as [|k IH]; intros s n SW HN; cbn [extend].
  - apply does_ret. rewrite Nat.add_0_r. auto.
  - pose proof SW as (W & R0 & C0 & C1). pose proof W as (E & H & R & L). apply does_get. rewrite E. cbn [fst snd].
    eapply does_bind; [apply does_end|]. cbn beta. intros s1 e1 [-> ->]. cbn [app].
    eapply does_bind.
    { apply does_construct.
      - exists (vcap s). cbn [room]. split; [exact R|lia].
      - cbn [live]. apply (whole_out s n (vb s) n W). auto. }
    cbn beta. intros s1 e1 [-> ->].
    eapply does_weaken.
    { apply (IH _ (S n)); [|cbn; lia]. apply (small_is _ (vb s) (S n) (vcap s)); cbn [after live room vb ve vcap]; auto; [lia|].
      intros x y. unfold setl. cbn [fst snd]. rewrite L. cases. }
    cbn beta. intros s2 e2 (A & G). replace (n + S k) with (S n + k) by lia.
    split; auto. cbn [app]. constructor; [|exact G]. split; [reflexivity|].
    cbn [vend vbegin lives who fst snd vb ve live]. intros j J.
    destruct (Nat.eq_dec j n) as [->|NJ]; [now left|]. right. rewrite L. cases.
Qed.
Lemma resize_does s n k : small_whole SC s n ->
  does (resize SC RB k) s (fun s' ev => small_whole SC s' k /\ (Forall good ev <-> reserving s n k = true)).
Proof.
  intros SW. unfold resize. eapply does_bind; [apply (reserve_does s n k SW)|]. cbn beta. intros s1 e1 (S1 & V1 & G1).
  pose proof S1 as ((E1 & _) & _). apply does_size; [now rewrite E1|]. rewrite E1. cbn [snd].
  eapply does_bind; [apply (cut_does (n - k) s1 n S1); lia|]. cbn beta. intros s2 e2 (S2 & V2 & G2).
  eapply does_weaken; [apply (extend_does (k - n) s2 _ S2)|].
  - rewrite V2. destruct S1 as ((_ & ? & _) & _). lia.
  - cbn beta. intros s3 e3 (S3 & G3). replace (n - (n - k) + (k - n)) with k in S3 by lia. split; [exact S3|].
    rewrite !Forall_app, G1. tauto.
Qed.

Lemma assign_loop_does k : forall b i s,
  ve s = (b, i) ->
  (forall j, i <= j < i + k -> has_room s b j /\ live s b j = false) -> (forall j, j < i -> live s b j = true) ->
  does (assign_loop k) s (fun s' ev =>
    room s' = room s /\ vb s' = vb s /\ ve s' = (b, i + k) /\ vcap s' = vcap s /\
    (forall x y, live s' x y = filled (live s) b i k x y) /\ (Forall good ev <-> k = 0 \/ b = vb s) /\
    length ev = k /\ (b <> vb s -> Forall (fun v => fst (vend v) <> vbegin v) ev)).
Proof.
  induction k as [|k IH]; intros b i s E H L; cbn [assign_loop].
  - apply does_ret. rewrite Nat.add_0_r. repeat split; auto. intros x y. unfold filled. rewrite Nat.add_0_r. cases.
  - apply does_get. rewrite E. cbn [fst snd]. destruct (H i ltac:(lia)) as [R D].
    eapply does_bind; [apply (does_construct s b i R D)|]. cbn beta. intros s1 e1 [-> ->].
    eapply does_bind; [apply does_end|]. cbn beta. intros s1 e1 [-> ->].
    eapply does_weaken.
    { apply (IH b (S i)); cbn [after live room vb ve vcap]; auto.
      - intros j J. destruct (H j ltac:(lia)) as [(c & R1 & R2) D']. split; [exists c; auto|].
        rewrite setl_ne by (intros X; injection X; lia). exact D'.
      - intros j J. destruct (Nat.eq_dec j i) as [->|N]; [exact (setl_eq _ (b, i) true)|].
        rewrite setl_ne by (intros X; injection X; lia). apply L. lia. }
    cbn beta. cbn [after live room vb ve vcap]. intros s2 e2 (P1 & P2 & P3 & P4 & P5 & G & G' & G'').
    replace (i + S k) with (S i + k) by lia. repeat split; auto.
    + intros x y. rewrite P5. unfold filled, setl. cbn [fst snd]. replace (i + S k) with (S i + k) by lia.
      destruct (live s x y); cases.
    + cbn [app]. intros F. inversion F as [|? ? [F1 _] _]; subst. cbn in F1. rewrite E in F1. cbn in F1. auto.
    + intros [Z|Z]; [lia|]. subst b. cbn [app]. constructor; [|apply G; auto]. apply (good_at s None); auto.
      split; [now rewrite E|]. rewrite E. cbn. intros j J _. now apply L.
    + cbn. now rewrite G'.
    + intros N. cbn [app]. constructor; [|now apply G'']. cbn. now rewrite E.
Qed.

Lemma assign_does s n k : small_whole SC s n ->
  does (assign SC RB k) s (fun s' ev =>
    small_whole SC s' k /\ (Forall good ev <-> assigning RB s n k = true) /\
    (stays RB s k = false -> exists e1 e2, ev = e1 ++ e2 /\ length e1 = n /\ length e2 = k /\
       Forall (fun v => fst (vend v) <> vbegin v) e2)).
Proof.
  intros SW. pose proof SW as (W & R0 & C0 & C1). pose proof W as (E & H & R & L). unfold assign, assigning.
  apply does_size; [now rewrite E|]. rewrite E. cbn [snd]. apply does_get.
  eapply does_bind.
  { apply destroy_n_does. intros j J. apply (whole_at s n j W). lia. }
  cbn beta. intros s1 e1 ((P1 & P2 & P3 & P4 & P5) & G0 & G1 & _).
  specialize (G1 eq_refl (whole_but s n W) ltac:(rewrite E; cbn; lia)).
  assert (L1 : forall x y, live s1 x y = false) by (intros x y; rewrite P5; unfold cleared; rewrite L; cases).
  assert (ST : stays RB s1 k = stays RB s k) by (unfold stays; now rewrite P2, P4).
  apply does_choose; [unfold buffers; rewrite P1, P2, P4; auto| |]; rewrite ?ST, ?P2, ?P4; cbn [fst snd].
  - intros -> HC. eapply does_bind; [apply does_end|]. cbn beta. intros s2 e2 [-> ->].
    eapply does_bind.
    { apply (assign_loop_does k (vb s) 0); cbn [ve live room]; [reflexivity| |lia]. intros j J. split; [|apply L1].
      exists (vcap s). cbn [room]. rewrite P1. split; [exact R|lia]. }
    cbn beta. cbn [live room vb ve vcap]. intros s2 e2 (Q1 & Q2 & Q3 & Q4 & Q5 & G2 & _).
    rewrite Nat.eqb_refl. cbn [negb]. rewrite andb_false_r.
    apply (does_bind _ _ _ (fun s' ev => s' = s2 /\ ev = [])); [apply does_ret; auto|]. intros s3 e3 [-> ->].
    apply does_get. eapply does_weaken; [apply does_buf|]. cbn beta. intros s3 e3 [-> ->]. cbn [app]. rewrite app_nil_r.
    split; [|split; [|discriminate]].
    + apply (small_is _ (vb s) k (vcap s)); cbn [live room vb ve vcap]; auto; try congruence.
      intros x y. rewrite Q5. unfold filled. rewrite L1. cases.
    + rewrite Forall_app, G1, G2, orb_true_r, andb_true_r, Nat.leb_le. rewrite P2. tauto.
  - intros b c r -> F. unfold found in F. rewrite P2, P4 in F. destruct F as (F1 & F2 & F3 & F4 & F5 & F6 & F7 & _).
    eapply does_bind; [apply does_end|]. cbn beta. intros s2 e2 [-> ->]. cbn [live room vb ve vcap seen].
    eapply does_bind.
    { apply (assign_loop_does k b 0); cbn [ve live room]; [reflexivity| |lia]. intros j J. split; [|apply L1].
      exists c. cbn [room]. split; [exact F3|lia]. }
    cbn beta. cbn [live room vb ve vcap]. intros s2 e2 (Q1 & Q2 & Q3 & Q4 & Q5 & G2 & G3 & G4).
    eapply (does_bind _ _ _ (fun s' ev => exists r', s' = mkSt (live s2) r' (vb s2) (ve s2) (vcap s2) (seen s2) /\ ev = [] /\
      nth_error r' b = Some (Some c) /\ nth_error r' 0 = Some (Some SC))).
    { destruct (Nat.eqb_spec (vb s) 0) as [Z|Z]; cbn [negb andb].
      - apply does_ret. exists r. rewrite <- Q1. split; [now destruct s2|]. rewrite Q1. auto.
      - destruct (Nat.eqb_spec (vb s) b); [congruence|]. cbn [negb].
        eapply does_weaken; [apply (does_deallocate (vb s) (vcap s) s2 Z); now rewrite Q1|]. cbn beta.
        intros s3 e3 (r' & A & B & HR). exists r'. repeat split; auto; rewrite HR, Q1; auto. }
    cbn beta. intros s3 e3 (r' & -> & -> & HR & HR0).
    apply does_get. eapply does_weaken; [apply does_buf|]. cbn beta. intros s3 e3 [-> ->]. cbn [app]. rewrite app_nil_r.
    cbn [live room vb ve vcap seen]. split; [|split].
    + apply (small_is _ b k c); cbn [live room vb ve vcap]; auto.
      intros x y. rewrite Q5. unfold filled. rewrite L1. cases.
    + rewrite Forall_app, G1, G2, orb_false_r, andb_true_iff, Nat.leb_le, Nat.eqb_eq. tauto.
    + intros _. exists e1, e2. repeat split; auto.
Qed.

Theorem small_call s n o : small_whole SC s n -> small_proper n o ->
  does (call SC RB o) s (fun s' ev =>
    small_whole SC s' (small_next n o) /\ (Forall good ev <-> small_quiet RB s n o = true)).
Proof.
  intros SW HP. pose proof SW as (W & R & B & V). pose proof W as (E & H & _ & _).
  destruct o as [o|d| |].
  - destruct HP as [HV HP].
    destruct o as [u| |pos u|pos k u|pos l|pos|first last|k|k u| |k u|l]; cbn [call small_quiet small_next new_size] in *;
      cbn [vin] in HV.
    + apply does_size; [now rewrite E|]. rewrite E. cbn [snd]. rewrite <- (Nat.add_1_r n). apply insert_does; auto.
    + unfold pop_back. apply does_size; [now rewrite E|]. rewrite E. cbn [snd]. destruct (Nat.eqb_spec n 0); [lia|].
      apply shrink_does; auto; lia.
    + rewrite <- (Nat.add_1_r n). apply insert_does; auto.
    + apply insert_does; auto.
    + apply insert_does; auto.
    + apply shrink_does; auto; lia.
    + apply shrink_does; auto; lia.
    + now apply resize_does.
    + now apply resize_does.
    + eapply does_weaken; [apply (clear_does s n SW)|]. cbn beta. intros s' ev [A G]. now rewrite G, Nat.leb_le.
    + eapply does_weaken; [apply (assign_does s n k SW)|]. cbn beta. tauto.
    + eapply does_weaken; [apply (assign_does s n (length l) SW)|]. cbn beta. tauto.
  - eapply does_weaken; [apply (reserve_does s n d SW)|]. cbn beta. tauto.
  - eapply does_weaken; [apply (shrink_to_fit_does s n SW)|]. cbn beta. cbn. tauto.
  - eapply does_weaken; [apply (revert_does s n SW)|]. cbn beta. cbn. tauto.
Qed.
End Small.
