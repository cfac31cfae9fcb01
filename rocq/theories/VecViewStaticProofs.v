(** Proofs about the static_vector of VecViewModel.v. *)
From Coq Require Import List Arith Bool Lia.
From Verif Require Import Base SeqSpec PtrSpec VecViewModel VecViewSpec VecViewProofs.
Import ListNotations.

Section Static.
Variable C : nat.

Lemma static_is s m : room s = [Some C] -> vb s = 0 -> vcap s = C -> ve s = (0, m) -> m <= C ->
  (forall x y, live s x y = (x =? 0) && (y <? m)) -> static_whole C s m.
Proof.
  intros R B V E H L. split; [|auto]. unfold whole. rewrite B, E, R, V. auto.
Qed.

Lemma s_clear_does s n : static_whole C s n ->
  does s_clear s (fun s' ev => static_whole C s' 0 /\ (Forall good ev <-> n <= 1)).
Proof.
  intros (W & R & B & V). pose proof W as (E & H & RR & L). unfold s_clear.
  apply does_size; [now rewrite E|]. rewrite E. cbn [snd].
  eapply does_bind.
  { apply destroy_n_does. intros j J. rewrite <- B. apply (whole_at s n j W). lia. }
  cbn beta. intros s1 e1 ((P1 & P2 & P3 & P4 & P5) & G1 & G2 & _).
  eapply does_weaken; [apply does_end|]. cbn beta. intros s2 e2 [-> ->]. rewrite app_nil_r. split.
  - apply static_is; cbn [room vb vcap ve live after]; try congruence; [lia|]. intros x y. rewrite P5. unfold cleared. rewrite L, B. cases.
  - apply G2; [exact B|exact (whole_but s n W)|rewrite E; cbn; lia].
Qed.

Lemma s_push_does s n : static_whole C s n -> n < C ->
  does (s_push C) s (fun s' ev => static_whole C s' (S n) /\ Forall good ev).
Proof.
  intros (W & R & B & V) HN. pose proof W as (E & H & RR & L). unfold s_push.
  apply does_size; [now rewrite E|]. rewrite E. cbn [snd].
  apply does_check; [apply Nat.leb_gt; lia|].
  eapply does_bind.
  { apply (does_construct s 0 n).
    - exists C. rewrite R. auto.
    - apply (whole_out s n); auto. }
  cbn beta. intros s1 e1 [-> ->].
  eapply does_weaken; [apply does_end|]. cbn beta. intros s2 e2 [-> ->]. split.
  - apply static_is; cbn [room vb vcap ve live after]; auto. intros x y. unfold setl. cbn [fst snd]. rewrite L, B. cases.
  - cbn. constructor; [|constructor]. apply (good_at s None); auto. exact (whole_but s n W).
Qed.

Lemma s_shrink_does s n pos num : static_whole C s n -> pos + num <= n -> 0 < num ->
  does (s_shrink_at pos num) s (fun s' ev => static_whole C s' (n - num) /\ (Forall good ev <-> num <= 1)).
Proof.
  intros SW HN H0. pose proof SW as (W & R & B & V). pose proof W as (E & H & RR & L). unfold s_shrink_at.
  apply does_size; [now rewrite E|]. rewrite E. cbn [snd].
  apply does_check; [apply Nat.ltb_ge; lia|].
  destruct (Nat.eqb_spec (n - num) 0) as [Z|Z].
  - assert (n = num) as -> by lia. rewrite Z. now apply s_clear_does.
  - eapply does_bind.
    { apply (shrink_loop_does num H0 (n - (pos + num)) 0 pos s). intros j J. rewrite <- B. apply (whole_at s n j W). lia. }
    cbn beta. intros s1 e1 ((P1 & P2 & P3 & P4 & P5) & G).
    eapply does_bind.
    { apply (destroy_n_does num 0 (n - num) s1). intros j J.
      destruct (whole_at s n j W ltac:(lia)) as [(c & R1 & R2) LL]. rewrite B in *.
      split; [exists c; now rewrite P1|now rewrite P5]. }
    cbn beta. intros s2 e2 ((Q1 & Q2 & Q3 & Q4 & Q5) & G1 & G2 & _).
    eapply does_weaken; [apply does_end|]. cbn beta. intros s3 e3 [-> ->]. rewrite app_nil_r. split.
    + apply static_is; cbn [room vb vcap ve live after]; try congruence; [rewrite V in H; lia|]. intros x y. rewrite Q5. unfold cleared.
      rewrite P5, L, B. cases.
    + assert (BB : but s1 None).
      { destruct (whole_but s n W) as [X1 X2]. split; [now rewrite P3, P2|]. rewrite P3, P2. intros j J N.
        rewrite P5. now apply X2. }
      rewrite Forall_app. specialize (G B (whole_but s n W)).
      rewrite (G2 ltac:(congruence) BB ltac:(rewrite P3, E; cbn; lia)). tauto.
Qed.

Lemma s_pop_does s n : static_whole C s n -> 0 < n ->
  does s_pop s (fun s' ev => static_whole C s' (n - 1) /\ Forall good ev).
Proof.
  intros SW HN. pose proof SW as (W & R & B & V). pose proof W as (E & H & RR & L). unfold s_pop.
  apply does_size; [now rewrite E|]. rewrite E. cbn [snd]. destruct (Nat.eqb_spec n 0); [lia|].
  eapply does_weaken; [apply (s_shrink_does s n (n - 1) 1 SW); lia|]. cbn beta. intros s' ev [A G]. split; [exact A|].
  apply G. lia.
Qed.

Lemma s_pops_does k : forall s n, static_whole C s n -> k <= n ->
  does (repeat_n s_pop k) s (fun s' ev => static_whole C s' (n - k) /\ Forall good ev).
Proof.
  induction k as [|k IH]; intros s n SW HN; cbn [repeat_n].
  - apply does_ret. rewrite Nat.sub_0_r. auto.
  - eapply does_bind; [apply (s_pop_does s n SW); lia|]. cbn beta. intros s1 e1 [S1 G1].
    eapply does_weaken; [apply (IH s1 (n - 1) S1); lia|]. cbn beta. intros s2 e2 [S2 G2].
    replace (n - S k) with (n - 1 - k) by lia. rewrite Forall_app. auto.
Qed.
Lemma s_pushes_does k : forall s n, static_whole C s n -> n + k <= C ->
  does (repeat_n (s_push C) k) s (fun s' ev => static_whole C s' (n + k) /\ Forall good ev).
Proof.
  induction k as [|k IH]; intros s n SW HN; cbn [repeat_n].
  - apply does_ret. rewrite Nat.add_0_r. auto.
  - eapply does_bind; [apply (s_push_does s n SW); lia|]. cbn beta. intros s1 e1 [S1 G1].
    eapply does_weaken; [apply (IH s1 (S n) S1); lia|]. cbn beta. intros s2 e2 [S2 G2].
    replace (n + S k) with (S n + k) by lia. rewrite Forall_app. auto.
Qed.

Lemma s_insert_does s n pos k : static_whole C s n -> pos <= n -> 0 < k -> n + k <= C ->
  does (s_insert C pos k) s (fun s' ev => static_whole C s' (n + k) /\ (Forall good ev <-> k = 1)).
Proof.
  intros SW HP H0 HC. pose proof SW as (W & R & B & V). pose proof W as (E & H & RR & L). unfold s_insert.
  apply does_size; [now rewrite E|]. rewrite E. cbn [snd].
  apply does_check; [apply Nat.ltb_ge; lia|].
  destruct (Nat.eqb_spec k 0); [lia|].
  assert (X : pos + (n - pos) = n) by lia.
  apply does_assoc. eapply does_bind.
  - apply (grow_loop_does k H0 (n - pos) 0 pos s).
    + intros j J. rewrite <- B. apply (whole_at s n j W). lia.
    + intros j J. apply (whole_out s n 0 j W). lia.
    + intros j J. exists C. rewrite R. split; [reflexivity|lia].
  - cbn beta. intros s1 e1 ((P1 & P2 & P3 & P4 & P5) & G).
    eapply does_bind; [apply does_end|]. cbn beta. intros s2 e2 [-> ->]. cbn [app].
    rewrite X in *.
    eapply does_weaken.
    + apply (construct_n_does k 0 pos). intros j J. cbn. split.
      * exists C. cbn. rewrite P1, R. split; [reflexivity|lia].
      * rewrite P5. cases.
    + cbn beta. intros s3 e3 ((Q1 & Q2 & Q3 & Q4 & Q5) & G1 & G2). cbn [live room vb ve vcap fst snd] in *. split.
      * apply static_is; try congruence. intros x y. rewrite Q5. unfold filled. rewrite P5, L, B.
        cases.
      * rewrite Forall_app, G2; [|congruence|congruence| |lia].
        -- split; [intros [_ ?]; lia|]. intros ->. split; [|lia]. apply G; [reflexivity|exact B|].
           destruct (whole_but s n W) as [X1 X2]. split; [exact X1|]. intros j J _. now apply X2.
        -- intros j J N. rewrite P5, L, B. cases.
Qed.

Definition runs (m : M st unit) (s : st) (Q : st -> list view -> Prop) : Prop :=
  exists s' ev, (m s = Ok tt s' \/ m s = Throw OutOfRange s') /\ seen s' = seen s ++ ev /\ Q s' ev.
Lemma does_runs m s Q : does m s Q -> runs m s Q.
Proof. intros (s' & ev & A & H). exists s', ev. auto. Qed.
Lemma runs_weaken m s (Q R : st -> list view -> Prop) : runs m s Q -> (forall s' ev, Q s' ev -> R s' ev) -> runs m s R.
Proof. intros (s1 & e1 & E1 & S1 & Q1) H. exists s1, e1. auto. Qed.

Lemma s_insert_runs s n pos k : static_whole C s n -> pos <= n -> 0 < k ->
  runs (s_insert C pos k) s (fun s' ev =>
    static_whole C s' (if n + k <=? C then n + k else n) /\ (Forall good ev <-> (k =? 1) || (C <? n + k) = true)).
Proof.
  intros SW HP H0. destruct (Nat.leb_spec (n + k) C) as [HC|HC].
  - apply does_runs. eapply does_weaken; [apply (s_insert_does s n pos k SW HP H0 HC)|]. cbn beta.
    intros s' ev [A ->]. split; [exact A|]. rewrite (proj2 (Nat.ltb_ge _ _) HC), orb_false_r. symmetry. apply Nat.eqb_eq.
  - exists s, []. split; [right|split].
    + unfold s_insert, bind, size. destruct SW as ((E & _) & _). rewrite E. cbn [fst snd]. rewrite Nat.eqb_refl.
      now rewrite (proj2 (Nat.ltb_lt _ _) HC).
    + now rewrite app_nil_r.
    + split; [exact SW|]. rewrite (proj2 (Nat.ltb_lt _ _) HC), orb_true_r. split; auto.
Qed.

Lemma s_assign_runs s n k : static_whole C s n ->
  runs (s_assign C k) s (fun s' ev =>
    static_whole C s' (if k <=? C then k else 0) /\ (Forall good ev <-> (n <=? 1) = true)).
Proof.
  intros SW. unfold s_assign. destruct (s_clear_does s n SW) as (s1 & e1 & E1 & S1 & W1 & G1).
  destruct (Nat.leb_spec k C) as [HC|HC].
  - apply does_runs. eapply does_bind; [apply (s_clear_does s n SW)|]. cbn beta. intros s2 e2 [W2 G2].
    apply does_check; [apply Nat.ltb_ge; lia|].
    eapply does_weaken; [apply (s_pushes_does k s2 0 W2); lia|]. cbn beta. intros s3 e3 [W3 G3].
    rewrite Forall_app, Nat.leb_le. split; [exact W3|tauto].
  - exists s1, e1. rewrite Nat.leb_le. split; [right|auto]. unfold bind. rewrite E1. unfold throw_if.
    now rewrite (proj2 (Nat.ltb_lt _ _) HC).
Qed.

Lemma s_resize_runs s n k : static_whole C s n ->
  runs (s_resize C k) s (fun s' ev => static_whole C s' (if k <=? C then k else n) /\ Forall good ev).
Proof.
  intros SW. unfold s_resize. pose proof SW as ((E & H & _) & _). destruct (Nat.leb_spec k C) as [HC|HC].
  - apply does_runs. apply does_check; [apply Nat.ltb_ge; lia|].
    apply does_size; [now rewrite E|]. rewrite E. cbn [snd].
    eapply does_bind; [apply (s_pops_does (n - k) s n SW); lia|]. cbn beta. intros s2 e2 [W2 G2].
    eapply does_weaken; [apply (s_pushes_does (k - n) s2 _ W2)|].
    + destruct SW as (_ & _ & _ & V). lia.
    + cbn beta. intros s3 e3 [W3 G3]. rewrite Forall_app. split; [|auto].
      now replace k with (n - (n - k) + (k - n)) by lia.
  - exists s, []. split; [right|split].
    + unfold bind, throw_if. now rewrite (proj2 (Nat.ltb_lt _ _) HC).
    + now rewrite app_nil_r.
    + auto.
Qed.

Theorem static_call s n o : static_whole C s n -> proper n o ->
  runs (s_call C o) s (fun s' ev =>
    static_whole C s' (static_next C n o) /\ (Forall good ev <-> static_quiet C n o = true)).
Proof.
  intros SW [HV HP]. pose proof SW as (W & R & B & V). pose proof W as (E & H & _ & _).
  destruct o as [u| |pos u|pos k u|pos l|pos|first last|k|k u| |k u|l]; cbn [s_call static_quiet] in *;
    unfold static_next; cbn [new_size]; cbn [vin] in HV.
  - destruct (Nat.leb_spec (S n) C) as [HC|HC].
    + apply does_runs. eapply does_weaken; [apply (s_push_does s n SW); lia|]. cbn beta. intros s' ev [A G]. split; tauto.
    + exists s, []. split; [right|split].
      * unfold s_push, bind, size. rewrite E. cbn [fst snd]. rewrite Nat.eqb_refl.
        now rewrite (proj2 (Nat.leb_le C n)) by lia.
      * now rewrite app_nil_r.
      * split; [exact SW|]. split; auto.
  - rewrite (proj2 (Nat.leb_le (n - 1) C)) by lia. apply does_runs.
    eapply does_weaken; [apply (s_pop_does s n SW HP)|]. cbn beta. intros s' ev [A G]. split; tauto.
  - eapply runs_weaken; [apply (s_insert_runs s n pos 1 SW HV); lia|]. cbn beta. rewrite Nat.add_1_r. intros s' ev [A G].
    cbn in G. split; assumption.
  - exact (s_insert_runs s n pos k SW HV HP).
  - exact (s_insert_runs s n pos (length l) SW HV HP).
  - rewrite (proj2 (Nat.leb_le (n - 1) C)) by lia. apply does_runs.
    eapply does_weaken; [apply (s_shrink_does s n pos 1 SW); lia|]. cbn beta. intros s' ev [A G]. split; [exact A|].
    rewrite G. split; auto.
  - rewrite (proj2 (Nat.leb_le (n - (last - first)) C)) by lia. apply does_runs.
    eapply does_weaken; [apply (s_shrink_does s n first (last - first) SW); lia|]. cbn beta. intros s' ev [A G].
    split; [exact A|]. rewrite G, Nat.eqb_eq. lia.
  - eapply runs_weaken; [apply (s_resize_runs s n k SW)|]. cbn beta. intros s' ev [A G]. split; tauto.
  - eapply runs_weaken; [apply (s_resize_runs s n k SW)|]. cbn beta. intros s' ev [A G]. split; tauto.
  - apply does_runs. eapply does_weaken; [apply (s_clear_does s n SW)|]. cbn beta. intros s' ev [A G].
    cbn. rewrite G, Nat.leb_le. tauto.
  - exact (s_assign_runs s n k SW).
  - exact (s_assign_runs s n (length l) SW).
Qed.
End Static.
