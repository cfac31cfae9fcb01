(** Proofs about VecViewModel.v. *)
From Coq Require Import List Arith Bool Lia.
From Verif Require Import Base SeqSpec PtrSpec VecViewModel VecViewSpec.
From Verif Require PtrModel PtrSmallProofs.
Import ListNotations.

(** * Runs with what is seen *)
Definition does (m : M st unit) (s : st) (Q : st -> list view -> Prop) : Prop :=
  exists s' ev, m s = Ok tt s' /\ seen s' = seen s ++ ev /\ Q s' ev.

Lemma does_ret s (Q : st -> list view -> Prop) : Q s [] -> does (ret tt) s Q.
Proof. intros H. exists s, []. rewrite app_nil_r. auto. Qed.
Lemma does_bind m m' s Q R :
  does m s Q -> (forall s' ev, Q s' ev -> does m' s' (fun s'' ev' => R s'' (ev ++ ev'))) -> does (m ;;; m') s R.
Proof.
  intros (s1 & e1 & E1 & S1 & Q1) H. destruct (H _ _ Q1) as (s2 & e2 & E2 & S2 & Q2).
  exists s2, (e1 ++ e2). unfold bind. rewrite E1, E2, S2, S1, app_assoc. auto.
Qed.
Lemma does_assoc (m1 m2 m3 : M st unit) s Q : does (m1 ;;; (m2 ;;; m3)) s Q -> does ((m1 ;;; m2) ;;; m3) s Q.
Proof.
  intros (s' & ev & A & H). exists s', ev. split; [|exact H]. revert A. unfold bind. now destruct (m1 s).
Qed.
Lemma does_weaken m s (Q R : st -> list view -> Prop) : does m s Q -> (forall s' ev, Q s' ev -> R s' ev) -> does m s R.
Proof. intros (s1 & e1 & E1 & S1 & Q1) H. exists s1, e1. auto. Qed.

(** Nothing but the lives changed, and they are those of L. *)
Definition only (s s' : st) (L : nat -> nat -> bool) : Prop :=
  room s' = room s /\ vb s' = vb s /\ ve s' = ve s /\ vcap s' = vcap s /\ forall x y, live s' x y = L x y.

Lemma setl_eq f p b : setl f p b (fst p) (snd p) = b.
Proof. unfold setl. now rewrite !Nat.eqb_refl. Qed.
Lemma setl_ne f p b x y : p <> (x, y) -> setl f p b x y = f x y.
Proof.
  intros N. unfold setl. destruct p as [a i]; cbn. destruct (Nat.eqb_spec x a), (Nat.eqb_spec y i); cbn; auto. congruence.
Qed.

Definition has_room (s : st) (a i : nat) : Prop := exists c, nth_error (room s) a = Some (Some c) /\ i < c.

Lemma does_construct s a i :
  has_room s a i -> live s a i = false ->
  does (construct (a, i)) s (fun s' ev => s' = after s (a, i) true /\ ev = [mkView (a, i) (vb s) (ve s) (live s)]).
Proof.
  intros (c & R & H) L. exists (after s (a, i) true), [mkView (a, i) (vb s) (ve s) (live s)].
  unfold construct. cbn [fst snd]. rewrite R, L. rewrite (proj2 (Nat.ltb_lt i c) H). cbn. auto.
Qed.
Lemma does_destroy s a i :
  has_room s a i -> live s a i = true ->
  does (destroy (a, i)) s (fun s' ev => s' = after s (a, i) false /\ ev = [mkView (a, i) (vb s) (ve s) (live s)]).
Proof.
  intros (c & R & H) L. exists (after s (a, i) false), [mkView (a, i) (vb s) (ve s) (live s)].
  unfold destroy. cbn [fst snd]. rewrite R, L. rewrite (proj2 (Nat.ltb_lt i c) H). cbn. auto.
Qed.
Lemma does_move s a' i' a i :
  has_room s a' i' -> live s a' i' = false -> live s a i = true ->
  does (move_to (a', i') (a, i)) s
    (fun s' ev => s' = after s (a', i') true /\ ev = [mkView (a', i') (vb s) (ve s) (live s)]).
Proof.
  intros R L1 L2. destruct (does_construct s a' i' R L1) as (s1 & e1 & E & H).
  exists s1, e1. unfold move_to. cbn [fst snd]. rewrite L2. auto.
Qed.

Ltac cases :=
  repeat (match goal with
  | |- context [?a =? ?b] => destruct (Nat.eqb_spec a b)
  | |- context [?a <? ?b] => destruct (Nat.ltb_spec a b)
  | |- context [?a <=? ?b] => destruct (Nat.leb_spec a b)
  end; cbn [andb orb negb]; rewrite ?andb_true_r, ?andb_false_r, ?orb_true_r, ?orb_false_r;
  cbn [andb orb negb]; rewrite ?andb_true_r, ?andb_false_r, ?orb_true_r, ?orb_false_r; subst;
  try reflexivity; try (exfalso; lia)).

(** Everything counted is alive, but perhaps one. *)
Definition but (s : st) (x : option nat) : Prop :=
  fst (ve s) = vb s /\ forall j, j < snd (ve s) -> x <> Some j -> live s (vb s) j = true.

Lemma good_at s x a i L :
  but s x -> (x = None \/ a = vb s /\ x = Some i) -> (forall p q, L p q = live s p q) ->
  good (mkView (a, i) (vb s) (ve s) L).
Proof.
  intros [E B] H HL. split; [exact E|]. cbn. intros j J. rewrite HL.
  destruct H as [->|[-> ->]].
  - right. now apply B.
  - destruct (Nat.eq_dec i j) as [->|N]; [now left|]. right. apply B; congruence.
Qed.
Lemma bad_at s j a i L :
  j < snd (ve s) -> live s (vb s) j = false -> (a, i) <> (vb s, j) -> (forall p q, L p q = live s p q) ->
  ~ good (mkView (a, i) (vb s) (ve s) L).
Proof.
  intros J D N HL [_ G]. destruct (G j J) as [E|E]; cbn in E; [congruence|]. rewrite HL in E. congruence.
Qed.

Definition cleared (f : nat -> nat -> bool) (a i k : nat) : nat -> nat -> bool :=
  fun x y => f x y && negb ((x =? a) && (i <=? y) && (y <? i + k)).
Definition filled (f : nat -> nat -> bool) (a i k : nat) : nat -> nat -> bool :=
  fun x y => f x y || (x =? a) && (i <=? y) && (y <? i + k).

Lemma nb {P : Prop} (b : bool) : (b = true <-> P) -> b = false -> ~ P.
Proof. intros [H1 H2] E p. rewrite (H2 p) in E. discriminate. Qed.

(** Destroying: two or more of the vector's own elements are too many. *)
Lemma destroy_n_does k : forall a i s,
  (forall j, i <= j < i + k -> has_room s a j /\ live s a j = true) ->
  does (destroy_n a i k) s (fun s' ev =>
    only s s' (cleared (live s) a i k) /\ length ev = k /\
    (vb s = a -> but s None -> i + k <= snd (ve s) -> (Forall good ev <-> k <= 1)) /\
    (forall j, j < snd (ve s) -> live s (vb s) j = false -> 0 < k -> vb s <> a \/ j < i -> ~ Forall good ev)).
Proof.
  induction k as [|k IH]; intros a i s H; cbn [destroy_n].
  - apply does_ret. split; [|split; [|split]].
    + split; [|split; [|split; [|split]]]; auto. intros x y. unfold cleared. cases.
    + reflexivity.
    + intros. split; [lia|constructor].
    + lia.
  - destruct (H i ltac:(lia)) as [R L].
    eapply does_bind; [exact (does_destroy s a i R L)|]. cbn beta. intros s1 e1 [-> ->].
    eapply does_weaken.
    + apply (IH a (S i) (after s (a, i) false)). intros j J. destruct (H j ltac:(lia)) as [(c & R1 & R2) L'].
      split; [exists c; auto|]. cbn. rewrite setl_ne by (intros E; injection E; lia). exact L'.
    + cbn beta. intros s2 e2 ((P1 & P2 & P3 & P4 & P5) & G1 & G2 & G3).
      cbn [after vb ve vcap room live] in *.
      split; [|split; [|split]].
      * split; [|split; [|split; [|split]]]; auto. intros x y. rewrite P5. unfold cleared, setl. cbn [fst snd].
        cases.
      * cbn. now rewrite G1.
      * intros E B K. split.
        -- intros F. destruct k as [|k]; [lia|]. exfalso. inversion F as [|? ? _ F2]; subst.
           refine (G3 i _ _ ltac:(lia) _ F2); [lia| |right; lia].
           exact (setl_eq (live s) (vb s, i) false).
        -- intros Hk. assert (k = 0) as -> by lia. destruct e2; [|discriminate G1].
           constructor; [apply (good_at s None); auto|constructor].
      * intros j J D _ HN F. inversion F as [|? ? F1 F2]; subst. revert F1. apply (bad_at s j); auto.
        intros E. injection E. lia.
Qed.

(** Constructing: two or more which are counted already are too many. *)
Lemma construct_n_does k : forall a i s,
  (forall j, i <= j < i + k -> has_room s a j /\ live s a j = false) ->
  does (construct_n a i k) s (fun s' ev =>
    only s s' (filled (live s) a i k) /\ length ev = k /\
    (vb s = a -> fst (ve s) = vb s -> (forall j, j < snd (ve s) -> j < i \/ i + k <= j -> live s a j = true) ->
     i + k <= snd (ve s) -> (Forall good ev <-> k <= 1))).
Proof.
  induction k as [|k IH]; intros a i s H; cbn [construct_n].
  - apply does_ret. split; [|split].
    + split; [|split; [|split; [|split]]]; auto. intros x y. unfold filled. cases.
    + reflexivity.
    + intros. split; [lia|constructor].
  - destruct (H i ltac:(lia)) as [R L].
    eapply does_bind; [exact (does_construct s a i R L)|]. cbn beta. intros s1 e1 [-> ->].
    eapply does_weaken.
    + apply (IH a (S i) (after s (a, i) true)). intros j J. destruct (H j ltac:(lia)) as [(c & R1 & R2) L'].
      split; [exists c; auto|]. cbn. rewrite setl_ne by (intros E; injection E; lia). exact L'.
    + cbn beta. intros s2 e2 ((P1 & P2 & P3 & P4 & P5) & G1 & G2).
      cbn [after vb ve vcap room live] in *.
      split; [|split].
      * split; [|split; [|split; [|split]]]; auto. intros x y. rewrite P5. unfold filled, setl. cbn [fst snd].
        cases.
      * cbn. now rewrite G1.
      * intros E E' B K. split.
        -- intros F. destruct k as [|k]; [lia|]. exfalso. inversion F as [|? ? F1 _]; subst.
           destruct (H (S i) ltac:(lia)) as [_ L1]. revert F1. apply (bad_at s (S i)); auto; [lia|].
           intros X. injection X. lia.
        -- intros Hk. assert (k = 0) as -> by lia. destruct e2; [|discriminate G1].
           constructor; [|constructor]. apply (good_at s (Some i)); auto. split; [exact E'|].
           intros j J N. rewrite E. apply B; [exact J|].
           destruct (Nat.eq_dec j i); [congruence|lia].
Qed.

(** Moving to a buffer which is not the vector's yet: nobody notices. *)
Lemma move_n_does k : forall a i a' i' s,
  a <> a' ->
  (forall j, i <= j < i + k -> live s a j = true) ->
  (forall j, i' <= j < i' + k -> has_room s a' j /\ live s a' j = false) ->
  does (move_n a i a' i' k) s (fun s' ev =>
    only s s' (filled (live s) a' i' k) /\ (vb s <> a' -> but s None -> Forall good ev)).
Proof.
  induction k as [|k IH]; intros a i a' i' s N H H'; cbn [move_n].
  - apply does_ret. split; [|constructor].
    split; [|split; [|split; [|split]]]; auto. intros x y. unfold filled. cases.
  - destruct (H' i' ltac:(lia)) as [R L].
    eapply does_bind; [exact (does_move s a' i' a i R L (H i ltac:(lia)))|]. cbn beta. intros s1 e1 [-> ->].
    eapply does_weaken.
    + apply (IH a (S i) a' (S i') (after s (a', i') true) N).
      * intros j J. cbn. rewrite setl_ne by congruence. apply H. lia.
      * intros j J. destruct (H' j ltac:(lia)) as [(c & R1 & R2) L'].
        split; [exists c; auto|]. cbn. rewrite setl_ne by (intros E; injection E; lia). exact L'.
    + cbn beta. intros s2 e2 ((P1 & P2 & P3 & P4 & P5) & G1). cbn [after vb ve vcap room live] in *. split.
      * split; [|split; [|split; [|split]]]; auto. intros x y. rewrite P5. unfold filled, setl. cbn [fst snd].
        cases.
      * intros NB B. constructor; [apply (good_at s None); auto|]. apply G1; [exact NB|].
        destruct B as [B1 B2]. split; [exact B1|]. cbn. intros j J _. rewrite setl_ne by congruence. apply B2; congruence.
Qed.

(** Moving and destroying: two or more are too many, and one if another one is gone already. *)
Lemma relocate_n_does k : forall a i a' i' s,
  a <> a' ->
  (forall j, i <= j < i + k -> has_room s a j /\ live s a j = true) ->
  (forall j, i' <= j < i' + k -> has_room s a' j /\ live s a' j = false) ->
  does (relocate_n a i a' i' k) s (fun s' ev =>
    only s s' (filled (cleared (live s) a i k) a' i' k) /\
    (forall j, j < snd (ve s) -> live s (vb s) j = false -> 0 < k -> vb s = a -> ~ Forall good ev) /\
    (vb s = a -> i + k <= snd (ve s) -> 2 <= k -> ~ Forall good ev)).
Proof.
  induction k as [|k IH]; intros a i a' i' s N H H'; cbn [relocate_n].
  - apply does_ret. split; [|split; lia].
    split; [|split; [|split; [|split]]]; auto. intros x y. unfold filled, cleared.
    cases.
  - destruct (H' i' ltac:(lia)) as [R L]. destruct (H i ltac:(lia)) as [R2 L2].
    eapply does_bind; [exact (does_move s a' i' a i R L L2)|]. cbn beta. intros s1 e1 [-> ->].
    eapply does_bind.
    { apply (does_destroy (after s (a', i') true) a i).
      - destruct R2 as (c & R2 & R3). exists c. auto.
      - cbn. rewrite setl_ne by congruence. exact L2. }
    cbn beta. intros s1 e1 [-> ->].
    eapply does_weaken.
    + apply (IH a (S i) a' (S i') (after (after s (a', i') true) (a, i) false) N).
      * intros j J. destruct (H j ltac:(lia)) as [(c & R1 & R3) L'].
        split; [exists c; auto|]. cbn. rewrite !setl_ne by (intros E; injection E; lia). exact L'.
      * intros j J. destruct (H' j ltac:(lia)) as [(c & R1 & R3) L'].
        split; [exists c; auto|]. cbn. rewrite !setl_ne by (intros E; injection E; lia). exact L'.
    + cbn beta. intros s2 e2 ((P1 & P2 & P3 & P4 & P5) & G1 & G2). cbn [after vb ve vcap room live] in *.
      split; [|split].
      * split; [|split; [|split; [|split]]]; auto. intros x y. rewrite P5. unfold filled, cleared, setl. cbn [fst snd].
        cases.
      * intros j J D _ E F. inversion F as [|? ? F1 _]; subst. revert F1. apply (bad_at s j); auto. congruence.
      * intros E K1 K2 F. cbn in F. inversion F as [|? ? _ F1]; subst. inversion F1 as [|? ? _ F2]; subst.
        refine (G1 i ltac:(lia) _ ltac:(lia) eq_refl F2). exact (setl_eq _ (vb s, i) false).
Qed.

(** The gap moves up: with room for one, it is all which is missing. *)
Lemma grow_loop_does num : 0 < num -> forall k a pos s,
  (forall j, pos <= j < pos + k -> live s a j = true) ->
  (forall j, pos + k <= j < pos + k + num -> live s a j = false) ->
  (forall j, j < pos + k + num -> has_room s a j) ->
  does (grow_loop a pos num k) s (fun s' ev =>
    only s s' (fun x y => if (x =? a) && (pos <=? y) && (y <? pos + k + num) then pos + num <=? y else live s x y) /\
    (num = 1 -> vb s = a -> but s (Some (pos + k)) -> Forall good ev)).
Proof.
  intros Hn. induction k as [|k IH]; intros a pos s H1 H2 H3; cbn [grow_loop].
  - apply does_ret. split; [|constructor].
    split; [|split; [|split; [|split]]]; auto. intros x y.
    cases. now rewrite H2 by lia.
  - eapply does_bind.
    { apply (does_move s a (pos + k + num) a (pos + k)); [apply H3; lia|apply H2; lia|apply H1; lia]. }
    cbn beta. intros s1 e1 [-> ->].
    eapply does_bind.
    { apply (does_destroy (after s (a, pos + k + num) true) a (pos + k)).
      - destruct (H3 (pos + k) ltac:(lia)) as (c & R2 & R3). exists c. auto.
      - cbn. rewrite setl_ne by (intros E; injection E; lia). apply H1. lia. }
    cbn beta. intros s1 e1 [-> ->].
    eapply does_weaken.
    + apply (IH a pos (after (after s (a, pos + k + num) true) (a, pos + k) false)).
      * intros j J. cbn. rewrite !setl_ne by (intros E; injection E; lia). apply H1. lia.
      * intros j J. cbn. destruct (Nat.eq_dec j (pos + k)) as [->|NJ].
        -- exact (setl_eq _ (a, pos + k) false).
        -- rewrite !setl_ne by (intros E; injection E; lia). apply H2. lia.
      * intros j J. destruct (H3 j ltac:(lia)) as (c & R2 & R3). exists c. auto.
    + cbn beta. intros s2 e2 ((P1 & P2 & P3 & P4 & P5) & G1). cbn [after vb ve vcap room live] in *. split.
      * split; [|split; [|split; [|split]]]; auto. intros x y. rewrite P5. unfold setl. cbn [fst snd].
        cases.
      * intros -> E [B1 B2]. subst a.
        assert (BM : but (after s (vb s, pos + k + 1) true) (Some (pos + k))).
        { split; [exact B1|]. cbn. intros j J N. destruct (Nat.eq_dec j (pos + k + 1)) as [->|NJ].
          - exact (setl_eq _ (vb s, pos + k + 1) true).
          - rewrite setl_ne by (intros E; injection E; lia). apply B2; [exact J|]. intros E; injection E; lia. }
        constructor; [|constructor].
        -- apply (good_at s (Some (pos + S k))); [split; auto| |auto]. right. split; [reflexivity|]. f_equal. lia.
        -- apply (good_at (after s (vb s, pos + k + 1) true) (Some (pos + k))); auto.
        -- apply G1; auto. split; [exact B1|]. cbn. intros j J N.
           rewrite setl_ne by congruence. destruct BM as [_ BM]. apply BM; assumption.
Qed.

(** Closing a gap: at every moment only the element which is destroyed or built is missing. *)
Lemma shrink_loop_does num : 0 < num -> forall k a p s,
  (forall j, p <= j < p + num + k -> has_room s a j /\ live s a j = true) ->
  does (shrink_loop a p num k) s (fun s' ev =>
    only s s' (live s) /\ (vb s = a -> but s None -> Forall good ev)).
Proof.
  intros Hn. induction k as [|k IH]; intros a p s H; cbn [shrink_loop].
  - apply does_ret. split; [|constructor]. split; [|split; [|split; [|split]]]; auto.
  - destruct (H p ltac:(lia)) as [R L]. destruct (H (p + num) ltac:(lia)) as [_ L2].
    eapply does_bind; [exact (does_destroy s a p R L)|]. cbn beta. intros s1 e1 [-> ->].
    eapply does_bind.
    { apply (does_move (after s (a, p) false) a p a (p + num)).
      - destruct R as (c & R2 & R3). exists c. auto.
      - exact (setl_eq _ (a, p) false).
      - cbn. rewrite setl_ne by (intros E; injection E; lia). exact L2. }
    cbn beta. intros s1 e1 [-> ->].
    assert (SL : forall x y, setl (setl (live s) (a, p) false) (a, p) true x y = live s x y).
    { intros x y. unfold setl. cbn [fst snd]. cases. now rewrite L. }
    eapply does_weaken.
    + apply (IH a (S p) (after (after s (a, p) false) (a, p) true)).
      intros j J. destruct (H j ltac:(lia)) as [(c & R1 & R3) L'].
      split; [exists c; auto|]. cbn. rewrite SL. exact L'.
    + cbn beta. intros s2 e2 ((P1 & P2 & P3 & P4 & P5) & G1). cbn [after vb ve vcap room live] in *. split.
      * split; [|split; [|split; [|split]]]; auto. intros x y. rewrite P5. apply SL.
      * intros E [B1 B2]. subst a. constructor; [|constructor].
        -- apply (good_at s None); [split|left|]; auto.
        -- apply (good_at (after s (vb s, p) false) (Some p)); auto. split; [exact B1|]. cbn. intros j J N.
           rewrite setl_ne by congruence. apply B2; [exact J|discriminate].
        -- apply G1; auto. split; [exact B1|]. cbn. intros j J N. rewrite SL. apply B2; auto.
Qed.

(** * Steps which are not seen *)
Lemma does_size (f : nat -> M st unit) s Q :
  fst (ve s) = vb s -> does (f (snd (ve s))) s Q -> does (let* n := size in f n) s Q.
Proof. intros E (s' & ev & H). exists s', ev. unfold bind, size. rewrite E, Nat.eqb_refl. exact H. Qed.
Lemma does_get (f : st -> M st unit) s Q : does (f s) s Q -> does (let* s' := get in f s') s Q.
Proof. auto. Qed.
Lemma does_check (b : bool) e m s Q : b = false -> does m s Q -> does (throw_if b e ;;; m) s Q.
Proof. intros -> (s' & ev & H). exists s', ev. exact H. Qed.
Lemma does_end e s : does (set_end e) s (fun s' ev =>
  s' = mkSt (live s) (room s) (vb s) e (vcap s) (seen s) /\ ev = []).
Proof. eexists _, []. split; [reflexivity|]. cbn. rewrite app_nil_r. auto. Qed.
Lemma does_buf b e c s : does (set_buf b e c) s (fun s' ev =>
  s' = mkSt (live s) (room s) b e c (seen s) /\ ev = []).
Proof. eexists _, []. split; [reflexivity|]. cbn. rewrite app_nil_r. auto. Qed.

Lemma whole_but s n : whole s n -> but s None.
Proof.
  intros (E & _ & _ & L). split; [now rewrite E|]. rewrite E. cbn. intros j J _. rewrite L.
  rewrite Nat.eqb_refl, (proj2 (Nat.ltb_lt j n)); auto.
Qed.
Lemma whole_at s n j : whole s n -> j < n -> has_room s (vb s) j /\ live s (vb s) j = true.
Proof.
  intros (E & H & R & L) J. split; [exists (vcap s); split; [exact R|lia]|].
  now rewrite L, Nat.eqb_refl, (proj2 (Nat.ltb_lt j n)).
Qed.
Lemma whole_out s n a j : whole s n -> a <> vb s \/ n <= j -> live s a j = false.
Proof. intros (_ & _ & _ & L) H. rewrite L. cases. Qed.
