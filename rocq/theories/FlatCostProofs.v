(** Proofs about how many comparisons flat_map and flat_set make. *)
From Coq Require Import List Arith Bool Lia.
From Verif Require Import Base SeqSpec VecCommon FlatModel FlatExnModel FlatCostSpec.
Import ListNotations.

Section Costs.
Context {C CT : Type}.
(** [m] is [m0] with at most [n] comparisons, from states in [I]. *)
Definition costs {A} (I : CT -> Prop) (n : nat) (m : M (flat (C * nat) CT) A)
  (m0 : M (flat C CT) A) : Prop :=
  forall c x t, I t -> exists d, d <= n /\ with_count x d (m0 (mkFlat c t)) (m (mkFlat (c, x) t)).
Definition any_ (t : CT) : Prop := True.

Lemma costs_bind : forall A B (I : CT -> Prop) n n' (m : M (flat (C * nat) CT) A) m0
  (k : A -> M (flat (C * nat) CT) B) k0,
  costs I n m m0 -> (forall a, costs any_ n' (k a) (k0 a)) ->
  costs I (n + n') (bind m k) (bind m0 k0).
Proof.
  intros A B I n n' m m0 k k0 H K c x t It. destruct (H c x t It) as (d & D & W). unfold bind.
  unfold with_count in W. destruct (m0 (mkFlat c t)) as [a s|e s| |].
  - rewrite W. destruct (K a (fcmp s) (x + d) (fcont s) Logic.I) as (d' & D' & W').
    exists (d + d'). split; [lia|]. destruct s as [sc st]. cbn in *.
    unfold with_count in *. rewrite <- Nat.add_assoc in W'. exact W'.
  - exists d. split; [lia|]. rewrite W. reflexivity.
  - exists 0. split; [lia|]. rewrite W. reflexivity.
  - exists 0. split; [lia|]. rewrite W. reflexivity.
Qed.

Lemma costs_le : forall A I n n' (m : M (flat (C * nat) CT) A) m0,
  n <= n' -> costs I n m m0 -> costs I n' m m0.
Proof.
  intros A I n n' m m0 L H c x t It. destruct (H c x t It) as (d & D & W).
  exists d. split; [lia|exact W].
Qed.
Lemma costs_weaken : forall A (I : CT -> Prop) n (m : M (flat (C * nat) CT) A) m0,
  costs any_ n m m0 -> costs I n m m0.
Proof. intros A I n m m0 H c x t _. apply H. exact Logic.I. Qed.
Lemma costs_if : forall A I n (b : bool) (m k : M (flat (C * nat) CT) A) m0 k0,
  costs I n m m0 -> costs I n k k0 -> costs I n (if b then m else k) (if b then m0 else k0).
Proof. intros. now destruct b. Qed.
Lemma costs_ret : forall A I (a : A), costs I 0 (ret a) (ret a).
Proof. intros A I a c x t _. exists 0. split; [lia|]. cbn. now rewrite Nat.add_0_r. Qed.
Lemma costs_throw : forall A I e, costs I 0 (@throw _ A e) (throw e).
Proof. intros A I e c x t _. exists 0. split; [lia|]. cbn. now rewrite Nat.add_0_r. Qed.
Lemma costs_ub : forall A I, costs I 0 (@ub _ A) ub.
Proof. intros A I c x t _. exists 0. split; [lia|]. reflexivity. Qed.
Lemma costs_diverge : forall A I, costs I 0 (@diverge _ A) diverge.
Proof. intros A I c x t _. exists 0. split; [lia|]. reflexivity. Qed.
Lemma costs_onc : forall A I (m : M CT A), costs I 0 (onc m) (onc m).
Proof.
  intros A I m c x t _. exists 0. split; [lia|]. unfold onc. cbn.
  destruct (m t); cbn; now rewrite ?Nat.add_0_r.
Qed.

Context {E K Q : Type}.
Variable key : E -> K.
Variable kq : C -> K -> Q -> bool.
Variable qk : C -> Q -> K -> bool.
Variable cont : container E CT.

Lemma costs_size : forall I, costs I 0 (size_ cont) (size_ cont).
Proof. intros I c x t _. exists 0. split; [lia|]. cbn. now rewrite Nat.add_0_r. Qed.

Lemma counted_step : forall A A' B (f : C -> A -> A' -> bool) a b (k : bool -> M (flat (C * nat) CT) B) c x t,
  bind (counted f a b) k (mkFlat (c, x) t) = k (f c a b) (mkFlat (c, S x) t).
Proof. reflexivity. Qed.
Lemma cmp_step : forall B (k : C -> M (flat C CT) B) c t, bind cmp_ k (mkFlat c t) = k c (mkFlat c t).
Proof. reflexivity. Qed.

(** A comparison. *)
Lemma costs_compare : forall A A' B I n (f : C -> A -> A' -> bool) a b
  (k : bool -> M (flat (C * nat) CT) B) k0,
  (forall r, costs any_ n (k r) (k0 r)) ->
  costs I (1 + n) (bind (counted f a b) k) (bind cmp_ (fun c => k0 (f c a b))).
Proof.
  intros A A' B I n f a b k k0 H c x t _.
  destruct (H (f c a b) c (S x) t Logic.I) as (d & D & W). exists (1 + d). split; [lia|].
  unfold bind, counted, cmp_. cbn [fst snd fcmp fcont].
  unfold with_count in *. replace (x + (1 + d)) with (S x + d) by lia. exact W.
Qed.

Lemma half_small : forall n k, n <> 0 -> n < 2 ^ k ->
  exists k', k = S k' /\ n / 2 < 2 ^ k' /\ n - n / 2 - 1 < 2 ^ k'.
Proof.
  intros n [|k] N L; [cbn in L; lia|]. exists k. split; [reflexivity|].
  rewrite Nat.pow_succ_r' in L. pose proof (Nat.div_mod n 2 ltac:(lia)).
  pose proof (Nat.mod_upper_bound n 2 ltac:(lia)). lia.
Qed.

Lemma lower_costs : forall q k fuel first len, len < 2 ^ k ->
  costs any_ k (lower_loop_x key (counted kq) cont q fuel first len)
        (lower_loop key kq cont q fuel first len).
Proof.
  intros q. induction k as [|k IH]; intros fuel first len L.
  - assert (len = 0) by (cbn in L; lia). subst. destruct fuel; apply costs_ret.
  - destruct fuel as [|fuel]; cbn [lower_loop_x lower_loop].
    + destruct (len =? 0); [apply costs_le with 0; [lia|apply costs_ret]|].
      apply costs_le with 0; [lia|apply costs_diverge].
    + destruct (len =? 0) eqn:E0; [apply costs_le with 0; [lia|apply costs_ret]|].
      apply Nat.eqb_neq in E0. destruct (half_small _ _ E0 L) as (k' & X & L1 & L2).
      injection X as <-.
      change (S k) with (0 + (1 + k)). apply costs_bind; [apply costs_onc|]. intros e.
      apply (costs_compare _ _ _ any_ k kq (key e) q
               (fun b => if b then lower_loop_x key (counted kq) cont q fuel (first + len / 2 + 1) (len - len / 2 - 1)
                         else lower_loop_x key (counted kq) cont q fuel first (len / 2))
               (fun b => if b then lower_loop key kq cont q fuel (first + len / 2 + 1) (len - len / 2 - 1)
                         else lower_loop key kq cont q fuel first (len / 2))).
      intros [|]; apply IH; assumption.
Qed.

Lemma upper_costs : forall q k fuel first len, len < 2 ^ k ->
  costs any_ k (upper_loop_x key (counted qk) cont q fuel first len)
        (upper_loop key qk cont q fuel first len).
Proof.
  intros q. induction k as [|k IH]; intros fuel first len L.
  - assert (len = 0) by (cbn in L; lia). subst. destruct fuel; apply costs_ret.
  - destruct fuel as [|fuel]; cbn [upper_loop_x upper_loop].
    + destruct (len =? 0); [apply costs_le with 0; [lia|apply costs_ret]|].
      apply costs_le with 0; [lia|apply costs_diverge].
    + destruct (len =? 0) eqn:E0; [apply costs_le with 0; [lia|apply costs_ret]|].
      apply Nat.eqb_neq in E0. destruct (half_small _ _ E0 L) as (k' & X & L1 & L2).
      injection X as <-.
      change (S k) with (0 + (1 + k)). apply costs_bind; [apply costs_onc|]. intros e.
      apply (costs_compare _ _ _ any_ k qk q (key e)
               (fun b => if b then upper_loop_x key (counted qk) cont q fuel first (len / 2)
                         else upper_loop_x key (counted qk) cont q fuel (first + len / 2 + 1) (len - len / 2 - 1))
               (fun b => if b then upper_loop key qk cont q fuel first (len / 2)
                         else upper_loop key qk cont q fuel (first + len / 2 + 1) (len - len / 2 - 1))).
      intros [|]; apply IH; assumption.
Qed.

Lemma equal_costs : forall q k fuel first len, len < 2 ^ k ->
  costs any_ (2 * k) (equal_loop_x key (counted kq) (counted qk) cont q fuel first len)
        (equal_loop key kq qk cont q fuel first len).
Proof.
  intros q. induction k as [|k IH]; intros fuel first len L.
  - assert (len = 0) by (cbn in L; lia). subst. destruct fuel; apply costs_ret.
  - destruct fuel as [|fuel]; cbn [equal_loop_x equal_loop].
    + destruct (len =? 0); [apply costs_le with 0; [lia|apply costs_ret]|].
      apply costs_le with 0; [lia|apply costs_diverge].
    + destruct (len =? 0) eqn:E0; [apply costs_le with 0; [lia|apply costs_ret]|].
      apply Nat.eqb_neq in E0. destruct (half_small _ _ E0 L) as (k' & X & L1 & L2).
      injection X as <-.
      replace (2 * S k) with (0 + (1 + (1 + (k + k)))) by lia.
      apply costs_bind; [apply costs_onc|]. intros e.
      set (last := bind (lower_loop_x key (counted kq) cont q (len / 2) first (len / 2)) (fun lo =>
                   bind (upper_loop_x key (counted qk) cont q (first + len - (first + len / 2 + 1))
                           (first + len / 2 + 1) (first + len - (first + len / 2 + 1))) (fun hi =>
                   ret (lo, hi)))).
      set (last0 := bind (lower_loop key kq cont q (len / 2) first (len / 2)) (fun lo =>
                   bind (upper_loop key qk cont q (first + len - (first + len / 2 + 1))
                           (first + len / 2 + 1) (first + len - (first + len / 2 + 1))) (fun hi =>
                   ret (lo, hi)))).
      assert (Hl : costs any_ (k + k) last last0).
      { apply costs_bind; [now apply lower_costs|]. intros lo.
        rewrite <- (Nat.add_0_r k) at 1. apply costs_bind; [|intros hi; apply costs_ret].
        apply upper_costs. lia. }
      intros c x t _. rewrite counted_step, cmp_step.
      destruct (kq c (key e) q) eqn:Eq1.
      * destruct (IH fuel (first + len / 2 + 1) (len - len / 2 - 1) L2 c (S x) t Logic.I) as (d & D & W).
        exists (1 + d). split; [lia|]. unfold with_count in *.
        replace (x + (1 + d)) with (S x + d) by lia. exact W.
      * rewrite counted_step. fold last last0.
        destruct (qk c q (key e)) eqn:Eq2.
        -- destruct (IH fuel first (len / 2) L1 c (S (S x)) t Logic.I) as (d & D & W).
           exists (2 + d). split; [lia|]. unfold with_count in *.
           replace (x + (2 + d)) with (S (S x) + d) by lia. exact W.
        -- destruct (Hl c (S (S x)) t Logic.I) as (d & D & W).
           exists (2 + d). split; [lia|]. unfold with_count in *.
           replace (x + (2 + d)) with (S (S x) + d) by lia. exact W.
Qed.

(** Starting with the size. *)
Lemma costs_sized : forall A (m : nat -> M (flat (C * nat) CT) A) m0 k n,
  (forall s, s < 2 ^ k -> costs any_ n (m s) (m0 s)) ->
  costs (fun t => c_size cont t < 2 ^ k) n (bind (size_ cont) m) (bind (size_ cont) m0).
Proof. intros A m m0 k n H c x t It. exact (H _ It c x t Logic.I). Qed.

Variable k : nat.
Let small (t : CT) : Prop := c_size cont t < 2 ^ k.

Lemma lower_bound_costs : forall q,
  costs small k (lower_bound_x key (counted kq) cont q) (lower_bound key kq cont q).
Proof. intros q. apply costs_sized. intros s L. now apply lower_costs. Qed.
Lemma upper_bound_costs : forall q,
  costs small k (upper_bound_x key (counted qk) cont q) (upper_bound key qk cont q).
Proof. intros q. apply costs_sized. intros s L. now apply upper_costs. Qed.
Lemma equal_range_costs : forall q,
  costs small (2 * k) (equal_range_x key (counted kq) (counted qk) cont q)
    (equal_range key kq qk cont q).
Proof. intros q. apply costs_sized. intros s L. now apply equal_costs. Qed.

Lemma present_costs : forall q i,
  costs any_ 1 (present_at_x key (counted qk) cont q i) (present_at key qk cont q i).
Proof.
  intros q i. change 1 with (0 + 1). apply costs_bind; [apply costs_size|]. intros s.
  destruct (i =? s); [apply costs_le with 0; [lia|apply costs_ret]|].
  change 1 with (0 + (1 + 0)). apply costs_bind; [apply costs_onc|]. intros e.
  apply (costs_compare _ _ _ any_ 0 qk q (key e) (fun b => ret (negb b)) (fun b => ret (negb b))).
  intros r. apply costs_ret.
Qed.

Lemma find_costs : forall q,
  costs small (k + 1) (find_x key (counted kq) (counted qk) cont q) (find key kq qk cont q).
Proof.
  intros q. apply costs_bind; [apply lower_bound_costs|]. intros i.
  change 1 with (1 + 0). apply costs_bind; [apply present_costs|]. intros b.
  apply costs_if; [apply costs_ret|apply costs_size].
Qed.

Lemma emplace_costs : forall i e, costs any_ 0 (emplace_at cont i e) (emplace_at cont i e).
Proof.
  intros i e. change 0 with (0 + 0). apply costs_bind; [apply costs_onc|].
  intros [p|]; [apply costs_ret|apply costs_ub].
Qed.
Lemma erase_costs : forall i, costs any_ 0 (erase cont i) (erase (C := C) cont i).
Proof.
  intros i. change 0 with (0 + 0). apply costs_bind; [apply costs_onc|].
  intros [p|]; [apply costs_ret|apply costs_ub].
Qed.

Lemma insert_costs : forall q e,
  costs small (k + 1) (insert_x key (counted kq) (counted qk) cont q e) (insert key kq qk cont q e).
Proof.
  intros q e. apply costs_bind; [apply lower_bound_costs|]. intros i.
  change 1 with (1 + 0). apply costs_bind; [apply present_costs|]. intros b.
  apply costs_if; [apply costs_ret|].
  change 0 with (0 + 0). apply costs_bind; [apply emplace_costs|]. intros p. apply costs_ret.
Qed.

Lemma count_costs : forall q,
  costs small (k + 1) (count_x key (counted kq) (counted qk) cont q) (count key kq qk cont q).
Proof.
  intros q. rewrite <- (Nat.add_0_r (k + 1)). apply costs_bind; [apply find_costs|]. intros i.
  change 0 with (0 + 0). apply costs_bind; [apply costs_size|]. intros n. apply costs_ret.
Qed.

Lemma erase_key_costs : forall q,
  costs small (k + 1) (erase_key_x key (counted kq) (counted qk) cont q) (erase_key key kq qk cont q).
Proof.
  intros q. rewrite <- (Nat.add_0_r (k + 1)). apply costs_bind; [apply find_costs|]. intros i.
  change 0 with (0 + 0). apply costs_bind; [apply costs_size|]. intros n.
  apply costs_if; [apply costs_ret|].
  change 0 with (0 + 0). apply costs_bind; [apply erase_costs|]. intros _. apply costs_ret.
Qed.

Lemma costs_then : forall A B I n (m : M (flat (C * nat) CT) A) m0 (f : A -> B),
  costs I n m m0 -> costs I n (bind m (fun a => ret (f a))) (bind m0 (fun a => ret (f a))).
Proof.
  intros. rewrite <- (Nat.add_0_r n). apply costs_bind; [assumption|]. intros a. apply costs_ret.
Qed.

Lemma fcall_costs : forall T asq (o : fop E Q),
  costs small (comparisons k o) (fcall_x (T := T) key (counted kq) (counted qk) cont asq o)
    (fcall key kq qk cont asq o).
Proof.
  intros T asq o. destruct o; cbn [fcall_x fcall comparisons]; apply costs_then.
  - apply insert_costs.
  - apply insert_costs.
  - apply insert_costs.
  - apply costs_weaken, erase_costs.
  - apply erase_key_costs.
  - apply find_costs.
  - apply count_costs.
  - apply lower_bound_costs.
  - apply upper_bound_costs.
  - apply equal_range_costs.
  - apply costs_then. apply costs_onc.
  - apply costs_size.
Qed.
End Costs.

Section Map.
Context {K T Q C CT : Type}.
Variable kq : C -> K -> Q -> bool.
Variable qk : C -> Q -> K -> bool.
Variable cont : container (K * T) CT.
Variable conv : Q -> K.
Variable dflt : T.
Variable asq : K -> Q.
Variable k : nat.
Let small (t : CT) : Prop := c_size cont t < 2 ^ k.

Lemma index_costs : forall q,
  costs small (k + 1) (index_x (counted kq) (counted qk) cont conv dflt q) (index kq qk cont conv dflt q).
Proof.
  intros q. apply costs_bind; [apply lower_bound_costs|]. intros i.
  change 1 with (1 + 0). apply costs_bind; [apply present_costs|]. intros b.
  apply costs_if; [apply costs_ret|apply emplace_costs].
Qed.
Lemma at_costs : forall q,
  costs small (k + 1) (at_x (counted kq) (counted qk) cont q) (at_ kq qk cont q).
Proof.
  intros q. apply costs_bind; [apply lower_bound_costs|]. intros i.
  change 1 with (1 + 0). apply costs_bind; [apply present_costs|]. intros b.
  apply costs_if; [apply costs_ret|apply costs_throw].
Qed.
Lemma second_costs : forall I i, costs (C := C) I 0 (second cont i) (second cont i).
Proof. intros I i. apply costs_then, costs_onc. Qed.
Lemma set_second_costs : forall I i v, costs (C := C) I 0 (set_second cont i v) (set_second cont i v).
Proof.
  intros I i v. change 0 with (0 + 0). apply costs_bind; [apply costs_onc|]. intros e. apply costs_onc.
Qed.

Lemma mcall_costs : forall o,
  costs small (mcomparisons k o) (mcall_x (counted kq) (counted qk) cont conv dflt asq o)
    (mcall kq qk cont conv dflt asq o).
Proof.
  intros [o|q|q v|q|q v|pos v]; cbn [mcall_x mcall mcomparisons].
  - apply fcall_costs.
  - rewrite <- (Nat.add_0_r (k + 1)). apply costs_bind; [apply index_costs|]. intros i.
    apply costs_then, second_costs.
  - rewrite <- (Nat.add_0_r (k + 1)). apply costs_bind; [apply index_costs|]. intros i.
    apply costs_then, set_second_costs.
  - rewrite <- (Nat.add_0_r (k + 1)). apply costs_bind; [apply at_costs|]. intros i.
    apply costs_then, second_costs.
  - rewrite <- (Nat.add_0_r (k + 1)). apply costs_bind; [apply at_costs|]. intros i.
    apply costs_then, set_second_costs.
  - apply costs_then, set_second_costs.
Qed.
End Map.
