(** Proofs about exceptions while the elements of a static_vector move. *)
From Coq Require Import List Arith NArith ZArith Bool Lia.
From Verif Require Import Base SeqSpec VecCommon StaticVectorModel StaticVectorSpec StaticVectorProofs
  StaticMoveModel StaticMoveSpec.
Import ListNotations.

Section Proofs.
Context {V : Type}.
Variable moved : V -> V.
Variable dflt : V.
Variable Capacity : nat.
Hypothesis Hcap63 : (N.of_nat Capacity < two63)%N.

Notation sv := (@sv V).
Notation slot := (slot V).
Notation repr := (repr Capacity).

Definition broken {A} (r : res sv A) : Prop :=
  exists s', r = Throw ElemThrow s' /\ clear Capacity s' = UB.

(** ** Programs which agree *)
Lemma bind_both {S A B} (m m' : M S A) (k k' : A -> M S B) s s' :
  m s = m' s' -> (forall a t, k a t = k' a t) -> bind m k s = bind m' k' s'.
Proof. intros H K. unfold bind. rewrite H. destruct (m' s'); auto. Qed.

Lemma throw_if_step {S B} c e (k : unit -> M S B) s :
  bind (throw_if c e) k s = if c then Throw e s else k tt s.
Proof. unfold bind, throw_if. destruct c; reflexivity. Qed.

(** ** All moves succeed *)
Lemma xmove_to_next q p d n k :
  xmove_to moved q p (mkSv d n (Some (S k))) =
  (let* v := move_from moved p in construct q (MoveOf v)) (mkSv d n (Some k)).
Proof.
  unfold xmove_to, bind, read, move_from; cbn [data].
  destruct (nth_error d p) as [[|v]|] eqn:E; try reflexivity.
  cbn [tick fuse with_fuse data]. rewrite E. reflexivity.
Qed.
Lemma xmove_to_none q p d n :
  xmove_to moved q p (mkSv d n None) =
  (let* v := move_from moved p in construct q (MoveOf v)) (mkSv d n None).
Proof.
  unfold xmove_to, bind, read, move_from; cbn [data].
  destruct (nth_error d p) as [[|v]|] eqn:E; try reflexivity.
  cbn [tick fuse with_fuse data]. rewrite E. reflexivity.
Qed.

(** The effect of a move does not depend on the fuse. *)
Lemma move_cases q p d n :
  (exists d', forall f, (let* v := move_from moved p in construct q (MoveOf v)) (mkSv d n f) =
     Ok tt (mkSv d' n f)) \/
  (forall f, (let* v := move_from moved p in construct q (MoveOf v)) (mkSv d n f) = UB).
Proof.
  unfold bind, move_from; cbn [data].
  destruct (nth_error d p) as [[|v]|] eqn:E; try (right; reflexivity).
  cbn [construct]. unfold begin_life, with_data; cbn [data size fuse].
  destruct (nth_error (upd d p (Live (moved v))) q) as [[|w]|]; try (right; reflexivity).
  left. eexists. reflexivity.
Qed.
Lemma destroy_cases p (d : list slot) n :
  (exists d', forall f, destroy p (mkSv d n f) = Ok tt (mkSv d' n f)) \/
  (forall f, destroy p (mkSv d n f) = UB).
Proof.
  unfold destroy; cbn [data]. destruct (nth_error d p) as [[|v]|]; try (right; reflexivity).
  left. eexists. reflexivity.
Qed.

Lemma bind_assoc {S A B C} (m : M S A) (f : A -> M S B) (g : B -> M S C) s :
  bind (bind m f) g s = bind m (fun a => bind (f a) g) s.
Proof. unfold bind. destruct (m s); reflexivity. Qed.

Lemma grow_loop_all position by_ m : forall d n j,
  xgrow_loop moved position by_ m (mkSv d n (Some (m + j))) =
  grow_loop moved position by_ m (mkSv d n (Some j)).
Proof.
  induction m as [|m IH]; intros d n j; [reflexivity|].
  cbn [xgrow_loop grow_loop Nat.add]. unfold bind at 1. rewrite xmove_to_next.
  match goal with |- _ = ?r => transitivity (
    ((let* v := move_from moved (position + m) in construct (position + m + by_) (MoveOf v)) ;;;
     destroy (position + m) ;;; grow_loop moved position by_ m) (mkSv d n (Some j)));
    [|rewrite bind_assoc; reflexivity] end.
  unfold bind at 3.
  destruct (move_cases (position + m + by_) (position + m) d n) as [(d' & E)|E]; rewrite !E; [|reflexivity].
  unfold bind. destruct (destroy_cases (position + m) d' n) as [(d'' & E')|E']; rewrite !E'; [|reflexivity].
  apply IH.
Qed.
Lemma grow_loop_none position by_ m : forall d n,
  xgrow_loop moved position by_ m (mkSv d n None) = grow_loop moved position by_ m (mkSv d n None).
Proof.
  induction m as [|m IH]; intros d n; [reflexivity|].
  cbn [xgrow_loop grow_loop]. unfold bind at 1. rewrite xmove_to_none.
  match goal with |- _ = ?r => transitivity (
    ((let* v := move_from moved (position + m) in construct (position + m + by_) (MoveOf v)) ;;;
     destroy (position + m) ;;; grow_loop moved position by_ m) (mkSv d n None));
    [|rewrite bind_assoc; reflexivity] end.
  unfold bind at 3.
  destruct (move_cases (position + m + by_) (position + m) d n) as [(d' & E)|E]; rewrite !E; [|reflexivity].
  unfold bind. destruct (destroy_cases (position + m) d' n) as [(d'' & E')|E']; rewrite !E'; [|reflexivity].
  apply IH.
Qed.

Lemma shrink_loop_all fuel : forall p np m d n j,
  xshrink_loop moved fuel p np (np + m) (mkSv d n (Some (m + j))) =
  shrink_loop moved fuel p np (np + m) (mkSv d n (Some j)).
Proof.
  clear Hcap63.
  induction fuel as [|fuel IH]; intros p np m d n j; cbn [xshrink_loop shrink_loop];
    (destruct m as [|m];
     [replace (np =? np + 0) with true by (symmetry; apply Nat.eqb_eq; lia); reflexivity|]);
    replace (np =? np + S m) with false by (symmetry; apply Nat.eqb_neq; lia); [reflexivity|].
  unfold bind at 1 3.
  destruct (destroy_cases p d n) as [(d' & E')|E']; rewrite !E'; [|reflexivity].
  unfold bind at 1. cbn [Nat.add]. rewrite xmove_to_next.
  match goal with |- _ = ?r => transitivity (
    ((let* v := move_from moved np in construct p (MoveOf v)) ;;;
     shrink_loop moved fuel (S p) (S np) (np + S m)) (mkSv d' n (Some j)));
    [|rewrite bind_assoc; reflexivity] end.
  unfold bind at 2.
  destruct (move_cases p np d' n) as [(d'' & E)|E]; rewrite !E; [|reflexivity].
  replace (np + S m) with (S np + m) by lia. apply IH.
Qed.
Lemma shrink_loop_none fuel : forall p np e d n,
  xshrink_loop moved fuel p np e (mkSv d n None) = shrink_loop moved fuel p np e (mkSv d n None).
Proof.
  induction fuel as [|fuel IH]; intros p np e d n; cbn [xshrink_loop shrink_loop];
    (destruct (np =? e); [reflexivity|]); [reflexivity|].
  unfold bind at 1 3.
  destruct (destroy_cases p d n) as [(d' & E')|E']; rewrite !E'; [|reflexivity].
  unfold bind at 1. rewrite xmove_to_none.
  match goal with |- _ = ?r => transitivity (
    ((let* v := move_from moved np in construct p (MoveOf v)) ;;;
     shrink_loop moved fuel (S p) (S np) e) (mkSv d' n None));
    [|rewrite bind_assoc; reflexivity] end.
  unfold bind at 2.
  destruct (move_cases p np d' n) as [(d'' & E)|E]; rewrite !E; [|reflexivity].
  apply IH.
Qed.

Lemma grow_at_none position by_ d n :
  xgrow_at moved Capacity position by_ (mkSv d n None) = grow_at moved Capacity position by_ (mkSv d n None).
Proof.
  unfold xgrow_at, grow_at. rewrite !bind_get. cbn [size].
  rewrite !throw_if_step. destruct (_ <? _)%N; [reflexivity|]. destruct (by_ =? 0)%N; [reflexivity|].
  apply bind_both; [|reflexivity]. apply grow_loop_none.
Qed.
Lemma shrink_at_none position num d n :
  xshrink_at moved Capacity position num (mkSv d n None) =
  shrink_at moved Capacity position num (mkSv d n None).
Proof.
  unfold xshrink_at, shrink_at. rewrite !bind_get. cbn [size].
  rewrite !throw_if_step. destruct (_ <? _)%N; [reflexivity|]. destruct (_ =? 0); [reflexivity|].
  apply bind_both; [|reflexivity]. apply shrink_loop_none.
Qed.

(** pop_back never moves. *)
Lemma pop_back_same s : xpop_back moved Capacity s = pop_back moved Capacity s.
Proof.
  clear Hcap63.
  unfold xpop_back, pop_back. rewrite !bind_get. apply bind_both; [|reflexivity].
  unfold xshrink_at, shrink_at. rewrite !bind_get.
  rewrite !throw_if_step. change (N.to_nat 1) with 1.
  destruct (N.of_nat (size s) <? 1)%N eqn:E0; [reflexivity|]. apply N.ltb_ge in E0.
  destruct (size s - 1 =? 0); [reflexivity|].
  apply bind_both; [|reflexivity]. replace (size s - 1 + 1) with (size s) by lia.
  cbn [xshrink_loop shrink_loop]. rewrite Nat.eqb_refl. reflexivity.
Qed.
Lemma pop_while_same fuel n : forall s, xpop_while moved Capacity fuel n s = pop_while moved Capacity fuel n s.
Proof.
  induction fuel as [|fuel IH]; intros s; cbn [xpop_while pop_while]; rewrite !bind_get; [reflexivity|].
  destruct (n <? size s); [|reflexivity]. unfold bind. rewrite pop_back_same.
  destruct (pop_back moved Capacity s); auto.
Qed.
Lemma resize_same n x s : xresize_val moved Capacity n x s = resize_val moved Capacity n x s.
Proof.
  unfold xresize_val, resize_val. rewrite !throw_if_step. destruct (_ <? _); [reflexivity|].
  unfold bind. rewrite pop_while_same. reflexivity.
Qed.

Lemma no_throw_same o (s : sv) :
  fuse s = None -> xcall moved dflt Capacity o s = call moved dflt Capacity o s.
Proof.
  destruct s as [d n f]; cbn [fuse]; intros ->.
  destruct o as [v| |pos v|pos k v|pos l|pos|a b|k|k v| |k v|l]; cbn [xcall call]; try reflexivity.
  - apply bind_both; [apply pop_back_same|reflexivity].
  - apply bind_both; [|reflexivity]. apply bind_both; [apply grow_at_none|reflexivity].
  - apply bind_both; [|reflexivity]. apply bind_both; [apply grow_at_none|reflexivity].
  - apply bind_both; [|reflexivity]. apply bind_both; [apply grow_at_none|reflexivity].
  - apply bind_both; [|reflexivity]. apply shrink_at_none.
  - apply bind_both; [|reflexivity]. apply shrink_at_none.
  - apply bind_both; [|reflexivity]. apply resize_same.
  - apply bind_both; [|reflexivity]. apply resize_same.
Qed.

(** ** One of the moves throws *)
Lemma destroy_range_ub fuel : forall p e (d : list slot) n f i,
  p <= i < e -> e - p <= fuel -> (forall v, nth_error d i <> Some (Live v)) ->
  destroy_range fuel p e (mkSv d n f) = UB.
Proof.
  induction fuel as [|fuel IH]; intros p e d n f i Hi Hf Hn; [lia|]. cbn [destroy_range].
  replace (p =? e) with false by (symmetry; apply Nat.eqb_neq; lia).
  unfold bind, destroy; cbn [data]. destruct (nth_error d p) as [[|v]|] eqn:E; try reflexivity.
  assert (p <> i) by (intros ->; exact (Hn v E)).
  apply (IH (S p) e _ n f i); [lia|lia|].
  cbn [data]. rewrite nth_error_upd_neq by auto. exact Hn.
Qed.
Lemma clear_ub (d : list slot) n f i : i < n -> n <= Capacity -> (forall v, nth_error d i <> Some (Live v)) ->
  clear Capacity (mkSv d n f) = UB.
Proof.
  intros Hi Hn H. unfold clear. rewrite bind_get. cbn [size].
  unfold bind. rewrite (destroy_range_ub _ 0 n d n f i); auto; lia.
Qed.

Lemma xmove_to_now q p (d : list slot) n v :
  nth_error d p = Some (Live v) ->
  xmove_to moved q p (mkSv d n (Some 0)) = Throw ElemThrow (mkSv d n None).
Proof. intros E. unfold xmove_to, bind, read; cbn [data]. rewrite E. reflexivity. Qed.

Lemma move_ok q p d n f v :
  nth_error d p = Some (Live v) -> nth_error d q = Some Raw ->
  (let* v := move_from moved p in construct q (MoveOf v)) (mkSv d n f) =
  Ok tt (mkSv (upd (upd d p (Live (moved v))) q (Live v)) n f).
Proof.
  intros Ep Eq. unfold bind, move_from; cbn [data]. rewrite Ep. cbn [construct].
  unfold begin_life, with_data; cbn [data size fuse].
  rewrite nth_error_upd_neq by (intros ->; congruence). rewrite Eq. reflexivity.
Qed.
Lemma destroy_ok p (d : list slot) n f v :
  nth_error d p = Some (Live v) -> destroy p (mkSv d n f) = Ok tt (mkSv (upd d p Raw) n f).
Proof. intros E. unfold destroy; cbn [data]. rewrite E. reflexivity. Qed.
Lemma xmove_to_ok q p d n k v :
  nth_error d p = Some (Live v) -> nth_error d q = Some Raw ->
  xmove_to moved q p (mkSv d n (Some (S k))) =
  Ok tt (mkSv (upd (upd d p (Live (moved v))) q (Live v)) n (Some k)).
Proof. intros Ep Eq. rewrite xmove_to_next. now apply move_ok. Qed.

Lemma grow_loop_throw position by_ m : forall d n k,
  0 < by_ ->
  (forall i, position <= i < position + m -> exists v, nth_error d i = Some (Live v)) ->
  (forall i, position + m <= i < position + m + by_ -> nth_error d i = Some Raw) ->
  k < m ->
  (k = 0 -> xgrow_loop moved position by_ m (mkSv d n (Some k)) = Throw ElemThrow (mkSv d n None)) /\
  (0 < k -> exists d', xgrow_loop moved position by_ m (mkSv d n (Some k)) = Throw ElemThrow (mkSv d' n None) /\
     nth_error d' (position + m - k) = Some Raw).
Proof.
  induction m as [|m IH]; intros d n k Hb HL HR Hk; [lia|].
  destruct (HL (position + m)) as (v & Ev); [lia|].
  assert (Eq : nth_error d (position + m + by_) = Some Raw) by (apply HR; lia).
  cbn [xgrow_loop]. split.
  - intros ->. erewrite bind_throw; [reflexivity|]. now apply xmove_to_now with v.
  - intros Hp. destruct k as [|k]; [lia|].
    erewrite bind_ok by (apply xmove_to_ok; eauto).
    assert (Ep : nth_error (upd (upd d (position + m) (Live (moved v))) (position + m + by_) (Live v)) (position + m)
                 = Some (Live (moved v))).
    { rewrite nth_error_upd_neq by lia. apply nth_error_upd_eq. apply nth_error_Some. congruence. }
    erewrite bind_ok by (eapply destroy_ok; exact Ep).
    set (d2 := upd _ (position + m) Raw).
    assert (E2 : nth_error d2 (position + m) = Some Raw).
    { unfold d2. apply nth_error_upd_eq. apply nth_error_Some. congruence. }
    destruct (IH d2 n k Hb) as (I0 & I1); [| |lia|].
    + intros i Hi. unfold d2. rewrite !nth_error_upd_neq by lia. apply HL. lia.
    + intros i Hi. destruct (Nat.eq_dec i (position + m)) as [->|Ni]; [exact E2|].
      unfold d2. rewrite !nth_error_upd_neq by lia. apply HR. lia.
    + destruct k as [|k].
      * exists d2. rewrite I0 by reflexivity. split; [reflexivity|].
        now replace (position + S m - 1) with (position + m) by lia.
      * destruct I1 as (d' & E' & R'); [lia|]. exists d'. split; [exact E'|].
        now replace (position + S m - S (S k)) with (position + m - S k) by lia.
Qed.

Lemma shrink_loop_throw fuel : forall p num m d n k,
  0 < num -> m <= fuel ->
  (forall i, p <= i < p + num + m -> exists v, nth_error d i = Some (Live v)) ->
  k < m ->
  exists d', xshrink_loop moved fuel p (p + num) (p + num + m) (mkSv d n (Some k)) =
    Throw ElemThrow (mkSv d' n None) /\ nth_error d' (p + k) = Some Raw.
Proof.
  induction fuel as [|fuel IH]; intros p num m d n k Hn Hf HL Hk; [lia|]. cbn [xshrink_loop].
  replace (p + num =? p + num + m) with false by (symmetry; apply Nat.eqb_neq; lia).
  destruct (HL p) as (v & Ev); [lia|]. destruct (HL (p + num)) as (w & Ew); [lia|].
  erewrite bind_ok by (eapply destroy_ok; exact Ev).
  assert (Ep : nth_error (upd d p Raw) p = Some Raw).
  { apply nth_error_upd_eq. apply nth_error_Some. congruence. }
  assert (Ewp : nth_error (upd d p Raw) (p + num) = Some (Live w)).
  { rewrite nth_error_upd_neq by lia. exact Ew. }
  destruct k as [|k].
  - erewrite bind_throw by (eapply xmove_to_now; exact Ewp). eexists. split; [reflexivity|].
    now rewrite Nat.add_0_r.
  - erewrite bind_ok by (eapply xmove_to_ok; eauto).
    replace (S (p + num)) with (S p + num) by lia.
    replace (p + num + m) with (S p + num + (m - 1)) by lia.
    destruct (IH (S p) num (m - 1)
      (upd (upd (upd d p Raw) (p + num) (Live (moved w))) p (Live w)) n k) as (d' & E' & R');
      [lia|lia| |lia|].
    + intros i Hi. rewrite nth_error_upd_neq by lia.
      destruct (Nat.eq_dec i (p + num)) as [->|Ni].
      * exists (moved w). apply nth_error_upd_eq. apply nth_error_Some. congruence.
      * rewrite !nth_error_upd_neq by lia. apply HL. lia.
    + exists d'. split; [exact E'|]. now replace (p + S k) with (S p + k) by lia.
Qed.

(** ** The calls *)
Lemma repr_live (xs : list V) f i : i < length xs -> exists v, nth_error (data (repr xs f)) i = Some (Live v).
Proof.
  intros Hi. unfold StaticVectorProofs.repr; cbn [data]. rewrite nth_error_app1 by now rewrite map_length.
  rewrite nth_error_map. destruct (nth_error xs i) eqn:E; [eexists; reflexivity|].
  apply nth_error_None in E. lia.
Qed.
Lemma repr_raw (xs : list V) f i : length xs <= i < Capacity -> nth_error (data (repr xs f)) i = Some Raw.
Proof.
  intros Hi. unfold StaticVectorProofs.repr; cbn [data].
  rewrite nth_error_app2 by (rewrite map_length; lia). rewrite map_length.
  apply nth_error_repeat. lia.
Qed.

Lemma grow_at_all xs pos by_ j :
  pos <= length xs -> 0 < by_ -> length xs + by_ <= Capacity ->
  xgrow_at moved Capacity pos (N.of_nat by_) (repr xs (Some (length xs - pos + j))) =
  grow_at moved Capacity pos (N.of_nat by_) (repr xs (Some j)).
Proof.
  intros Hp Hb Hf. unfold xgrow_at, grow_at. rewrite !bind_get, !size_repr.
  rewrite !throw_if_step. destruct (_ <? _)%N eqn:E0.
  - exfalso. apply N.ltb_lt in E0. pose proof (cap_lt _ Hcap63).
    rewrite <- Nat2N.inj_add, N.mod_small in E0 by lia. lia.
  - replace (N.of_nat by_ =? 0)%N with false by (symmetry; apply N.eqb_neq; lia).
    apply bind_both; [|reflexivity]. unfold StaticVectorProofs.repr. apply grow_loop_all.
Qed.

Lemma grow_at_throw xs pos by_ k :
  pos <= length xs -> 0 < by_ -> length xs + by_ <= Capacity -> k < length xs - pos ->
  (k = 0 -> xgrow_at moved Capacity pos (N.of_nat by_) (repr xs (Some k)) = Throw ElemThrow (repr xs None)) /\
  (0 < k -> broken (xgrow_at moved Capacity pos (N.of_nat by_) (repr xs (Some k)))).
Proof.
  intros Hp Hb Hf Hk. unfold xgrow_at. rewrite !bind_get, !size_repr.
  pose proof (cap_lt _ Hcap63) as Hc.
  assert (E0 : (N.of_nat Capacity <? (N.of_nat (length xs) + N.of_nat by_) mod two64)%N = false).
  { apply N.ltb_ge. rewrite <- Nat2N.inj_add, N.mod_small by lia. lia. }
  rewrite !throw_if_step. rewrite E0.
  replace (N.of_nat by_ =? 0)%N with false by (symmetry; apply N.eqb_neq; lia).
  rewrite Nat2N.id.
  destruct (grow_loop_throw pos by_ (length xs - pos) (data (repr xs None)) (length xs) k Hb) as (I0 & I1).
  - intros i Hi. apply repr_live. lia.
  - intros i Hi. apply repr_raw. lia.
  - exact Hk.
  - split.
    + intros Hz. erewrite bind_throw; [reflexivity|]. exact (I0 Hz).
    + intros Hz. destruct (I1 Hz) as (d' & E' & R').
      exists (mkSv d' (length xs) None). split.
      * erewrite bind_throw; [reflexivity|]. exact E'.
      * apply (clear_ub d' (length xs) None (pos + (length xs - pos) - k)); [lia|lia|].
        intros v. congruence.
Qed.

Lemma shrink_at_all xs pos num j :
  pos + num <= length xs -> length xs <= Capacity ->
  xshrink_at moved Capacity pos (N.of_nat num) (repr xs (Some (length xs - (pos + num) + j))) =
  shrink_at moved Capacity pos (N.of_nat num) (repr xs (Some j)).
Proof.
  intros Hp Hc. unfold xshrink_at, shrink_at. rewrite !bind_get, !size_repr. rewrite Nat2N.id.
  replace (N.of_nat (length xs) <? N.of_nat num)%N with false by (symmetry; apply N.ltb_ge; lia).
  rewrite !throw_if_step.
  destruct (length xs - num =? 0) eqn:E.
  - apply Nat.eqb_eq in E. replace (length xs - (pos + num) + j) with j by lia. reflexivity.
  - apply bind_both; [|reflexivity].
    pose proof (shrink_loop_all (S Capacity) pos (pos + num) (length xs - (pos + num)) (data (repr xs None))
      (length xs) j) as H.
    replace (pos + num + (length xs - (pos + num))) with (length xs) in H by lia. exact H.
Qed.

Lemma shrink_at_throw xs pos num k :
  0 < num -> pos + num <= length xs -> length xs <= Capacity -> k < length xs - (pos + num) ->
  broken (xshrink_at moved Capacity pos (N.of_nat num) (repr xs (Some k))).
Proof.
  intros Hn Hp Hc Hk. unfold xshrink_at. rewrite !bind_get, !size_repr. rewrite Nat2N.id.
  replace (N.of_nat (length xs) <? N.of_nat num)%N with false by (symmetry; apply N.ltb_ge; lia).
  rewrite !throw_if_step.
  replace (length xs - num =? 0) with false by (symmetry; apply Nat.eqb_neq; lia).
  destruct (shrink_loop_throw (S Capacity) pos num (length xs - (pos + num)) (data (repr xs None)) (length xs) k)
    as (d' & E' & R'); [lia|lia| |lia|].
  - intros i Hi. apply repr_live. lia.
  - replace (pos + num + (length xs - (pos + num))) with (length xs) in E' by lia.
    exists (mkSv d' (length xs) None). split.
    + erewrite bind_throw; [reflexivity|]. exact E'.
    + apply (clear_ub d' (length xs) None (pos + k)); [lia|lia|]. intros v. congruence.
Qed.

Lemma broken_bind {A B} (m : M sv A) (k : A -> M sv B) s : broken (m s) -> broken (bind m k s).
Proof. intros (s' & E & H). exists s'. split; [|exact H]. unfold bind. now rewrite E. Qed.
Lemma throw_bind {A B} (m : M sv A) (k : A -> M sv B) s s' :
  m s = Throw ElemThrow s' -> bind m k s = Throw ElemThrow s'.
Proof. intros E. unfold bind. now rewrite E. Qed.

Lemma insert_fact o s xs k :
  represents Capacity s xs -> in_range xs o -> inserts o -> length xs + added o <= Capacity ->
  fuse s = Some k -> k < moving xs o ->
  (k = 0 -> xcall moved dflt Capacity o s = Throw ElemThrow (with_fuse None s)) /\
  (0 < k -> broken (xcall moved dflt Capacity o s)).
Proof.
  intros R Hr Hi Hf Hk Hm. pose proof (represents_inv _ Hcap63 _ _ R) as E. rewrite Hk in E. subst s.
  destruct R as (_ & _ & Hc & _).
  destruct o as [v| |pos v|pos n v|pos l|pos|a b|n|n v| |n v|l]; cbn [inserts] in Hi; try contradiction;
    cbn [added moving in_range xcall] in *.
  - destruct (grow_at_throw xs pos 1 k) as (I0 & I1); try lia.
    split; intros Hz; [apply throw_bind, throw_bind, (I0 Hz)|apply broken_bind, broken_bind, (I1 Hz)].
  - destruct (n =? 0) eqn:En; [lia|]. apply Nat.eqb_neq in En.
    destruct (grow_at_throw xs pos n k) as (I0 & I1); try lia.
    split; intros Hz; [apply throw_bind, throw_bind, (I0 Hz)|apply broken_bind, broken_bind, (I1 Hz)].
  - destruct (length l =? 0) eqn:En; [lia|]. apply Nat.eqb_neq in En.
    destruct (grow_at_throw xs pos (length l) k) as (I0 & I1); try lia.
    split; intros Hz; [apply throw_bind, throw_bind, (I0 Hz)|apply broken_bind, broken_bind, (I1 Hz)].
Qed.

Lemma range_count a b : a <= b -> b <= Capacity ->
  ((N.of_nat b + two64 - N.of_nat a) mod two64)%N = N.of_nat (b - a).
Proof.
  intros Hab Hb. pose proof (cap_lt _ Hcap63).
  replace (N.of_nat b + two64 - N.of_nat a)%N with (N.of_nat (b - a) + 1 * two64)%N by lia.
  rewrite N.mod_add by discriminate. apply N.mod_small. lia.
Qed.

Lemma erase_fact o s xs k :
  represents Capacity s xs -> call_ok xs o -> erases o -> fuse s = Some k -> k < moving xs o ->
  broken (xcall moved dflt Capacity o s).
Proof.
  intros R (Hr & Ho) Hi Hk Hm. pose proof (represents_inv _ Hcap63 _ _ R) as E. rewrite Hk in E. subst s.
  destruct R as (_ & _ & Hc & _).
  destruct o as [v| |pos v|pos n v|pos l|pos|a b|n|n v| |n v|l]; cbn [erases] in Hi; try contradiction;
    cbn [moving in_range xcall] in *.
  - apply broken_bind. apply (shrink_at_throw xs pos 1 k); lia.
  - destruct (a <? b) eqn:Eab; [|lia]. apply Nat.ltb_lt in Eab.
    apply broken_bind. unfold xerase_range. rewrite range_count by lia.
    apply shrink_at_throw; lia.
Qed.

Lemma all_fact o s xs j :
  represents Capacity s xs -> call_ok xs o -> length xs + added o <= Capacity ->
  fuse s = Some (moving xs o + j) ->
  xcall moved dflt Capacity o s = call moved dflt Capacity o (with_fuse (Some j) s).
Proof.
  intros R (Hr & Ho) Hf Hk. pose proof (represents_inv _ Hcap63 _ _ R) as E. rewrite Hk in E. subst s.
  destruct R as (_ & _ & Hc & _).
  change (with_fuse (Some j) (repr xs (Some (moving xs o + j)))) with (repr xs (Some j)).
  destruct o as [v| |pos v|pos n v|pos l|pos|a b|n|n v| |n v|l];
    cbn [moving in_range xcall call added Nat.add] in *; try reflexivity.
  - apply bind_both; [apply pop_back_same|reflexivity].
  - apply bind_both; [|reflexivity]. apply bind_both; [|reflexivity].
    apply (grow_at_all xs pos 1 j); lia.
  - apply bind_both; [|reflexivity]. apply bind_both; [|reflexivity].
    destruct (n =? 0) eqn:En.
    + apply Nat.eqb_eq in En. subst n. reflexivity.
    + apply Nat.eqb_neq in En. apply grow_at_all; lia.
  - apply bind_both; [|reflexivity]. apply bind_both; [|reflexivity].
    destruct (length l =? 0) eqn:En.
    + apply Nat.eqb_eq in En. rewrite En. reflexivity.
    + apply Nat.eqb_neq in En. apply grow_at_all; lia.
  - apply bind_both; [|reflexivity]. apply (shrink_at_all xs pos 1 j); lia.
  - apply bind_both; [|reflexivity]. unfold xerase_range, erase_range.
    destruct (Nat.le_gt_cases a b) as [Hab|Hab].
    + rewrite range_count by lia.
      replace (repr xs (Some ((if a <? b then length xs - b else 0) + j)))
        with (repr xs (Some (length xs - (a + (b - a)) + j))); [apply shrink_at_all; lia|].
      do 3 f_equal. destruct (a <? b) eqn:Eab; [lia|]. apply Nat.ltb_ge in Eab.
      assert (a = b) by lia. specialize (Ho H). lia.
    + replace (a <? b) with false by (symmetry; apply Nat.ltb_ge; lia). cbn [Nat.add].
      unfold xshrink_at, shrink_at. rewrite !bind_get, !size_repr, !throw_if_step.
      replace (_ <? _)%N with true; [reflexivity|]. symmetry. apply N.ltb_lt.
      assert (two63 + two63 = two64)%N by reflexivity. rewrite N.mod_small by lia. lia.
  - apply bind_both; [apply resize_same|reflexivity].
  - apply bind_both; [apply resize_same|reflexivity].
Qed.

Lemma full_fact o s xs :
  represents Capacity s xs -> call_ok xs o -> inserts o -> Capacity < length xs + added o ->
  xcall moved dflt Capacity o s = Throw OutOfRange s.
Proof.
  intros R (Hr & Ho) Hi Hf. pose proof (represents_inv _ Hcap63 _ _ R) as E. destruct R as (_ & Es & Hc & _).
  assert (G : forall pos by_, (N.of_nat (length xs) + N.of_nat by_ < two64)%N -> Capacity < length xs + by_ ->
     xgrow_at moved Capacity pos (N.of_nat by_) s = Throw OutOfRange s).
  { intros pos by_ Hw Hb. unfold xgrow_at. rewrite bind_get. rewrite Es.
    unfold bind, throw_if. replace (_ <? _)%N with true; [reflexivity|].
    symmetry. apply N.ltb_lt. rewrite N.mod_small by exact Hw. lia. }
  pose proof (cap_lt _ Hcap63).
  destruct o as [v| |pos v|pos n v|pos l|pos|a b|n|n v| |n v|l]; cbn [inserts] in Hi; try contradiction;
    cbn [added xcall] in *; unfold position_answer, xinsert1, xinsert_n, xinsert_range, bind.
  - change 1%N with (N.of_nat 1). rewrite G; [reflexivity| |lia].
    change (N.of_nat 1) with 1%N. assert (two63 + 1 < two64)%N by reflexivity. lia.
  - rewrite G; [reflexivity|exact Ho|lia].
  - rewrite G; [reflexivity|exact Ho|lia].
Qed.

(** ** Two vectors *)
Lemma push_move (xs : list V) v f : length xs < Capacity ->
  push_back Capacity (MoveOf v) (repr xs f) = Ok tt (repr (xs ++ [v]) f).
Proof.
  intros Hl. unfold push_back. rewrite bind_get, size_repr.
  erewrite bind_ok.
  2:{ unfold throw_if. replace (Capacity <=? length xs) with false; [reflexivity|].
      symmetry. apply Nat.leb_gt. lia. }
  cbn [construct]. rewrite repr_snoc by lia.
  erewrite bind_ok by (apply begin_life_mid; len). rewrite bind_get.
  unfold set_size, with_size; cbn [data size fuse]. unfold StaticVectorProofs.repr.
  rewrite map_app, <- app_assoc. cbn [map app]. do 2 f_equal; [|len]. do 3 f_equal. len.
Qed.

Definition room_tick : M sv unit :=
  let* s := get in throw_if (Capacity <=? size s) OutOfRange ;;; tick.
Lemma room_tick_ok (xs : list V) k : length xs < Capacity ->
  room_tick (repr xs (Some (S k))) = Ok tt (repr xs (Some k)).
Proof.
  intros H. unfold room_tick. rewrite bind_get, size_repr. unfold bind, throw_if.
  replace (Capacity <=? length xs) with false by (symmetry; apply Nat.leb_gt; lia). reflexivity.
Qed.
Lemma room_tick_now (xs : list V) : length xs < Capacity ->
  room_tick (repr xs (Some 0)) = Throw ElemThrow (repr xs None).
Proof.
  intros H. unfold room_tick. rewrite bind_get, size_repr. unfold bind, throw_if.
  replace (Capacity <=? length xs) with false by (symmetry; apply Nat.leb_gt; lia). reflexivity.
Qed.

Lemma xtake_ok i xs k A B v m g : length xs < Capacity -> i = length A ->
  xtake moved Capacity i (repr xs (Some (S k)), mkSv (A ++ Live v :: B) m g) =
  Ok tt (repr (xs ++ [v]) (Some k), mkSv (A ++ Live (moved v) :: B) m g).
Proof.
  intros Hl Hi. unfold xtake.
  erewrite bind_ok by (unfold onR; cbn [fst snd]; rewrite read_mid by exact Hi; reflexivity).
  change (let* s := get in throw_if (Capacity <=? size s) OutOfRange;;; tick) with room_tick.
  erewrite bind_ok by (unfold onL; cbn [fst snd]; rewrite room_tick_ok by exact Hl; reflexivity).
  erewrite bind_ok by (unfold onR; cbn [fst snd]; rewrite move_from_mid by exact Hi; reflexivity).
  unfold onL; cbn [fst snd]. rewrite push_move by exact Hl. reflexivity.
Qed.
Lemma xtake_now i xs A B v m g : length xs < Capacity -> i = length A ->
  xtake moved Capacity i (repr xs (Some 0), mkSv (A ++ Live v :: B) m g) =
  Throw ElemThrow (repr xs None, mkSv (A ++ Live v :: B) m g).
Proof.
  intros Hl Hi. unfold xtake.
  erewrite bind_ok by (unfold onR; cbn [fst snd]; rewrite read_mid by exact Hi; reflexivity).
  change (let* s := get in throw_if (Capacity <=? size s) OutOfRange;;; tick) with room_tick.
  erewrite bind_throw; [reflexivity|]. unfold onL; cbn [fst snd]. rewrite room_tick_now by exact Hl. reflexivity.
Qed.

Lemma move_loop_ok (rest : list V) : forall xs A B i m g j,
  i = length A -> length xs + length rest <= Capacity ->
  xmove_from_loop moved Capacity i (length rest)
    (repr xs (Some (length rest + j)), mkSv (A ++ map Live rest ++ B) m g) =
  Ok tt (repr (xs ++ rest) (Some j), mkSv (A ++ map Live (map moved rest) ++ B) m g).
Proof.
  induction rest as [|r rest IH]; intros xs A B i m g j Hi Hc; cbn [length xmove_from_loop map app Nat.add].
  - rewrite app_nil_r. reflexivity.
  - cbn [length] in Hc. erewrite bind_ok by (apply xtake_ok; [lia|exact Hi]).
    replace (A ++ Live (moved r) :: map Live rest ++ B) with ((A ++ [Live (moved r)]) ++ map Live rest ++ B)
      by now rewrite <- app_assoc.
    rewrite IH; [|len|len]. rewrite <- !app_assoc. reflexivity.
Qed.
Lemma move_loop_throw (rest : list V) : forall xs A B i m g k,
  i = length A -> length xs + length rest <= Capacity -> k < length rest ->
  xmove_from_loop moved Capacity i (length rest)
    (repr xs (Some k), mkSv (A ++ map Live rest ++ B) m g) =
  Throw ElemThrow (repr (xs ++ firstn k rest) None,
                   mkSv (A ++ map Live (map moved (firstn k rest) ++ skipn k rest) ++ B) m g).
Proof.
  induction rest as [|r rest IH]; intros xs A B i m g k Hi Hc Hk; cbn [length] in Hk; [lia|].
  cbn [length xmove_from_loop map app]. cbn [length] in Hc. destruct k as [|k].
  - erewrite bind_throw by (apply xtake_now; [lia|exact Hi]). cbn [firstn skipn map app].
    rewrite app_nil_r. reflexivity.
  - erewrite bind_ok by (apply xtake_ok; [lia|exact Hi]).
    replace (A ++ Live (moved r) :: map Live rest ++ B) with ((A ++ [Live (moved r)]) ++ map Live rest ++ B)
      by now rewrite <- app_assoc.
    rewrite IH; [|len|len|lia]. cbn [firstn skipn map app]. rewrite <- !app_assoc. reflexivity.
Qed.

Lemma move_body_fact a b xs ys k :
  represents Capacity a xs -> represents Capacity b ys -> fuse a = Some k -> k < length ys ->
  exists a' b', xmove_assign_body moved Capacity (a, b) = Throw ElemThrow (a', b') /\
    represents Capacity a' (firstn k ys) /\
    represents Capacity b' (map moved (firstn k ys) ++ skipn k ys).
Proof.
  intros Ra Rb Hk Hl. pose proof (represents_inv _ Hcap63 _ _ Ra) as Ea. rewrite Hk in Ea. subst a.
  pose proof (represents_inv _ Hcap63 _ _ Rb) as Eb. rewrite Eb. clear Eb.
  destruct Ra as (_ & _ & Ha & _). destruct Rb as (_ & _ & Hb & _).
  unfold xmove_assign_body.
  erewrite bind_ok by (unfold onL; cbn [fst snd]; rewrite clear_spec by assumption; reflexivity).
  rewrite bind_get. cbn [snd]. rewrite size_repr.
  eexists _, _. split; [|split].
  - erewrite bind_throw; [reflexivity|].
    apply (move_loop_throw ys [] [] (repeat Raw (Capacity - length ys)) 0 (length ys) (fuse b) k); cbn [length]; auto; lia.
  - cbn [app]. apply represents_repr; [exact Hcap63|len].
  - cbn [app].
    replace (mkSv _ (length ys) (fuse b)) with (repr (map moved (firstn k ys) ++ skipn k ys) (fuse b)).
    + apply represents_repr; [exact Hcap63|len].
    + unfold StaticVectorProofs.repr. f_equal; [|len]. do 2 f_equal. len.
Qed.

Lemma move_assign_fact a b xs ys k na :
  represents Capacity a xs -> represents Capacity b ys -> fuse a = Some k -> k < length ys ->
  (na = true -> xmove_assign moved Capacity na (a, b) = None) /\
  (na = false -> exists a' b', xmove_assign moved Capacity na (a, b) = Some (Throw ElemThrow (a', b')) /\
    represents Capacity a' (firstn k ys) /\
    represents Capacity b' (map moved (firstn k ys) ++ skipn k ys)).
Proof.
  intros Ra Rb Hk Hl. destruct (move_body_fact a b xs ys k Ra Rb Hk Hl) as (a' & b' & E & R1 & R2).
  unfold xmove_assign. rewrite E. split; intros ->; [reflexivity|]. eauto.
Qed.

Lemma move_assign_all a b xs ys j na :
  represents Capacity a xs -> represents Capacity b ys ->
  fuse a = Some (length ys + j) ->
  exists a' b', xmove_assign moved Capacity na (a, b) = Some (Ok tt (a', b')) /\
    represents Capacity a' ys /\ represents Capacity b' [].
Proof.
  intros Ra Rb Hk. pose proof (represents_inv _ Hcap63 _ _ Ra) as Ea. rewrite Hk in Ea. subst a.
  pose proof (represents_inv _ Hcap63 _ _ Rb) as Eb. rewrite Eb. clear Eb.
  destruct Ra as (_ & _ & Ha & _). destruct Rb as (_ & _ & Hb & _).
  unfold xmove_assign, xmove_assign_body.
  erewrite bind_ok by (unfold onL; cbn [fst snd]; rewrite clear_spec by assumption; reflexivity).
  rewrite bind_get. cbn [snd]. rewrite size_repr.
  erewrite bind_ok by (apply (move_loop_ok ys [] [] (repeat Raw (Capacity - length ys)) 0 (length ys) (fuse b) j);
    cbn [length]; auto; lia).
  unfold onR; cbn [fst snd app].
  replace (mkSv _ (length ys) (fuse b)) with (repr (map moved ys) (fuse b)).
  2:{ unfold StaticVectorProofs.repr. f_equal; [|len]. do 2 f_equal. len. }
  rewrite clear_spec by (try assumption; len). eexists _, _. split; [reflexivity|]. split; apply represents_repr; try exact Hcap63; cbn; lia.
Qed.

Lemma move_construct_fact b ys k :
  represents Capacity b ys -> k < length ys ->
  exists a' b', xmove_construct moved Capacity (Some k) b = Throw ElemThrow (a', b') /\
    represents Capacity a' (firstn k ys) /\
    represents Capacity b' (map moved (firstn k ys) ++ skipn k ys).
Proof.
  intros Rb Hl. pose proof (represents_inv _ Hcap63 _ _ Rb) as Eb. rewrite Eb. clear Eb.
  destruct Rb as (_ & _ & Hb & _).
  unfold xmove_construct. rewrite bind_get. cbn [snd]. rewrite size_repr.
  rewrite init_repr by exact Hcap63. change (with_fuse (Some k) (repr (@nil V) None)) with (repr (@nil V) (Some k)).
  eexists _, _. split; [|split].
  - erewrite bind_throw; [reflexivity|].
    apply (move_loop_throw ys [] [] (repeat Raw (Capacity - length ys)) 0 (length ys) (fuse b) k); cbn [length]; auto; lia.
  - cbn [app]. apply represents_repr; [exact Hcap63|len].
  - cbn [app].
    replace (mkSv _ (length ys) (fuse b)) with (repr (map moved (firstn k ys) ++ skipn k ys) (fuse b)).
    + apply represents_repr; [exact Hcap63|len].
    + unfold StaticVectorProofs.repr. f_equal; [|len]. do 2 f_equal. len.
Qed.

(** ** swap *)
Lemma assign_mid (A B : list slot) (v w : V) i n f : i = length A ->
  assign_elem i w (mkSv (A ++ Live v :: B) n f) = Ok tt (mkSv (A ++ Live w :: B) n f).
Proof.
  intros ->. unfold assign_elem, with_data; cbn [data size fuse].
  rewrite nth_error_app_mid by reflexivity. now rewrite upd_app_mid.
Qed.

Ltac rdc := cbv beta iota; cbn [fst snd tick fuse with_fuse data size Nat.add].
Lemma swap_elem_ok i A B C D (a b : V) n m g k : i = length A -> i = length B ->
  xswap_elems moved i (mkSv (A ++ Live a :: C) n (Some (3 + k)), mkSv (B ++ Live b :: D) m g) =
  Ok tt (mkSv (A ++ Live b :: C) n (Some k), mkSv (B ++ Live a :: D) m g).
Proof.
  intros HA HB. unfold xswap_elems, bind, onL, onR, tick, with_fuse; rdc.
  rewrite read_mid by exact HA; rdc. rewrite read_mid by exact HB; rdc.
  rewrite move_from_mid by exact HA; rdc. rewrite move_from_mid by exact HB; rdc.
  rewrite assign_mid by exact HA; rdc. rewrite assign_mid by exact HB. reflexivity.
Qed.
Lemma swap_elem_now i A B C D (a b : V) n m g k : i = length A -> i = length B -> k < 3 ->
  exists a' b', xswap_elems moved i (mkSv (A ++ Live a :: C) n (Some k), mkSv (B ++ Live b :: D) m g) =
    Throw ElemThrow (mkSv (A ++ Live a' :: C) n None, mkSv (B ++ Live b' :: D) m g).
Proof.
  intros HA HB Hk. unfold xswap_elems, bind, onL, onR, tick, with_fuse; rdc.
  rewrite read_mid by exact HA; rdc. rewrite read_mid by exact HB; rdc.
  destruct k as [|k]; [exists a, b; reflexivity|]. rdc.
  rewrite move_from_mid by exact HA; rdc.
  destruct k as [|k]; [exists (moved a), b; reflexivity|]. rdc.
  rewrite move_from_mid by exact HB; rdc. rewrite assign_mid by exact HA; rdc.
  destruct k as [|k]; [exists b, (moved b); reflexivity|lia].
Qed.

Lemma swap_loop_ok (bs : list V) : forall (as_ : list V) (A B C D : list slot) i n m g j,
  length as_ = length bs -> length A = length B -> i = length A ->
  xswap_loop moved i (length bs)
    (mkSv (A ++ map Live as_ ++ C) n (Some (3 * length bs + j)), mkSv (B ++ map Live bs ++ D) m g) =
  Ok tt (mkSv (A ++ map Live bs ++ C) n (Some j), mkSv (B ++ map Live as_ ++ D) m g).
Proof.
  induction bs as [|z bs IH]; intros as_ A B C D i n m g j Hl HAB Hi.
  - destruct as_; [|discriminate]. reflexivity.
  - destruct as_ as [|a as_]; [discriminate|]. simpl in Hl. cbn [length xswap_loop map app].
    replace (3 * S (length bs) + j) with (3 + (3 * length bs + j)) by lia.
    erewrite bind_ok by (apply swap_elem_ok; lia).
    replace (A ++ Live z :: map Live as_ ++ C) with ((A ++ [Live z]) ++ map Live as_ ++ C)
      by now rewrite <- app_assoc.
    replace (B ++ Live a :: map Live bs ++ D) with ((B ++ [Live a]) ++ map Live bs ++ D)
      by now rewrite <- app_assoc.
    rewrite IH; [|lia|len|len]. rewrite <- !app_assoc. reflexivity.
Qed.
Lemma swap_loop_throw (bs : list V) : forall (as_ : list V) (A B C D : list slot) i n m g k,
  length as_ = length bs -> length A = length B -> i = length A -> k < 3 * length bs ->
  exists as' bs', length as' = length as_ /\ length bs' = length bs /\
  xswap_loop moved i (length bs)
    (mkSv (A ++ map Live as_ ++ C) n (Some k), mkSv (B ++ map Live bs ++ D) m g) =
  Throw ElemThrow (mkSv (A ++ map Live as' ++ C) n None, mkSv (B ++ map Live bs' ++ D) m g).
Proof.
  induction bs as [|z bs IH]; intros as_ A B C D i n m g k Hl HAB Hi Hk; [cbn in Hk; lia|].
  destruct as_ as [|a as_]; [discriminate|]. simpl in Hl. cbn [length xswap_loop map app].
  destruct (Nat.lt_ge_cases k 3) as [H3|H3].
  - destruct (swap_elem_now i A B (map Live as_ ++ C) (map Live bs ++ D) a z n m g k) as (a' & b' & E);
      try lia.
    exists (a' :: as_), (b' :: bs). split; [reflexivity|]. split; [reflexivity|].
    erewrite bind_throw by exact E. reflexivity.
  - replace k with (3 + (k - 3)) by lia.
    destruct (IH as_ (A ++ [Live z]) (B ++ [Live a]) C D (S i) n m g (k - 3)) as (as' & bs' & L1 & L2 & E);
      [lia|len|len|cbn [length] in Hk; lia|].
    exists (z :: as'), (a :: bs'). cbn [length map app]. split; [lia|]. split; [lia|].
    erewrite bind_ok by (apply swap_elem_ok; lia).
    replace (A ++ Live z :: map Live as_ ++ C) with ((A ++ [Live z]) ++ map Live as_ ++ C)
      by now rewrite <- app_assoc.
    replace (B ++ Live a :: map Live bs ++ D) with ((B ++ [Live a]) ++ map Live bs ++ D)
      by now rewrite <- app_assoc.
    rewrite E. rewrite <- !app_assoc. reflexivity.
Qed.

Lemma swap_tail_ok rest : forall xs A B i m g j,
  i = length A -> length xs + length rest <= Capacity ->
  xswap_tail moved Capacity i (length rest)
    (repr xs (Some (length rest + j)), mkSv (A ++ map Live rest ++ B) m g) =
  Ok tt (repr (xs ++ rest) (Some j), mkSv (A ++ repeat Raw (length rest) ++ B) m g).
Proof.
  induction rest as [|r rest IH]; intros xs A B i m g j Hi Hc; cbn [length xswap_tail map app Nat.add].
  - rewrite app_nil_r. reflexivity.
  - cbn [length] in Hc. erewrite bind_ok by (apply xtake_ok; [lia|exact Hi]).
    erewrite bind_ok by (unfold onR; cbn [fst snd]; rewrite destroy_mid by exact Hi; reflexivity).
    replace (A ++ Raw :: map Live rest ++ B) with ((A ++ [Raw]) ++ map Live rest ++ B)
      by now rewrite <- app_assoc.
    rewrite IH; [|len|len]. rewrite <- !app_assoc. reflexivity.
Qed.
Lemma swap_tail_throw rest : forall xs A B i m g k,
  i = length A -> length xs + length rest <= Capacity -> k < length rest ->
  xswap_tail moved Capacity i (length rest)
    (repr xs (Some k), mkSv (A ++ map Live rest ++ B) m g) =
  Throw ElemThrow (repr (xs ++ firstn k rest) None,
                   mkSv (A ++ repeat Raw k ++ map Live (skipn k rest) ++ B) m g).
Proof.
  induction rest as [|r rest IH]; intros xs A B i m g k Hi Hc Hk; cbn [length] in Hk; [lia|].
  cbn [length xswap_tail map app]. cbn [length] in Hc. destruct k as [|k].
  - erewrite bind_throw by (apply xtake_now; [lia|exact Hi]). cbn [firstn skipn map app repeat].
    rewrite app_nil_r. reflexivity.
  - erewrite bind_ok by (apply xtake_ok; [lia|exact Hi]).
    erewrite bind_ok by (unfold onR; cbn [fst snd]; rewrite destroy_mid by exact Hi; reflexivity).
    replace (A ++ Raw :: map Live rest ++ B) with ((A ++ [Raw]) ++ map Live rest ++ B)
      by now rewrite <- app_assoc.
    rewrite IH; [|len|len|lia]. cbn [firstn skipn repeat app]. rewrite <- !app_assoc. reflexivity.
Qed.

(** The shorter vector on the left. *)
Lemma short_long_fact xs ys g k :
  length xs <= length ys -> length ys <= Capacity ->
  let m := 3 * length xs in
  let r := xswap_short_long moved Capacity (repr xs (Some k), repr ys g) in
  (k < m -> exists xs' ys' , length xs' = length xs /\ length ys' = length ys /\
     r = Throw ElemThrow (repr xs' None, repr ys' g)) /\
  (k = m -> length xs < length ys ->
     r = Throw ElemThrow (repr (firstn (length xs) ys) None, repr (xs ++ skipn (length xs) ys) g)) /\
  (m < k < m + (length ys - length xs) -> exists s',
     r = Throw ElemThrow (repr (firstn (k - 2 * length xs) ys) None, s') /\ clear Capacity s' = UB) /\
  (m + (length ys - length xs) <= k ->
     r = Ok tt (repr ys (Some (k - (m + (length ys - length xs)))), repr xs g)).
Proof.
  intros Hxy Hy m r. subst r m. unfold xswap_short_long. rewrite bind_get. cbn [fst snd]. rewrite !size_repr.
  set (n := length xs).
  assert (Ey : repr ys g = mkSv ([] ++ map Live (firstn n ys) ++
     (map Live (skipn n ys) ++ repeat Raw (Capacity - length ys))) (length ys) g).
  { unfold StaticVectorProofs.repr. cbn [app]. rewrite app_assoc, <- map_app, firstn_skipn. reflexivity. }
  assert (Ln : length (firstn n ys) = n) by (unfold n; rewrite firstn_length; lia).
  assert (Ls : length (skipn n ys) = length ys - n) by (rewrite skipn_length; reflexivity).
  (* the loop succeeds *)
  assert (L : forall j, xswap_loop moved 0 n (repr xs (Some (3 * n + j)), repr ys g) =
    Ok tt (repr (firstn n ys) (Some j),
           mkSv (map Live xs ++ map Live (skipn n ys) ++ repeat Raw (Capacity - length ys)) (length ys) g)).
  { intros j. rewrite Ey.
    pose proof (swap_loop_ok (firstn n ys) xs [] [] (repeat Raw (Capacity - length xs))
      (map Live (skipn n ys) ++ repeat Raw (Capacity - length ys)) 0 (length xs) (length ys) g j) as H.
    rewrite Ln in H. etransitivity; [apply H; reflexivity|].
    cbn [app]. unfold StaticVectorProofs.repr. rewrite Ln. reflexivity. }
  assert (T : forall j, j < length ys - n ->
    (xswap_loop moved 0 n ;;; xswap_tail moved Capacity n (length ys - n) ;;; onR (set_size n))
      (repr xs (Some (3 * n + j)), repr ys g) =
    Throw ElemThrow (repr (firstn n ys ++ firstn j (skipn n ys)) None,
      mkSv (map Live xs ++ repeat Raw j ++ map Live (skipn j (skipn n ys)) ++
            repeat Raw (Capacity - length ys)) (length ys) g)).
  { intros j Hj. erewrite bind_ok by apply L. erewrite bind_throw; [reflexivity|].
    rewrite <- Ls. apply swap_tail_throw; [len|rewrite Ln, Ls; lia|rewrite Ls; lia]. }
  split; [|split; [|split]].
  - intros Hk.
    destruct (swap_loop_throw (firstn n ys) xs [] [] (repeat Raw (Capacity - length xs))
      (map Live (skipn n ys) ++ repeat Raw (Capacity - length ys)) 0 (length xs) (length ys) g k)
      as (as' & bs' & L1 & L2 & E); try reflexivity; [rewrite Ln; reflexivity|rewrite Ln; exact Hk|].
    exists as', (bs' ++ skipn n ys). split; [exact L1|]. split; [rewrite app_length, L2, Ln, Ls; lia|].
    erewrite bind_throw; [reflexivity|].
    rewrite Ln in E. rewrite Ey. etransitivity; [exact E|]. cbn [app].
    unfold StaticVectorProofs.repr. rewrite L1, app_length, L2, Ln, Ls, map_app, <- app_assoc.
    replace (n + (length ys - n)) with (length ys) by lia. reflexivity.
  - intros -> Hl. rewrite <- (Nat.add_0_r (3 * n)). rewrite T by lia.
    cbn [firstn skipn repeat app]. rewrite app_nil_r. do 2 f_equal.
    unfold StaticVectorProofs.repr. rewrite map_app, <- app_assoc. rewrite app_length, Ls. fold n.
    replace (n + (length ys - n)) with (length ys) by lia. reflexivity.
  - intros Hk. eexists. split.
    + replace k with (3 * n + (k - 3 * n)) at 1 by lia. rewrite T by lia.
      replace (firstn (k - 2 * n) ys) with (firstn n ys ++ firstn (k - 3 * n) (skipn n ys)); [reflexivity|].
      rewrite <- (firstn_skipn n ys) at 3. rewrite firstn_app, Ln.
      rewrite (firstn_all2 (firstn n ys)) by lia. do 2 f_equal. lia.
    + apply (clear_ub _ _ _ n); [lia|lia|]. intros v.
      rewrite nth_error_app2 by (rewrite map_length; fold n; lia). rewrite map_length. fold n. rewrite Nat.sub_diag.
      destruct (k - 3 * n) as [|j] eqn:Ej; [lia|]. cbn. discriminate.
  - intros Hk. replace k with (3 * n + (length ys - n + (k - (3 * n + (length ys - n))))) at 1 by lia.
    erewrite bind_ok by apply L.
    erewrite bind_ok.
    2:{ rewrite <- Ls. apply swap_tail_ok; [len|rewrite Ln, Ls; lia]. }
    unfold onR, set_size, with_size; cbn [fst snd data size fuse].
    rewrite firstn_skipn. rewrite <- repeat_app, Ls.
    unfold StaticVectorProofs.repr. fold n.
    replace (length ys - n + (Capacity - length ys)) with (Capacity - n) by lia. reflexivity.
Qed.

Lemma swap_order b short long xs ys k :
  represents Capacity short xs -> represents Capacity long ys -> shorter_than b xs ys ->
  fuse short = Some k ->
  length xs <= length ys /\ length ys <= Capacity /\
  short = repr xs (Some k) /\ long = repr ys (fuse long) /\
  xswap moved Capacity (in_order b short long) =
  let r := xswap_short_long moved Capacity (short, long) in if b then r else flip_res r.
Proof.
  intros Ra Rb Hl Hk. pose proof (represents_inv _ Hcap63 _ _ Ra) as Ea. rewrite Hk in Ea.
  pose proof (represents_inv _ Hcap63 _ _ Rb) as Eb.
  destruct Rb as (_ & Sb & Hb & _). destruct Ra as (_ & Sa & Ha & _).
  split; [destruct b; cbn in Hl; lia|]. split; [exact Hb|]. split; [exact Ea|]. split; [exact Eb|].
  unfold xswap. destruct b; cbn [in_order shorter_than fst snd] in *; rewrite Sa, Sb.
  - replace (length xs <? length ys) with true by (symmetry; apply Nat.ltb_lt; lia). reflexivity.
  - replace (length ys <? length xs) with false by (symmetry; apply Nat.ltb_ge; lia). reflexivity.
Qed.

Lemma swap_keeps b short long xs ys k :
  represents Capacity short xs -> represents Capacity long ys -> shorter_than b xs ys ->
  fuse short = Some k ->
  let m := 3 * length xs in
  (k < m -> exists short' long' xs' ys',
     xswap moved Capacity (in_order b short long) = Throw ElemThrow (in_order b short' long') /\
     represents Capacity short' xs' /\ represents Capacity long' ys' /\
     length xs' = length xs /\ length ys' = length ys) /\
  (k = m -> length xs < length ys -> exists short' long',
     xswap moved Capacity (in_order b short long) = Throw ElemThrow (in_order b short' long') /\
     represents Capacity short' (firstn (length xs) ys) /\
     represents Capacity long' (xs ++ skipn (length xs) ys)) /\
  (m + (length ys - length xs) <= k -> exists short' long',
     xswap moved Capacity (in_order b short long) = Ok tt (in_order b short' long') /\
     represents Capacity short' ys /\ represents Capacity long' xs).
Proof.
  intros Ra Rb Hl Hk. destruct (swap_order b short long xs ys k Ra Rb Hl Hk) as (L & C & Ea & Eb & E).
  rewrite E. cbv zeta. rewrite Ea, Eb.
  destruct (short_long_fact xs ys (fuse long) k L C) as (S1 & S2 & _ & S4). cbv zeta in *.
  split; [|split].
  - intros H. destruct (S1 H) as (xs' & ys' & L1 & L2 & E'). rewrite E'.
    exists (repr xs' None), (repr ys' (fuse long)), xs', ys'.
    split; [destruct b; reflexivity|].
    split; [apply represents_repr; [exact Hcap63|lia]|]. split; [apply represents_repr; [exact Hcap63|lia]|]. auto.
  - intros H Hlt. rewrite (S2 H Hlt). eexists _, _.
    split; [destruct b; reflexivity|].
    split; apply represents_repr; try exact Hcap63; len.
  - intros H. rewrite (S4 H). eexists _, _.
    split; [destruct b; reflexivity|].
    split; apply represents_repr; try exact Hcap63; lia.
Qed.

Lemma swap_breaks b short long xs ys k :
  represents Capacity short xs -> represents Capacity long ys -> shorter_than b xs ys ->
  fuse short = Some k ->
  3 * length xs < k < 3 * length xs + (length ys - length xs) ->
  exists short' long',
    xswap moved Capacity (in_order b short long) = Throw ElemThrow (in_order b short' long') /\
    clear Capacity long' = UB.
Proof.
  intros Ra Rb Hl Hk H. destruct (swap_order b short long xs ys k Ra Rb Hl Hk) as (L & C & Ea & Eb & E).
  rewrite E. cbv zeta. rewrite Ea, Eb.
  destruct (short_long_fact xs ys (fuse long) k L C) as (_ & _ & S3 & _). cbv zeta in *.
  destruct (S3 H) as (s' & E' & U). rewrite E'. eexists _, _.
  split; [destruct b; reflexivity|]. exact U.
Qed.
End Proofs.
