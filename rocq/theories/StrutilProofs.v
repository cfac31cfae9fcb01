From Coq Require Import List Arith NArith Bool Lia.
From Verif Require Import Base VecCommon SpanModel SpanProofs StrutilModel StrutilSpec.
Import ListNotations.
Open Scope N_scope.

Section Proofs.
Context {C : Type}.
Variable cmp : C -> C -> comparison.
Hypothesis cmp_eq : forall x y, cmp x y = Eq <-> x = y.
Variable mem : N -> option C.
Implicit Types (t p : list C) (v : sv).

Lemma compare_chars_eq a : forall b, compare_chars cmp a b = Eq <-> a = b.
Proof.
  induction a as [|x a IH]; intros [|y b]; cbn [compare_chars]; try (split; intros; congruence).
  pose proof (cmp_eq x y) as E. destruct (cmp x y).
  - destruct E as [E _]. rewrite (E eq_refl). rewrite IH. split; intros; congruence.
  - split; [discriminate|]. intros H. inversion H; subst. destruct E as [_ E]. discriminate (E eq_refl).
  - split; [discriminate|]. intros H. inversion H; subst. destruct E as [_ E]. discriminate (E eq_refl).
Qed.

Lemma read_ok t : forall a, (forall i c, nth_error t i = Some c -> mem (a + N.of_nat i) = Some c) ->
  read mem (length t) a = Some t.
Proof.
  induction t as [|c t IH]; intros a H; [reflexivity|]. cbn [length read].
  pose proof (H 0%nat c eq_refl) as H0. cbn [N.of_nat] in H0. rewrite N.add_0_r in H0. rewrite H0.
  rewrite IH; [reflexivity|]. intros i d Hi. rewrite <- (H (S i) d Hi). f_equal. lia.
Qed.
Lemma chars_ok v t : views mem v t -> chars mem v tt = Ok t tt.
Proof.
  intros ((H & _) & E). unfold chars. rewrite E, Nat2N.id, read_ok; auto.
Qed.
Lemma views_part v t i n : views mem v t -> (i <= length t)%nat -> (n <= length t - i)%nat ->
  views mem (mkSv (sv_ptr v + N.of_nat i) (N.of_nat n)) (firstn n (skipn i t)).
Proof.
  intros ((H & B) & E) I L. assert (length (firstn n (skipn i t)) = n) as EL by (rewrite firstn_length, skipn_length; lia).
  split; [split|]; cbn [sv_ptr sv_size]; rewrite ?EL; auto; try lia.
  intros j c Hj. assert (j < n)%nat by (rewrite <- EL; apply nth_error_Some; congruence).
  rewrite nth_error_firstn, (proj2 (Nat.ltb_lt _ _)), nth_error_skipn in Hj by lia.
  rewrite <- (H (i + j)%nat c Hj). f_equal. lia.
Qed.
Lemma compare_ok v t w u pos n : views mem v t -> views mem w u -> pos <= N.of_nat (length t) ->
  compare cmp mem v pos n w tt = Ok (compare_chars cmp (firstn (N.to_nat n) (skipn (N.to_nat pos) t)) u) tt.
Proof.
  intros V W P. unfold compare. pose proof V as (_ & E). rewrite E.
  rewrite (proj2 (N.ltb_ge _ _)) by lia.
  assert (views mem (mkSv (sv_ptr v + pos) (N.min n (N.of_nat (length t) - pos))) (firstn (N.to_nat n) (skipn (N.to_nat pos) t))) as VP.
  { pose proof (views_part v t (N.to_nat pos) (Nat.min (N.to_nat n) (length t - N.to_nat pos)) V ltac:(lia) ltac:(lia)) as Q.
    rewrite N2Nat.id in Q. replace (N.of_nat (Nat.min (N.to_nat n) (length t - N.to_nat pos))) with (N.min n (N.of_nat (length t) - pos)) in Q by lia.
    rewrite <- skipn_length in Q. rewrite firstn_min. exact Q. }
  unfold bind. rewrite (chars_ok _ _ VP), (chars_ok _ _ W). reflexivity.
Qed.

Lemma is_eq_iff a b : is_eq (compare_chars cmp a b) = true <-> a = b.
Proof. rewrite <- compare_chars_eq. destruct (compare_chars cmp a b); cbn; split; congruence. Qed.

Lemma prefix_firstn p t : prefix_of p t <-> firstn (length p) t = p.
Proof.
  split.
  - intros (r & ->). now rewrite firstn_app, firstn_all, Nat.sub_diag, app_nil_r.
  - intros H. exists (skipn (length p) t). rewrite <- H at 1. now rewrite firstn_skipn.
Qed.
Lemma suffix_skipn p t : (length p <= length t)%nat -> suffix_of p t <-> skipn (length t - length p) t = p.
Proof.
  intros L. split.
  - intros (r & ->). rewrite app_length. replace (length r + length p - length p)%nat with (length r) by lia.
    now rewrite skipn_app, skipn_all, Nat.sub_diag.
  - intros H. exists (firstn (length t - length p) t). 
    transitivity (firstn (length t - length p) t ++ skipn (length t - length p) t); [now rewrite firstn_skipn|now rewrite H].
Qed.

Lemma starts_ok v t w p : views mem v t -> views mem w p ->
  exists b, starts_with cmp mem v w tt = Ok b tt /\ (b = true <-> prefix_of p t).
Proof.
  intros V W. unfold starts_with. pose proof V as (_ & E). pose proof W as (_ & F). rewrite E, F.
  destruct (N.leb_spec (N.of_nat (length p)) (N.of_nat (length t))).
  - unfold bind. rewrite (compare_ok v t w p 0) by (auto; lia). eexists. split; [reflexivity|].
    rewrite is_eq_iff, prefix_firstn, Nat2N.id. reflexivity.
  - exists false. split; [reflexivity|]. split; [discriminate|]. intros (r & ->). rewrite app_length in *. lia.
Qed.
Lemma ends_ok v t w p : views mem v t -> views mem w p ->
  exists b, ends_with cmp mem v w tt = Ok b tt /\ (b = true <-> suffix_of p t).
Proof.
  intros V W. unfold ends_with. pose proof V as ((_ & B) & E). pose proof W as (_ & F). rewrite E, F.
  destruct (N.leb_spec (N.of_nat (length p)) (N.of_nat (length t))).
  - rewrite usub_le by lia. unfold bind. rewrite (compare_ok v t w p) by (auto; lia). eexists. split; [reflexivity|].
    rewrite is_eq_iff, suffix_skipn, Nat2N.id by lia.
    replace (N.to_nat (N.of_nat (length t) - N.of_nat (length p))) with (length t - length p)%nat by lia.
    rewrite firstn_all2 by (rewrite skipn_length; lia). reflexivity.
  - exists false. split; [reflexivity|]. split; [discriminate|]. intros (r & ->). rewrite app_length in *. lia.
Qed.

Lemma times_comm k p : times k p ++ p = p ++ times k p.
Proof. induction k as [|k IH]; cbn [times]; [now rewrite app_nil_r|]. now rewrite <- app_assoc, IH. Qed.

Lemma remove_prefix_ok w p : views mem w p -> p <> [] ->
  forall fuel v t, views mem v t -> (length t < fuel)%nat ->
  exists k r, t = times k p ++ r /\ ~ prefix_of p r /\
    while fuel (fun s => starts_with cmp mem s w) (fun s => drop_prefix s (sv_size w)) v tt
    = Ok (mkSv (sv_ptr v + N.of_nat (length (times k p))) (N.of_nat (length r))) tt.
Proof.
  intros W P. assert (length p <> 0%nat) as LP by (destruct p; cbn; congruence).
  induction fuel as [|fuel IH]; intros v t V F; [lia|]. cbn [while].
  destruct (starts_ok v t w p V W) as (b & R & B). unfold bind at 1. rewrite R. destruct b.
  - destruct B as [B _]. specialize (B eq_refl). apply prefix_firstn in B.
    assert (length p <= length t)%nat as L by (rewrite <- B, firstn_length; lia).
    pose proof V as (_ & E). pose proof W as (_ & EW). 
    assert (drop_prefix v (sv_size w) tt = Ok (mkSv (sv_ptr v + N.of_nat (length p)) (N.of_nat (length t) - N.of_nat (length p))) tt) as DP
      by (unfold drop_prefix; rewrite E, EW, (proj2 (N.ltb_ge _ _)) by lia; reflexivity).
    unfold bind. rewrite DP. cbv beta iota.
    assert (views mem (mkSv (sv_ptr v + N.of_nat (length p)) (N.of_nat (length t) - N.of_nat (length p))) (skipn (length p) t)) as V'.
    { pose proof (views_part v t (length p) (length t - length p) V L ltac:(lia)) as Q.
      rewrite firstn_all2 in Q by (rewrite skipn_length; lia).
      now replace (N.of_nat (length t) - N.of_nat (length p)) with (N.of_nat (length t - length p)) by lia. }
    destruct (IH _ _ V') as (k & r & E1 & E2 & E3); [rewrite skipn_length; lia|].
    exists (S k), r. split; [|split; [exact E2|]].
    + cbn [times]. rewrite <- app_assoc, <- E1, <- B at 1. now rewrite firstn_skipn.
    + cbn [sv_ptr] in E3. rewrite E3. cbn [times]. rewrite app_length. do 2 f_equal. lia.
  - exists 0%nat, t. split; [reflexivity|]. split; [rewrite <- B; discriminate|].
    pose proof V as (_ & E). cbn [times length]. rewrite N.add_0_r, <- E. now destruct v.
Qed.
Lemma remove_suffix_ok w p : views mem w p -> p <> [] ->
  forall fuel v t, views mem v t -> (length t < fuel)%nat ->
  exists k r, t = r ++ times k p /\ ~ suffix_of p r /\
    while fuel (fun s => ends_with cmp mem s w) (fun s => drop_suffix s (sv_size w)) v tt
    = Ok (mkSv (sv_ptr v) (N.of_nat (length r))) tt.
Proof.
  intros W P. assert (length p <> 0%nat) as LP by (destruct p; cbn; congruence).
  induction fuel as [|fuel IH]; intros v t V F; [lia|]. cbn [while].
  destruct (ends_ok v t w p V W) as (b & R & B). unfold bind at 1. rewrite R. destruct b.
  - destruct B as [B _]. specialize (B eq_refl).
    assert (length p <= length t)%nat as L by (destruct B as (r & ->); rewrite app_length; lia).
    apply suffix_skipn in B; auto.
    pose proof V as (_ & E). pose proof W as (_ & EW). 
    assert (drop_suffix v (sv_size w) tt = Ok (mkSv (sv_ptr v) (N.of_nat (length t) - N.of_nat (length p))) tt) as DP
      by (unfold drop_suffix; rewrite E, EW, (proj2 (N.ltb_ge _ _)) by lia; reflexivity).
    unfold bind. rewrite DP. cbv beta iota.
    assert (views mem (mkSv (sv_ptr v) (N.of_nat (length t) - N.of_nat (length p))) (firstn (length t - length p) t)) as V'.
    { pose proof (views_part v t 0 (length t - length p) V ltac:(lia) ltac:(lia)) as Q.
      cbn [N.of_nat skipn] in Q. rewrite N.add_0_r in Q.
      now replace (N.of_nat (length t) - N.of_nat (length p)) with (N.of_nat (length t - length p)) by lia. }
    destruct (IH _ _ V') as (k & r & E1 & E2 & E3); [rewrite firstn_length; lia|].
    exists (S k), r. split; [|split; [exact E2|]].
    + cbn [times]. rewrite <- times_comm, app_assoc, <- E1.
      transitivity (firstn (length t - length p) t ++ skipn (length t - length p) t); [now rewrite firstn_skipn|now rewrite B].
    + exact E3.
  - exists 0%nat, t. split; [now rewrite app_nil_r|]. split; [rewrite <- B; discriminate|].
    pose proof V as (_ & E). rewrite <- E. now destruct v.
Qed.
End Proofs.
