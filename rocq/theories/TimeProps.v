(** Theorems about time_t.hpp. *)
From Coq Require Import List Arith NArith ZArith Bool Lia.
From Verif Require Import Base VecCommon TimeModel.
Import ListNotations.

Lemma two63_eq : two63 = 9223372036854775808%N. Proof. reflexivity. Qed.
Lemma two64_eq : two64 = 18446744073709551616%N. Proof. reflexivity. Qed.

(** * C46: strftime *)
Section Strftime.
Open Scope N_scope.
Context {C : Type}.
Variables (zero : C) (text : list C) (garble : list C -> list C) (max_size : N) (available : N -> bool).
Hypothesis G : forall b, length (garble b) = length b.

Lemma loop_ok fuel : forall buf, buf <> [] -> text <> [] ->
  max_size < two63 ->
  2 * N.of_nat (length text) <= max_size ->
  (forall n, n <= 2 * N.of_nat (length text) -> available n = true) ->
  N.of_nat (length buf) < two63 ->
  N.of_nat (length text) < N.of_nat (length buf) * 2 ^ N.of_nat fuel ->
  exists rest, loop zero text garble max_size available (S fuel) buf = Ok (N.of_nat (length text)) (text ++ rest).
Proof.
  induction fuel as [|fuel IH]; intros buf B T MX MS AV LB F; cbn [loop]; unfold bind at 1, c_strftime.
  - destruct buf as [|c buf]; [congruence|]. cbn [N.of_nat] in F. rewrite N.pow_0_r, N.mul_1_r in F.
    rewrite (proj2 (Nat.ltb_lt _ _)) by lia.
    rewrite (proj2 (N.eqb_neq _ _)) by (destruct text; [congruence|cbn; lia]). eexists. reflexivity.
  - destruct buf as [|c buf]; [congruence|].
    set (b := c :: buf) in *. assert (length b <> 0)%nat by (cbn; lia). clearbody b.
    destruct (Nat.ltb_spec (length text) (length b)).
    + rewrite (proj2 (N.eqb_neq _ _)) by (destruct text; [congruence|cbn; lia]). eexists. reflexivity.
    + change (0 =? 0) with true. cbv iota. unfold bind at 1, size. rewrite G. unfold bind at 1.
      rewrite N.mod_small by (rewrite two63_eq, two64_eq in *; lia).
      unfold resize. rewrite (proj2 (N.ltb_ge _ _)) by lia. rewrite (proj2 (N.leb_gt _ _)) by (rewrite G; lia).
      rewrite AV by lia. apply IH; auto.
      * destruct (garble b) eqn:E; [|discriminate]. pose proof (G b) as Q. rewrite E in Q. cbn in Q. lia.
      * rewrite app_length, repeat_length, G. rewrite two63_eq in *. lia.
      * rewrite app_length, repeat_length, G. replace (N.of_nat (S fuel)) with (N.succ (N.of_nat fuel)) in F by lia.
        rewrite N.pow_succ_r' in F.
        replace (N.of_nat (length b + (N.to_nat (2 * N.of_nat (length b)) - length b))) with (2 * N.of_nat (length b)) by lia. nia.
Qed.
Lemma loop_empty fuel : text = [] -> forall buf, N.of_nat (length buf) * 2 ^ N.of_nat fuel >= two63 ->
  buf <> [] -> max_size < two63 -> N.of_nat (length buf) < two63 ->
  exists e s, loop zero text garble max_size available (S fuel) buf = Throw e s /\ (e = LengthError \/ e = BadAlloc).
Proof.
  intros T. subst text. induction fuel as [|fuel IH]; intros buf F B MX LB.
  { cbn [N.of_nat] in F. rewrite N.pow_0_r in F. lia. }
  change (loop zero [] garble max_size available (S (S fuel))) with
    (let* len := c_strftime zero [] garble in
     if len =? 0 then (let* n := size in resize zero max_size available ((2 * n) mod two64) ;;; loop zero [] garble max_size available (S fuel)) else ret len).
  assert (exists buf', c_strftime zero [] garble buf = Ok 0 buf' /\ length buf' = length buf) as (buf' & R & LB').
  { unfold c_strftime. destruct buf as [|c buf]; [congruence|]. cbn. eexists. split; [reflexivity|]. reflexivity. }
  unfold bind at 1. rewrite R. change (0 =? 0) with true. cbv iota. unfold bind at 1, size. rewrite LB'.
  assert (0 < length buf)%nat by (destruct buf; [congruence|cbn; lia]).
  rewrite N.mod_small by (rewrite two63_eq, two64_eq in *; lia). unfold bind, resize.
  destruct (N.ltb_spec max_size (2 * N.of_nat (length buf))); [eauto|].
  rewrite (proj2 (N.leb_gt _ _)) by lia. destruct (available _); [|eauto].
  apply IH; auto.
  - rewrite app_length, repeat_length, LB'. replace (N.of_nat (S fuel)) with (N.succ (N.of_nat fuel)) in F by lia.
    rewrite N.pow_succ_r' in F.
    replace (N.of_nat (length buf + (N.to_nat (2 * N.of_nat (length buf)) - length buf))) with (2 * N.of_nat (length buf)) by lia. nia.
  - destruct buf'; [cbn in *; lia|discriminate].
  - rewrite app_length, repeat_length, LB'. lia.
Qed.
Lemma start_ok fuel : 128 <= max_size -> available 128 = true ->
  strftime zero text garble max_size available fuel [] =
  (let* len := loop zero text garble max_size available fuel in resize zero max_size available len) (repeat zero 128).
Proof.
  intros MS A. unfold strftime, bind at 1, resize at 1. rewrite (proj2 (N.ltb_ge _ _)) by lia. cbn [length]. cbn [N.of_nat].
  change (128 <=? 0) with false. cbv iota. rewrite A. reflexivity.
Qed.
End Strftime.

(** Missing: the empty text, see below. A buffer up to twice the length of the text is
    needed. *)
Theorem C46_strftime_partial {C} (zero : C) (text : list C) (garble : list C -> list C) (max_size : N) (available : N -> bool) (fuel : nat) :
  (forall b, length (garble b) = length b) -> text <> [] ->
  (max_size < two63)%N -> (128 <= max_size)%N -> (2 * N.of_nat (length text) <= max_size)%N ->
  (forall n, (n <= N.max 128 (2 * N.of_nat (length text)))%N -> available n = true) ->
  64 <= fuel ->
  strftime zero text garble max_size available fuel [] = Ok tt text.
Proof.
  intros G T MX M1 M2 AV F. destruct fuel as [|fuel]; [lia|]. rewrite start_ok by (auto; apply AV; lia). unfold bind.
  destruct (loop_ok zero text garble max_size available G fuel (repeat zero 128)) as (rest & R); auto.
  - discriminate.
  - intros n L. apply AV. lia.
  - reflexivity.
  - rewrite repeat_length. rewrite two63_eq in *.
    pose proof (N.pow_le_mono_r 2 63 (N.of_nat fuel) ltac:(lia) ltac:(lia)) as Q.
    change (2 ^ 63)%N with 9223372036854775808%N in Q. lia.
  - rewrite R. unfold resize. rewrite (proj2 (N.ltb_ge _ _)) by lia.
    rewrite (proj2 (N.leb_le _ _)) by (rewrite app_length; lia). rewrite Nat2N.id.
    now rewrite firstn_app, firstn_all, Nat.sub_diag, app_nil_r.
Qed.
Print Assumptions C46_strftime_partial.
Example C46_strftime_example :
  strftime 0 (repeat 7 200) (fun b => b) 100000 (fun _ => true) 64 [] = Ok tt (repeat 7 200).
Proof. vm_compute. reflexivity. Qed.

(** The empty text (an empty format, or for example %p in some locales) looks like a
    too small buffer: the buffer grows until the allocation, or in the end the size, fails. *)
Theorem C46_empty_text_refuted {C} (zero : C) (garble : list C -> list C) (max_size : N) (available : N -> bool) (fuel : nat) :
  (max_size < two63)%N -> (128 <= max_size)%N -> available 128%N = true -> 64 <= fuel ->
  exists e s, strftime zero [] garble max_size available fuel [] = Throw e s /\ (e = LengthError \/ e = BadAlloc).
Proof.
  intros MX M1 A F. destruct fuel as [|fuel]; [lia|]. rewrite start_ok by auto. unfold bind.
  destruct (loop_empty zero [] garble max_size available fuel eq_refl (repeat zero 128)) as (e & s & R & E); auto.
  - rewrite repeat_length. rewrite two63_eq.
    pose proof (N.pow_le_mono_r 2 63 (N.of_nat fuel) ltac:(lia) ltac:(lia)) as Q.
    change (2 ^ 63)%N with 9223372036854775808%N in Q. lia.
  - discriminate.
  - reflexivity.
  - rewrite R. eauto.
Qed.
Print Assumptions C46_empty_text_refuted.
Example C46_empty_text_example :
  exists s, strftime 0 [] (fun b => b) 600 (fun _ => true) 64 [] = Throw LengthError s /\ length s = 512.
Proof. eexists. split; [vm_compute; reflexivity|reflexivity]. Qed.

(** * C47: arithmetic *)
Open Scope Z_scope.
(** the whole seconds of a duration *)
Definition whole_seconds (d : duration) : Z := Z.quot (count d * num d) (den d).
Definition representable (z : Z) : Prop := - Z.of_N two63 <= z < Z.of_N two63.
Definition valid (d : duration) : Prop := representable (count d) /\ 0 < num d /\ 0 < den d.

Lemma fits_iff z : fits z = true <-> representable z.
Proof. unfold fits, representable. rewrite andb_true_iff, Z.leb_le, Z.ltb_lt. reflexivity. Qed.
Lemma int64_ok z : representable z -> int64 z tt = Ok z tt.
Proof. intros F. unfold int64. now rewrite (proj2 (fits_iff z) F). Qed.
Lemma quot_fits p q : representable p -> 0 < q -> representable (Z.quot p q).
Proof.
  unfold representable. rewrite two63_eq. intros F Q. 
  assert (Z.abs (Z.quot p q) <= Z.abs p) as A.
  { rewrite <- Z.quot_abs by lia. rewrite (Z.abs_eq q) by lia. rewrite Z.quot_div_nonneg by lia. apply Z.div_le_upper_bound; nia. }
  destruct (Z.eq_dec q 1) as [->|]; [rewrite Z.quot_1_r; auto|].
  destruct (Z.le_gt_cases 0 p).
  - pose proof (Z.quot_pos p q ltac:(lia) ltac:(lia)). lia.
  - pose proof (Z.quot_pos (- p) q ltac:(lia) ltac:(lia)) as Q2. rewrite Z.quot_opp_l in Q2 by lia. lia.
Qed.
Lemma dc_ok d : valid d -> representable (count d * num d) -> dc d tt = Ok (whole_seconds d) tt.
Proof.
  intros (F & N & D) P. unfold dc, duration_cast, whole_seconds.
  destruct (Z.eqb_spec (num d) 1) as [->|].
  - rewrite Z.mul_1_r. destruct (Z.eqb_spec (den d) 1) as [->|]; [now rewrite Z.quot_1_r|]. apply int64_ok. now apply quot_fits.
  - destruct (Z.eqb_spec (den d) 1) as [->|]; [rewrite Z.quot_1_r; now apply int64_ok|].
    unfold bind. rewrite int64_ok by auto. apply int64_ok. now apply quot_fits.
Qed.

(** Missing: durations whose count times the numerator of the period is not representable,
    see below. *)
Theorem C47_arithmetic_partial (t : Z) (d : duration) :
  representable t -> valid d -> representable (count d * num d) ->
  representable (t + whole_seconds d) -> representable (t - whole_seconds d) ->
  exists a b, plus t d tt = Ok a tt /\ minus t d tt = Ok b tt /\
    diff a t tt = Ok (whole_seconds d) tt /\ minus a d tt = Ok t tt /\ plus b d tt = Ok t tt /\
    (lt t a = true <-> 1 <= whole_seconds d) /\ (eq t a = true <-> whole_seconds d = 0) /\
    (gt t a = true <-> whole_seconds d <= -1).
Proof.
  intros F V P A B. exists (t + whole_seconds d), (t - whole_seconds d).
  pose proof (dc_ok d V P) as R. pose proof (quot_fits _ (den d) P ltac:(destruct V as (_ & _ & V); exact V)) as W.
  fold (whole_seconds d) in W. unfold plus, minus, diff, bind. rewrite R.
  rewrite !int64_ok; replace (t + whole_seconds d - t) with (whole_seconds d) by ring;
    replace (t + whole_seconds d - whole_seconds d) with t by ring;
    replace (t - whole_seconds d + whole_seconds d) with t by ring; auto.
  repeat split; auto; unfold lt, eq, gt; rewrite ?Z.ltb_lt, ?Z.eqb_eq; lia.
Qed.
Print Assumptions C47_arithmetic_partial.
Example C47_arithmetic_example :
  valid (mkDuration (-2700) 1 1000) /\ whole_seconds (mkDuration (-2700) 1 1000) = -2 /\
  plus 100 (mkDuration (-2700) 1 1000) tt = Ok 98 tt /\ minus 98 (mkDuration (-2700) 1 1000) tt = Ok 100 tt.
Proof. repeat split; try reflexivity; vm_compute; congruence. Qed.

(** The difference of times is undefined exactly when it does not fit. *)
Theorem C47_difference (a b : Z) :
  diff a b tt = (if fits (a - b) then Ok (a - b) tt else UB) /\
  (lt b a = true <-> 0 < a - b) /\ (le b a = true <-> 0 <= a - b) /\
  (gt b a = true <-> a - b < 0) /\ (ge b a = true <-> a - b <= 0) /\
  (eq b a = true <-> a - b = 0) /\ (ne b a = true <-> a - b <> 0).
Proof.
  split; [unfold diff, int64; destruct (fits (a - b)); reflexivity|].
  unfold lt, le, gt, ge, eq, ne. rewrite negb_true_iff, !Z.ltb_lt, !Z.leb_le, Z.eqb_eq, Z.eqb_neq. lia.
Qed.
Print Assumptions C47_difference.
Example C47_difference_example : diff 5 9 tt = Ok (-4) tt.
Proof. reflexivity. Qed.

(** For periods which are neither a whole number of seconds nor one part of a second, the
    product with the numerator overflows although the duration is representable. *)
Theorem C47_period_refuted (t : Z) (d : duration) :
  valid d -> representable (t + whole_seconds d) -> representable (t - whole_seconds d) ->
  num d <> 1 -> den d <> 1 -> ~ representable (count d * num d) ->
  plus t d tt = UB /\ minus t d tt = UB.
Proof.
  intros _ _ _ N D P. assert (int64 (count d * num d) tt = UB) as U.
  { unfold int64. destruct (fits (count d * num d)) eqn:F; [now apply fits_iff in F|reflexivity]. }
  assert (dc d tt = UB) as R.
  { unfold dc, duration_cast. rewrite (proj2 (Z.eqb_neq _ _)) by auto. rewrite (proj2 (Z.eqb_neq _ _)) by auto.
    unfold bind. now rewrite U. }
  unfold plus, minus, bind. now rewrite R.
Qed.
Print Assumptions C47_period_refuted.
Example C47_period_example :
  let d := mkDuration (2 ^ 62) 3 4 in
  valid d /\ representable (0 + whole_seconds d) /\ representable (0 - whole_seconds d) /\
  ~ representable (count d * num d) /\ plus 0 d tt = UB.
Proof.
  repeat split; try reflexivity; try (vm_compute; congruence).
  intros (_ & H). vm_compute in H. congruence.
Qed.

(** ** Durations counted in std::uint64_t *)
Definition u_valid (d : duration) : Prop :=
  0 <= count d < Z.of_N two64 /\ 0 < num d < Z.of_N two63 /\ 0 < den d < Z.of_N two63.

Lemma whole_div d : u_valid d -> whole_seconds d = count d * num d / den d.
Proof. intros (C & N & D). unfold whole_seconds. apply Z.quot_div_nonneg; nia. Qed.
Lemma to_int64_small z : 0 <= z < Z.of_N two63 -> to_int64 z = z.
Proof.
  intros H. unfold to_int64. rewrite (proj2 (fits_iff z)); [reflexivity|].
  unfold representable. lia.
Qed.
Lemma to_int64_big z : Z.of_N two63 <= z -> to_int64 z = z - Z.of_N two64.
Proof.
  intros H. unfold to_int64. destruct (fits z) eqn:F; [|reflexivity].
  apply fits_iff in F. unfold representable in F. lia.
Qed.
Lemma int64_no z : ~ representable z -> int64 z tt = UB.
Proof. intros F. unfold int64. destruct (fits z) eqn:E; [now apply fits_iff in E|reflexivity]. Qed.

Lemma u_cast_ok d : u_valid d -> count d * num d < Z.of_N two64 -> whole_seconds d < Z.of_N two63 ->
  u_duration_cast d = whole_seconds d.
Proof.
  intros V P W. pose proof (whole_div d V) as E. destruct V as (C & N & D).
  rewrite E in *. unfold u_duration_cast, uint64. rewrite !Z.mod_small by nia.
  destruct (Z.eqb_spec (num d) 1) as [N1|N1], (Z.eqb_spec (den d) 1) as [D1|D1];
    rewrite ?N1, ?D1, ?Z.mul_1_r, ?Z.div_1_r in *;
    apply to_int64_small; split; auto; try (apply Z.div_pos; nia); nia.
Qed.

Theorem C47_unsigned_partial (t : Z) (d : duration) :
  representable t -> u_valid d -> count d * num d < Z.of_N two64 ->
  whole_seconds d < Z.of_N two63 ->
  (representable (t + whole_seconds d) -> u_plus t d tt = Ok (t + whole_seconds d) tt) /\
  (representable (t - whole_seconds d) -> u_minus t d tt = Ok (t - whole_seconds d) tt).
Proof.
  intros F V P W. unfold u_plus, u_minus. rewrite u_cast_ok by auto.
  split; intros R; now apply int64_ok.
Qed.
Print Assumptions C47_unsigned_partial.
Example C47_unsigned_example :
  let d := mkDuration (2 ^ 64 - 1) 1 1000 in
  u_valid d /\ count d * num d < Z.of_N two64 /\ whole_seconds d < Z.of_N two63 /\
  u_plus (-5) d tt = Ok (-5 + whole_seconds d) tt.
Proof. repeat split; try reflexivity; vm_compute; congruence. Qed.

(** Of 2^63 seconds on the count turns negative, and the sum overflows although the exact
    one is representable. *)
Theorem C47_unsigned_seconds_refuted (t : Z) (d : duration) :
  representable t -> u_valid d -> num d = 1 -> den d = 1 -> Z.of_N two63 <= count d ->
  (representable (t + count d) -> u_plus t d tt = UB) /\
  (representable (t - count d) -> u_minus t d tt = UB).
Proof.
  intros F V N1 D1 B. unfold u_plus, u_minus, u_duration_cast. rewrite N1, D1. cbn [Z.eqb Pos.eqb].
  rewrite to_int64_big by exact B. unfold representable in *.
  split; intros R; apply int64_no; unfold representable; rewrite two64_eq, two63_eq in *; lia.
Qed.
Print Assumptions C47_unsigned_seconds_refuted.
Example C47_unsigned_seconds_example :
  let d := mkDuration (2 ^ 63) 1 1 in
  u_valid d /\ representable (-10 + count d) /\ u_plus (-10) d tt = UB /\
  representable (10 - count d) /\ u_minus 10 d tt = UB.
Proof. repeat split; try reflexivity; vm_compute; congruence. Qed.

(** Where the product wraps around and is then divided, the result is silently too small. *)
Theorem C47_unsigned_wraps_refuted (t : Z) (d : duration) :
  representable t -> u_valid d -> num d <> 1 -> den d <> 1 -> Z.of_N two64 <= count d * num d ->
  representable (t + whole_seconds d) ->
  exists a, u_plus t d tt = Ok a tt /\ t <= a < t + whole_seconds d.
Proof.
  intros F V N1 D1 B R. pose proof (whole_div d V) as E. destruct V as (C & N & D).
  unfold u_plus, u_duration_cast, uint64.
  rewrite (proj2 (Z.eqb_neq _ _) N1), (proj2 (Z.eqb_neq _ _) D1).
  set (x := count d * num d) in *. set (y := x mod Z.of_N two64).
  assert (Hy : 0 <= y < Z.of_N two64) by (apply Z.mod_pos_bound; rewrite two64_eq; lia).
  assert (Hyx : y + Z.of_N two64 <= x).
  { pose proof (Z.div_mod x (Z.of_N two64) ltac:(rewrite two64_eq; lia)) as DM. fold y in DM.
    assert (1 <= x / Z.of_N two64) by (apply Z.div_le_lower_bound; rewrite ?two64_eq in *; lia). nia. }
  assert (Hq0 : 0 <= y / den d) by (apply Z.div_pos; lia).
  assert (Hq : y / den d < Z.of_N two63).
  { apply Z.div_lt_upper_bound; [lia|]. rewrite two64_eq, two63_eq in *. nia. }
  assert (Hlt : y / den d < x / den d).
  { assert (y / den d + 1 <= x / den d); [|lia].
    replace (y / den d + 1) with ((y + 1 * den d) / den d) by (apply Z.div_add; lia).
    apply Z.div_le_mono; [lia|]. rewrite two64_eq, two63_eq in *. lia. }
  rewrite to_int64_small by lia. rewrite E in *.
  exists (t + y / den d). split; [|lia]. apply int64_ok. unfold representable in *. lia.
Qed.
Print Assumptions C47_unsigned_wraps_refuted.
Example C47_unsigned_wraps_example :
  let d := mkDuration (2 ^ 63) 3 4 in
  u_valid d /\ representable (0 + whole_seconds d) /\ Z.of_N two64 <= count d * num d /\
  whole_seconds d = 3 * 2 ^ 61 /\ u_plus 0 d tt = Ok (2 ^ 61) tt.
Proof. repeat split; try reflexivity; vm_compute; congruence. Qed.
