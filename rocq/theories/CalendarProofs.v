(** Proofs about the calendar and the conversions of time_t.hpp. *)
From Coq Require Import List ZArith Bool Lia.
From Verif Require Import CalendarModel CalendarSpec.
Open Scope Z_scope.

(** ** Dates *)
Lemma month_days_pos : forall y m, 28 <= month_days y m <= 31.
Proof.
  intros y m. unfold month_days. destruct (m =? 2); [destruct (leap y); lia|].
  destruct (_ || _); lia.
Qed.

Lemma next_day_valid : forall d, valid_date d -> valid_date (next_day d).
Proof.
  intros [y m k] [Hm Hk]. cbn in *. unfold next_day, valid_date. cbn.
  destruct (k <? _) eqn:E1; [apply Z.ltb_lt in E1; cbn; lia|].
  destruct (m <? 12) eqn:E2; cbn.
  - apply Z.ltb_lt in E2. pose proof (month_days_pos y (m + 1)). lia.
  - pose proof (month_days_pos (y + 1) 1). lia.
Qed.

Definition date_lt (a b : date) : Prop :=
  year a < year b \/ year a = year b /\
  (month a < month b \/ month a = month b /\ day a < day b).

Lemma date_lt_trans : forall a b c, date_lt a b -> date_lt b c -> date_lt a c.
Proof. unfold date_lt. intros; lia. Qed.

Lemma next_day_later : forall d, valid_date d -> date_lt d (next_day d).
Proof.
  intros [y m k] [Hm Hk]. cbn in *. unfold next_day, date_lt. cbn.
  destruct (k <? _) eqn:E1; cbn; [lia|].
  destruct (m <? 12) eqn:E2; cbn; lia.
Qed.

Lemma next_day_inj : forall d e, valid_date d -> valid_date e -> next_day d = next_day e -> d = e.
Proof.
  intros [y m k] [y' m' k'] [Hm Hk] [Hm' Hk'] H. cbn in *. unfold next_day in H. cbn in H.
  destruct (k <? _) eqn:E1; destruct (k' <? _) eqn:E1';
    [| destruct (m' <? 12) eqn:E2' | destruct (m <? 12) eqn:E2
     | destruct (m <? 12) eqn:E2; destruct (m' <? 12) eqn:E2'];
    injection H; intros; subst;
    repeat match goal with
           | H : (_ <? _) = true |- _ => apply Z.ltb_lt in H
           | H : (_ <? _) = false |- _ => apply Z.ltb_ge in H
           end; try (exfalso; lia).
  - f_equal; lia.
  - assert (m = m') by lia. subst m'. f_equal; lia.
  - assert (m = 12) by lia. assert (m' = 12) by lia. assert (y = y') by lia. subst.
    f_equal; lia.
Qed.

Lemma day_number_valid : forall d n, day_number d n -> valid_date d.
Proof.
  induction 1 as [|d n H IH|d n V H IH].
  - unfold valid_date. cbn. lia.
  - apply next_day_valid. exact IH.
  - exact V.
Qed.

(** ** The calendar repeats every 400 years *)
Definition shift (k : Z) (d : date) : date := mkDate (year d + 400 * k) (month d) (day d).

Lemma leap_shift : forall y k, leap (y + 400 * k) = leap y.
Proof.
  intros y k. unfold leap.
  replace ((y + 400 * k) mod 4) with (y mod 4)
    by (replace (y + 400 * k) with (y + (100 * k) * 4) by lia; now rewrite Z.mod_add by lia).
  replace ((y + 400 * k) mod 100) with (y mod 100)
    by (replace (y + 400 * k) with (y + (4 * k) * 100) by lia; now rewrite Z.mod_add by lia).
  replace ((y + 400 * k) mod 400) with (y mod 400)
    by (replace (y + 400 * k) with (y + k * 400) by lia; now rewrite Z.mod_add by lia).
  reflexivity.
Qed.

Lemma month_days_shift : forall y k m, month_days (y + 400 * k) m = month_days y m.
Proof. intros. unfold month_days. now rewrite leap_shift. Qed.

Lemma next_day_shift : forall k d, next_day (shift k d) = shift k (next_day d).
Proof.
  intros k [y m x]. unfold next_day, shift. cbn [year month day]. rewrite month_days_shift.
  destruct (x <? _); cbn [year month day]; [reflexivity|].
  destruct (m <? 12); cbn [year month day]; [reflexivity|].
  f_equal. lia.
Qed.

Lemma shift_valid : forall k d, valid_date d -> valid_date (shift k d).
Proof. intros k [y m x]. unfold valid_date, shift. cbn [year month day]. now rewrite month_days_shift. Qed.

Definition epoch : date := mkDate 1970 1 1.
Definition cycle : Z := 146097.
(** The day [n] days into the years from 1970 to 2369. *)
Definition in_cycle (n : N) : date := N.iter n next_day epoch.

Lemma whole_cycle : in_cycle (Z.to_N cycle) = shift 1 epoch.
Proof. vm_compute. reflexivity. Qed.

Definition date_of (n : Z) : date := shift (n / cycle) (in_cycle (Z.to_N (n mod cycle))).

Lemma in_cycle_valid : forall n, valid_date (in_cycle n).
Proof.
  intros n. unfold in_cycle. apply N.iter_invariant.
  - exact next_day_valid.
  - unfold valid_date, epoch. cbn. lia.
Qed.

Lemma date_of_valid : forall n, valid_date (date_of n).
Proof. intros. apply shift_valid, in_cycle_valid. Qed.

Lemma date_of_next : forall n, date_of (n + 1) = next_day (date_of n).
Proof.
  intros n. unfold date_of. rewrite next_day_shift.
  pose proof (Z.div_mod n cycle ltac:(discriminate)) as D.
  pose proof (Z.mod_pos_bound n cycle ltac:(reflexivity)) as B.
  set (q := n / cycle) in *. set (r := n mod cycle) in *.
  assert (E : in_cycle (Z.to_N (r + 1)) = next_day (in_cycle (Z.to_N r))).
  { replace (Z.to_N (r + 1)) with (N.succ (Z.to_N r)) by lia. unfold in_cycle.
    now rewrite N.iter_succ. }
  rewrite <- E.
  destruct (Z.eq_dec (r + 1) cycle) as [L|L].
  - assert (Q : (n + 1) / cycle = q + 1).
    { symmetry. apply Z.div_unique with (r := 0); unfold cycle in *; lia. }
    assert (R : (n + 1) mod cycle = 0).
    { symmetry. apply Z.mod_unique with (q := q + 1); unfold cycle in *; lia. }
    rewrite Q, R, L, whole_cycle. unfold shift, in_cycle. cbn - [Z.mul Z.add]. f_equal. lia.
  - assert (Q : (n + 1) / cycle = q).
    { symmetry. apply Z.div_unique with (r := r + 1); unfold cycle in *; lia. }
    assert (R : (n + 1) mod cycle = r + 1).
    { symmetry. apply Z.mod_unique with (q := q); unfold cycle in *; lia. }
    now rewrite Q, R.
Qed.

Lemma date_of_0 : date_of 0 = epoch.
Proof. reflexivity. Qed.

Lemma day_number_date : forall d n, day_number d n -> d = date_of n.
Proof.
  induction 1 as [|d n H IH|d n V H IH].
  - reflexivity.
  - rewrite date_of_next. now f_equal.
  - rewrite date_of_next in IH. apply next_day_inj; [exact V|apply date_of_valid|exact IH].
Qed.

Lemma date_number : forall n, day_number (date_of n) n.
Proof.
  intros n. destruct (Z_le_gt_dec 0 n) as [P|P].
  - pattern n. apply natlike_ind; [apply dn_epoch| |exact P].
    intros x _ IH. unfold Z.succ. rewrite date_of_next. now apply dn_after.
  - replace n with (- (- n)) by lia. pattern (- n). apply natlike_ind; [apply dn_epoch| |lia].
    intros x _ IH. apply dn_before; [apply date_of_valid|].
    rewrite <- date_of_next. now replace (- Z.succ x + 1) with (- x) by lia.
Qed.

Lemma date_of_lt : forall n m, n < m -> date_lt (date_of n) (date_of m).
Proof.
  intros n m H. replace m with (n + 1 + (m - n - 1)) by lia.
  pattern (m - n - 1). apply natlike_ind; [| |lia].
  - rewrite Z.add_0_r, date_of_next. apply next_day_later, date_of_valid.
  - intros x _ IH. apply date_lt_trans with (1 := IH).
    replace (n + 1 + Z.succ x) with (n + 1 + x + 1) by lia. rewrite (date_of_next (n + 1 + x)).
    apply next_day_later, date_of_valid.
Qed.

Lemma date_lt_irrefl : forall d, ~ date_lt d d.
Proof. unfold date_lt. intros d H. lia. Qed.

Lemma day_number_unique : forall d n m, day_number d n -> day_number d m -> n = m.
Proof.
  intros d n m H H'. apply day_number_date in H, H'.
  destruct (Z.lt_trichotomy n m) as [L|[L|L]]; [|exact L|]; exfalso;
    apply date_of_lt in L; rewrite <- H, <- H' in L; exact (date_lt_irrefl _ L).
Qed.

Lemma day_number_later : forall d e n m, day_number d n -> day_number e m -> n < m -> date_lt d e.
Proof.
  intros d e n m H H' L. rewrite (day_number_date _ _ H), (day_number_date _ _ H').
  now apply date_of_lt.
Qed.

(** ** Months and years *)
Lemma days_on : forall y m n, 1 <= m <= 12 -> day_number (mkDate y m 1) n ->
  forall k, 0 <= k -> 1 + k <= month_days y m -> day_number (mkDate y m (1 + k)) (n + k).
Proof.
  intros y m n Hm H k K. pattern k. apply natlike_ind; [| |exact K].
  - intros _. now rewrite !Z.add_0_r.
  - intros x X IH L. specialize (IH ltac:(lia)). apply dn_after in IH.
    unfold next_day in IH. cbn - [Z.add] in IH.
    replace (1 + x <? month_days y m) with true in IH by (symmetry; apply Z.ltb_lt; lia).
    replace (1 + Z.succ x) with (1 + x + 1) by lia.
    replace (n + Z.succ x) with (n + x + 1) by lia. exact IH.
Qed.

Lemma month_on : forall y m n, 1 <= m < 12 -> day_number (mkDate y m 1) n ->
  day_number (mkDate y (m + 1) 1) (n + month_days y m).
Proof.
  intros y m n Hm H. pose proof (month_days_pos y m) as P.
  pose proof (days_on y m n ltac:(lia) H (month_days y m - 1) ltac:(lia) ltac:(lia)) as L.
  apply dn_after in L. unfold next_day in L. cbn - [Z.add Z.sub] in L.
  replace (1 + (month_days y m - 1)) with (month_days y m) in L by lia.
  rewrite Z.ltb_irrefl in L. replace (m <? 12) with true in L by (symmetry; apply Z.ltb_lt; lia).
  now replace (n + (month_days y m - 1) + 1) with (n + month_days y m) in L by lia.
Qed.

Lemma december_on : forall y n, day_number (mkDate y 12 1) n -> day_number (mkDate (y + 1) 1 1) (n + 31).
Proof.
  intros y n H.
  pose proof (days_on y 12 n ltac:(lia) H 30 ltac:(lia) ltac:(cbn; lia)) as L.
  apply dn_after in L. cbn in L. now replace (n + 30 + 1) with (n + 31) in L by lia.
Qed.

(** The days of the year before month [m]. *)
Fixpoint days_before (y : Z) (m : nat) : Z :=
  match m with
  | O => 0
  | S m' => days_before y m' + month_days y (Z.of_nat m)
  end.

Lemma months_on : forall y n, day_number (mkDate y 1 1) n ->
  forall m, (m < 12)%nat -> day_number (mkDate y (1 + Z.of_nat m) 1) (n + days_before y m).
Proof.
  intros y n H. induction m as [|m IH]; intros L.
  - cbn. now rewrite Z.add_0_r.
  - specialize (IH ltac:(lia)). apply month_on in IH; [|lia].
    replace (1 + Z.of_nat (S m)) with (1 + Z.of_nat m + 1) by lia. cbn [days_before].
    rewrite Z.add_assoc. now replace (Z.of_nat (S m)) with (1 + Z.of_nat m) by lia.
Qed.

Definition year_days (y : Z) : Z := if leap y then 366 else 365.

Lemma year_on : forall y n, day_number (mkDate y 1 1) n ->
  day_number (mkDate (y + 1) 1 1) (n + year_days y).
Proof.
  intros y n H. pose proof (months_on y n H 11%nat ltac:(lia)) as L.
  apply december_on in L. unfold year_days.
  replace (n + days_before y 11 + 31) with (n + (if leap y then 366 else 365)) in L; [exact L|].
  rewrite <- Z.add_assoc. f_equal. cbn. unfold month_days. cbn. destruct (leap y); reflexivity.
Qed.

(** The days from 1970 to the beginning of year [y]. *)
Definition leaps (y : Z) : Z := y / 4 - y / 100 + y / 400.
Definition year_start (y : Z) : Z := 365 * (y - 1970) + (leaps (y - 1) - leaps 1969).

Lemma div_step : forall y k, 0 < k -> y / k = (y - 1) / k + (if y mod k =? 0 then 1 else 0).
Proof.
  intros y k K. pose proof (Z.div_mod y k ltac:(lia)) as D.
  pose proof (Z.mod_pos_bound y k K) as B. destruct (y mod k =? 0) eqn:E.
  - apply Z.eqb_eq in E. assert ((y - 1) / k = y / k - 1); [|lia]. symmetry.
    apply Z.div_unique with (r := k - 1); lia.
  - apply Z.eqb_neq in E. assert ((y - 1) / k = y / k); [|lia]. symmetry.
    apply Z.div_unique with (r := y mod k - 1); lia.
Qed.

Lemma year_start_next : forall y, year_start (y + 1) = year_start y + year_days y.
Proof.
  intros y. unfold year_start, leaps, year_days. replace (y + 1 - 1) with y by lia.
  rewrite (div_step y 4), (div_step y 100), (div_step y 400) by lia. unfold leap.
  pose proof (Z.mod_pos_bound y 400 ltac:(lia)) as B.
  assert (M4 : y mod 4 = (y mod 400) mod 4).
  { pose proof (Z.div_mod y 400 ltac:(lia)) as D. rewrite D at 1.
    replace (400 * (y / 400) + y mod 400) with (y mod 400 + 100 * (y / 400) * 4) by lia.
    now rewrite Z.mod_add by lia. }
  assert (M100 : y mod 100 = (y mod 400) mod 100).
  { pose proof (Z.div_mod y 400 ltac:(lia)) as D. rewrite D at 1.
    replace (400 * (y / 400) + y mod 400) with (y mod 400 + 4 * (y / 400) * 100) by lia.
    now rewrite Z.mod_add by lia. }
  destruct (y mod 400 =? 0) eqn:E400.
  - apply Z.eqb_eq in E400. rewrite E400 in M4, M100. rewrite M4, M100, !Z.mod_0_l, !Z.eqb_refl by lia.
    cbn [andb orb negb]. lia.
  - destruct (y mod 100 =? 0) eqn:E100.
    + apply Z.eqb_eq in E100.
      assert (E4 : y mod 4 = 0).
      { pose proof (Z.div_mod y 100 ltac:(lia)) as D. rewrite E100 in D. rewrite D.
        replace (100 * (y / 100) + 0) with (0 + 25 * (y / 100) * 4) by lia.
        now rewrite Z.mod_add by lia. }
      rewrite E4, Z.eqb_refl. cbn [andb orb negb]. lia.
    + destruct (y mod 4 =? 0); cbn [andb orb negb]; lia.
Qed.

Lemma date_of_shift : forall n k, date_of (n + k * cycle) = shift k (date_of n).
Proof.
  intros n k. unfold date_of. rewrite Z.div_add, Z.mod_add by discriminate.
  unfold shift. cbn - [Z.mul]. f_equal. lia.
Qed.

Lemma year_start_shift : forall y k, year_start (y + 400 * k) = year_start y + k * cycle.
Proof.
  intros y k. unfold year_start, leaps, cycle.
  replace ((y + 400 * k - 1) / 4) with ((y - 1) / 4 + 100 * k)
    by (rewrite <- Z.div_add by lia; f_equal; lia).
  replace ((y + 400 * k - 1) / 100) with ((y - 1) / 100 + 4 * k)
    by (rewrite <- Z.div_add by lia; f_equal; lia).
  replace ((y + 400 * k - 1) / 400) with ((y - 1) / 400 + k)
    by (rewrite <- Z.div_add by lia; f_equal; lia).
  lia.
Qed.

Lemma year_start_number : forall y, day_number (mkDate y 1 1) (year_start y).
Proof.
  assert (P : forall y, 1970 <= y -> day_number (mkDate y 1 1) (year_start y)).
  { intros y P. replace y with (1970 + (y - 1970)) by lia. pattern (y - 1970).
    apply natlike_ind; [apply dn_epoch| |lia].
    intros x _ IH. apply year_on in IH. rewrite <- year_start_next in IH.
    now replace (1970 + Z.succ x) with (1970 + x + 1) by lia. }
  intros y. specialize (P (y + 400 * (Z.abs y + 1970)) ltac:(lia)).
  set (k := Z.abs y + 1970) in *.
  rewrite year_start_shift in P. apply day_number_date in P. rewrite date_of_shift in P.
  pose proof (date_number (year_start y)) as N. destruct (date_of (year_start y)) as [a b c].
  unfold shift in P. cbn - [Z.mul] in P. injection P as P1 P2 P3.
  replace a with y in N by lia. now subst b c.
Qed.

(** The number of the first day of a month. *)
Definition month_start (y m : Z) : Z := year_start y + days_before y (Z.to_nat (m - 1)).

Lemma month_start_number : forall y m, 1 <= m <= 12 -> day_number (mkDate y m 1) (month_start y m).
Proof.
  intros y m H. pose proof (months_on y _ (year_start_number y) (Z.to_nat (m - 1)) ltac:(lia)) as L.
  now replace (1 + Z.of_nat (Z.to_nat (m - 1))) with m in L by lia.
Qed.

(** ** Broken-down times *)
Definition tm_of (t : Z) : tm :=
  let n := t / 86400 in let s := t mod 86400 in let d := date_of n in
  mkTm (s mod 60) (s / 60 mod 60) (s / 3600) (day d) (month d - 1) (year d - 1900)
       ((n + 4) mod 7) (n - year_start (year d)) 0.

Lemma tm_of_utc : forall t, utc t (tm_of t).
Proof.
  intros t. unfold utc, tm_of. cbn [tm_sec tm_min tm_hour tm_mday tm_mon tm_year tm_wday tm_yday tm_isdst].
  set (n := t / 86400). set (s := t mod 86400).
  pose proof (Z.div_mod t 86400 ltac:(lia)) as D. fold n s in D.
  pose proof (Z.mod_pos_bound t 86400 ltac:(lia)) as B. fold s in B.
  pose proof (Z.div_mod s 60 ltac:(lia)) as D1. pose proof (Z.mod_pos_bound s 60 ltac:(lia)) as B1.
  pose proof (Z.div_mod (s / 60) 60 ltac:(lia)) as D2.
  pose proof (Z.mod_pos_bound (s / 60) 60 ltac:(lia)) as B2.
  assert (D3 : s / 60 / 60 = s / 3600) by now rewrite Z.div_div by lia.
  rewrite D3 in D2.
  exists (date_of n), n. split; [apply date_number|].
  split; [lia|]. split; [split; [apply Z.div_pos; lia|apply Z.div_lt_upper_bound; lia]|].
  split; [lia|]. split; [lia|]. do 4 (split; [reflexivity|]).
  split; [|reflexivity].
  replace (n - (n - year_start (year (date_of n)))) with (year_start (year (date_of n))) by lia.
  apply year_start_number.
Qed.

Lemma utc_unique : forall t b b', utc t b -> utc t b' -> b = b'.
Proof.
  intros t [se mi ho md mo ye wd yd ds] [se' mi' ho' md' mo' ye' wd' yd' ds'].
  unfold utc. cbn [tm_sec tm_min tm_hour tm_mday tm_mon tm_year tm_wday tm_yday tm_isdst].
  intros (d & n & N & T & H & M & S & Y & O & D & W & J & I)
         (d' & n' & N' & T' & H' & M' & S' & Y' & O' & D' & W' & J' & I').
  assert (n = n') by lia. subst n'.
  assert (d = d') by (rewrite (day_number_date _ _ N), (day_number_date _ _ N'); reflexivity).
  subst d'. pose proof (day_number_unique _ _ _ J J').
  f_equal; lia.
Qed.

Lemma utc_time : forall t t' b, utc t b -> utc t' b -> t = t'.
Proof.
  unfold utc.
  intros t t' b (d & n & N & T & H & M & S & Y & O & D & W & J & I)
         (d' & n' & N' & T' & H' & M' & S' & Y' & O' & D' & W' & J' & I').
  assert (d = d') by (destruct d, d'; cbn in *; f_equal; lia). subst d'.
  pose proof (day_number_unique _ _ _ N N'). lia.
Qed.

(** The date of a normalised time says its time. *)
Lemma utc_says : forall t b, utc t b -> says b t.
Proof.
  unfold utc, says.
  intros t b (d & n & N & T & H & M & S & Y & O & D & W & J & I).
  pose proof (day_number_valid _ _ N) as [Vm Vd].
  assert (Q : tm_mon b / 12 = 0) by (rewrite O; apply Z.div_small; lia).
  assert (R : tm_mon b mod 12 = month d - 1) by (rewrite O; apply Z.mod_small; lia).
  rewrite Q, R. exists (n - (day d - 1)).
  replace (1900 + tm_year b + 0) with (year d) by lia.
  replace (1 + (month d - 1)) with (month d) by lia. split; [|rewrite D; lia].
  pose proof (month_start_number (year d) (month d) Vm) as F.
  pose proof (days_on _ _ _ Vm F (day d - 1) ltac:(lia) ltac:(lia)) as G.
  replace (1 + (day d - 1)) with (day d) in G by lia.
  assert (X : n = month_start (year d) (month d) + (day d - 1)).
  { apply (day_number_unique d); [exact N|]. now destruct d. }
  now replace (n - (day d - 1)) with (month_start (year d) (month d)) by lia.
Qed.

Definition seconds_of (b : tm) : Z :=
  (month_start (1900 + tm_year b + tm_mon b / 12) (1 + tm_mon b mod 12) + tm_mday b - 1) * 86400 +
  tm_hour b * 3600 + tm_min b * 60 + tm_sec b.

Lemma seconds_of_says : forall b, says b (seconds_of b).
Proof.
  intros b. unfold says, seconds_of. eexists. split; [|reflexivity].
  apply month_start_number. pose proof (Z.mod_pos_bound (tm_mon b) 12 ltac:(lia)). lia.
Qed.

Lemma says_unique : forall b t t', says b t -> says b t' -> t = t'.
Proof.
  intros b t t' (n & N & T) (n' & N' & T'). pose proof (day_number_unique _ _ _ N N'). lia.
Qed.

Lemma utc_before : forall t t' b b', utc t b -> utc t' b' -> t < t' -> before b b'.
Proof.
  unfold utc, before.
  intros t t' b b' (d & n & N & T & H & M & S & Y & O & D & _)
         (d' & n' & N' & T' & H' & M' & S' & Y' & O' & D' & _) L.
  destruct (Z.eq_dec n n') as [E|E].
  - subst n'. assert (d = d') by (rewrite (day_number_date _ _ N), (day_number_date _ _ N'); reflexivity).
    subst d'. lia.
  - pose proof (day_number_later _ _ _ _ N N' ltac:(lia)) as X. unfold date_lt in X. lia.
Qed.

(** Everything but the year of a date fits. *)
Lemma utc_fits : forall t b, utc t b -> int_range (tm_year b) -> tm_fits b.
Proof.
  intros t b U F. assert (U' := U). unfold utc in U.
  destruct U as (d & n & N & T & H & M & S & Y & O & D & W & J & I).
  pose proof (day_number_valid _ _ N) as [Vm Vd].
  pose proof (month_days_pos (year d) (month d)).
  pose proof (Z.mod_pos_bound (n + 4) 7 ltac:(lia)).
  assert (0 <= tm_yday b < 366).
  { pose proof (year_on _ _ J) as J2.
    split.
    - destruct (Z_le_gt_dec 0 (tm_yday b)) as [G|G]; [exact G|exfalso].
      pose proof (day_number_later _ _ _ _ N J ltac:(lia)) as X. unfold date_lt in X. cbn [year month day] in X. lia.
    - destruct (Z_lt_le_dec (tm_yday b) 366) as [G|G]; [exact G|exfalso].
      assert (year_days (year d) <= 366) by (unfold year_days; destruct (leap _); lia).
      destruct (Z.eq_dec n (n - tm_yday b + year_days (year d))) as [E|E].
      + rewrite <- E in J2. apply day_number_date in J2. pose proof (day_number_date _ _ N) as X.
        rewrite <- J2 in X. apply (f_equal year) in X. cbn in X. lia.
      + pose proof (day_number_later _ _ _ _ J2 N ltac:(lia)) as X. unfold date_lt in X. cbn [year month day] in X. lia. }
  unfold tm_fits, int_range in *. lia.
Qed.

(** ** A C library *)
Definition fits_int (z : Z) : bool := (- 2 ^ 31 <=? z) && (z <? 2 ^ 31).
Definition libc_gmtime_r (t : Z) (b : tm) : bool * tm :=
  if fits_int (tm_year (tm_of t)) then (true, tm_of t) else (false, b).
Definition libc_timegm (w : Z) (b : tm) : tm * Z :=
  let t := seconds_of b in
  if ((- 2 ^ (w - 1) <=? t) && (t <? 2 ^ (w - 1))) && fits_int (tm_year (tm_of t)) then (tm_of t, t)
  else (b, -1).

Lemma fits_int_true : forall z, fits_int z = true <-> int_range z.
Proof. intros z. unfold fits_int, int_range. rewrite andb_true_iff, Z.leb_le, Z.ltb_lt. reflexivity. Qed.

Lemma libc_gmtime_r_ok : forall w, gmtime_r_ok w libc_gmtime_r.
Proof.
  intros w t b R F. unfold libc_gmtime_r. split.
  - intros b' U F'. rewrite (utc_unique _ _ _ U (tm_of_utc t)) in *.
    assert (E : fits_int (tm_year (tm_of t)) = true) by (apply fits_int_true, F').
    now rewrite E.
  - intros No. destruct (fits_int _) eqn:E.
    + apply fits_int_true in E. exfalso. apply (No _ (tm_of_utc t)).
      exact (utc_fits _ _ (tm_of_utc t) E).
    + now split.
Qed.

Lemma libc_timegm_ok : forall w, timegm_ok w (libc_timegm w).
Proof.
  intros w b t F S. unfold libc_timegm. pose proof (says_unique _ _ _ S (seconds_of_says b)) as E.
  rewrite <- E. clear E. split.
  - intros b' R U F'. rewrite (utc_unique _ _ _ U (tm_of_utc t)) in *.
    assert (E : fits_int (tm_year (tm_of t)) = true) by (apply fits_int_true, F'). rewrite E.
    unfold time_range in R. replace (- 2 ^ (w - 1) <=? t) with true by (symmetry; apply Z.leb_le; lia).
    replace (t <? 2 ^ (w - 1)) with true by (symmetry; apply Z.ltb_lt; lia). reflexivity.
  - intros No. destruct (_ && _) eqn:E; [|reflexivity]. exfalso.
    rewrite !andb_true_iff, Z.leb_le, Z.ltb_lt, fits_int_true in E. destruct E as [[E1 E2] E3].
    apply (No _ (tm_of_utc t)). split; [now split|]. exact (utc_fits _ _ (tm_of_utc t) E3).
Qed.

(** ** time_t *)
Lemma as_signed_id : forall w z, 0 < w -> time_range w z -> as_signed w z = z.
Proof.
  intros w z W R. unfold as_signed, time_range in *.
  assert (2 ^ w = 2 * 2 ^ (w - 1)) by (rewrite <- Z.pow_succ_r by lia; f_equal; lia).
  rewrite Z.mod_small; lia.
Qed.

Lemma as_signed_range : forall w z, 0 < w -> time_range w (as_signed w z).
Proof.
  intros w z W. unfold as_signed, time_range.
  assert (2 ^ w = 2 * 2 ^ (w - 1)) by (rewrite <- Z.pow_succ_r by lia; f_equal; lia).
  assert (0 < 2 ^ (w - 1)) by (apply Z.pow_pos_nonneg; lia).
  pose proof (Z.mod_pos_bound (z + 2 ^ (w - 1)) (2 ^ w) ltac:(lia)). lia.
Qed.

Lemma tm_empty_fits : tm_fits tm_empty.
Proof. unfold tm_fits, int_range, tm_empty. cbn. lia. Qed.

(** The times whose year, counted from 1900, is an int. *)
Definition first_second : Z := -67768040609740800.
Definition end_seconds : Z := 67768036191676800.

Lemma year_after : forall n y, year_start y <= n -> y <= year (date_of n).
Proof.
  intros n y H. pose proof (year_start_number y) as S. pose proof (date_number n) as N.
  destruct (Z.eq_dec (year_start y) n) as [E|E].
  - rewrite <- E in *. rewrite <- (day_number_date _ _ S). cbn. lia.
  - pose proof (day_number_later _ _ _ _ S N ltac:(lia)) as X. unfold date_lt in X. cbn [year month day] in X. lia.
Qed.

Lemma year_before : forall n y, n < year_start y -> year (date_of n) < y.
Proof.
  intros n y H. pose proof (year_start_number y) as S. pose proof (date_number n) as N.
  pose proof (day_number_later _ _ _ _ N S H) as X. unfold date_lt in X. cbn [year month day] in X.
  pose proof (date_of_valid n) as [V1 V2]. lia.
Qed.

Lemma range_fits : forall t b, utc t b -> (first_second <= t < end_seconds <-> tm_fits b).
Proof.
  intros t b U. rewrite (utc_unique _ _ _ U (tm_of_utc t)). clear b U.
  assert (Y : tm_year (tm_of t) = year (date_of (t / 86400)) - 1900) by reflexivity.
  assert (E1 : first_second = year_start (1900 - 2 ^ 31) * 86400) by (vm_compute; reflexivity).
  assert (E2 : end_seconds = year_start (1900 + 2 ^ 31) * 86400) by (vm_compute; reflexivity).
  pose proof (Z.div_mod t 86400 ltac:(lia)) as D.
  pose proof (Z.mod_pos_bound t 86400 ltac:(lia)) as B.
  rewrite E1, E2. clear E1 E2.
  split.
  - intros [L H]. apply (utc_fits t); [apply tm_of_utc|]. rewrite Y. unfold int_range.
    pose proof (year_after (t / 86400) (1900 - 2 ^ 31) ltac:(lia)).
    pose proof (year_before (t / 86400) (1900 + 2 ^ 31) ltac:(lia)). lia.
  - intros F. unfold tm_fits in F. rewrite Y in F. unfold int_range in F. split.
    + destruct (Z_le_gt_dec (year_start (1900 - 2 ^ 31) * 86400) t) as [G|G]; [exact G|exfalso].
      pose proof (year_before (t / 86400) (1900 - 2 ^ 31) ltac:(lia)). lia.
    + destruct (Z_lt_le_dec t (year_start (1900 + 2 ^ 31) * 86400)) as [G|G]; [exact G|exfalso].
      pose proof (year_after (t / 86400) (1900 + 2 ^ 31) ltac:(lia)). lia.
Qed.

Lemma gmtime_utc : forall w g t, 0 < w -> gmtime_r_ok w (gmtime_r g) -> time_range w t ->
  first_second <= t < end_seconds ->
  utc t (gmtime w g t) /\ tm_fits (gmtime w g t).
Proof.
  intros w g t W G R F. unfold gmtime, to_time_t. rewrite as_signed_id by assumption.
  destruct (G t tm_empty R tm_empty_fits) as [G1 _].
  assert (H : tm_fits (tm_of t)) by exact (proj1 (range_fits _ _ (tm_of_utc t)) F).
  rewrite (G1 _ (tm_of_utc t) H). split; [apply tm_of_utc|exact H].
Qed.

Lemma from_gmtime_says : forall w g b t, 0 < w ->
  gmtime_r_ok w (gmtime_r g) -> timegm_ok w (timegm g) ->
  tm_fits b -> says b t -> time_range w t -> first_second <= t < end_seconds ->
  from_gmtime w g b = (gmtime w g t, t).
Proof.
  intros w g b t W G T Fb S R F. unfold from_gmtime.
  destruct (gmtime_utc w g t W G R F) as [U H].
  destruct (T b t Fb S) as [T1 _]. rewrite (T1 _ R U H).
  unfold from_seconds, of_seconds. now rewrite as_signed_id by assumption.
Qed.

(** ** Local time *)
Definition local_of (z : zone) (t : Z) : tm :=
  with_isdst (tm_of (t + ahead z t)) (if summer z t then 1 else 0).

Lemma local_of_local : forall z t, local z t (local_of z t).
Proof.
  intros z t. split; [|reflexivity].
  exact (tm_of_utc (t + ahead z t)).
Qed.

Lemma local_unique : forall z t b b', local z t b -> local z t b' -> b = b'.
Proof.
  intros z t b b' [U I] [U' I']. pose proof (utc_unique _ _ _ U U') as E.
  destruct b, b'. cbn in *. unfold with_isdst in E. cbn in E. injection E; intros; subst.
  reflexivity.
Qed.

Lemma local_range_fits : forall z t b, local z t b ->
  (first_second <= t + ahead z t < end_seconds <-> tm_fits b).
Proof.
  intros z t b [U I]. rewrite (range_fits _ _ U). unfold tm_fits. cbn.
  assert (int_range 0) by (unfold int_range; lia).
  assert (int_range (tm_isdst b)) by (rewrite I; unfold int_range; destruct (summer z t); lia).
  tauto.
Qed.

Lemma says_isdst : forall b i t, says (with_isdst b i) t <-> says b t.
Proof. reflexivity. Qed.

Lemma localtime_local : forall z w g t, 0 < w -> localtime_r_ok z w (localtime_r g) -> time_range w t ->
  first_second <= t + ahead z t < end_seconds ->
  local z t (localtime w g t) /\ tm_fits (localtime w g t).
Proof.
  intros z w g t W G R F. unfold localtime, to_time_t. rewrite as_signed_id by assumption.
  destruct (G t tm_empty R tm_empty_fits) as [G1 _].
  assert (H : tm_fits (local_of z t)) by exact (proj1 (local_range_fits _ _ _ (local_of_local z t)) F).
  rewrite (G1 _ (local_of_local z t) H). split; [apply local_of_local|exact H].
Qed.

(** What clocks show at a time is shown then. *)
Lemma local_shown : forall z t b, local z t b -> shown z b t.
Proof.
  intros z t b [U I]. split.
  - apply (says_isdst b 0). exact (utc_says _ _ U).
  - intros _. rewrite I. now destruct (summer z t).
Qed.

(** When else clocks show the same. *)
Lemma shown_same : forall z t b t', local z t b -> shown z b t' ->
  t' + ahead z t' = t + ahead z t /\ summer z t' = summer z t.
Proof.
  intros z t b t' L [S H]. destruct (local_shown _ _ _ L) as [S' H']. split.
  - exact (says_unique _ _ _ S S').
  - destruct L as [_ I]. assert (0 <= tm_isdst b) by (rewrite I; destruct (summer z t); lia).
    now rewrite H, H'.
Qed.

Lemma from_localtime_shown : forall z w g b t, 0 < w ->
  localtime_r_ok z w (localtime_r g) -> mktime_ok z w (mktime g) ->
  tm_fits b -> time_range w t -> first_second <= t + ahead z t < end_seconds ->
  shown z b t -> (forall t', time_range w t' -> shown z b t' -> t' = t) ->
  from_localtime w g b = (localtime w g t, t).
Proof.
  intros z w g b t W G M Fb R F S X.
  destruct (localtime_local z w g t W G R F) as [L H].
  unfold from_localtime. rewrite (M b t _ Fb R L H S X).
  unfold from_seconds, of_seconds. now rewrite as_signed_id by assumption.
Qed.

(** A C library for zones in which daylight saving time alone changes the clocks. *)
Definition libc_localtime_r (z : zone) (t : Z) (b : tm) : bool * tm :=
  if fits_int (tm_year (local_of z t)) then (true, local_of z t) else (false, b).

Lemma libc_localtime_r_ok : forall z w, localtime_r_ok z w (libc_localtime_r z).
Proof.
  intros z w t b R F. unfold libc_localtime_r. split.
  - intros b' U F'. rewrite (local_unique _ _ _ _ U (local_of_local z t)) in *.
    assert (E : fits_int (tm_year (local_of z t)) = true) by (apply fits_int_true, F').
    now rewrite E.
  - intros No. destruct (fits_int _) eqn:E.
    + apply fits_int_true in E. exfalso. apply (No _ (local_of_local z t)).
      apply (local_range_fits _ _ _ (local_of_local z t)).
      apply (range_fits _ _ (tm_of_utc _)). exact (utc_fits _ _ (tm_of_utc (t + ahead z t)) E).
    + now split.
Qed.

Definition simple_zone (s : Z -> bool) (a b0 : Z) : zone := fun t => ((if s t then a else b0), s t).
Definition libc_mktime (s : Z -> bool) (a b0 w : Z) (b : tm) : tm * Z :=
  let l := seconds_of b in
  let t := if 0 <? tm_isdst b then l - a else if tm_isdst b =? 0 then l - b0
           else if s (l - a) && ((- 2 ^ (w - 1) <=? l - a) && (l - a <? 2 ^ (w - 1))) then l - a
           else l - b0 in
  (local_of (simple_zone s a b0) t, t).

Lemma libc_mktime_ok : forall s a b0 w, mktime_ok (simple_zone s a b0) w (libc_mktime s a b0 w).
Proof.
  intros s a b0 w b t b' Fb R L F [S I] X.
  unfold libc_mktime. pose proof (says_unique _ _ _ S (seconds_of_says b)) as E.
  set (l := seconds_of b) in *.
  match goal with |- (_, ?x) = _ => assert (T : x = t) end.
  { unfold ahead, summer, simple_zone in *. cbn in E, I.
    destruct (0 <? tm_isdst b) eqn:P.
    - apply Z.ltb_lt in P. rewrite I in E by lia. lia.
    - apply Z.ltb_ge in P. destruct (tm_isdst b =? 0) eqn:Q.
      + apply Z.eqb_eq in Q. rewrite I in E by lia. lia.
      + apply Z.eqb_neq in Q.
        destruct (s (l - a) && _) eqn:C.
        * rewrite !andb_true_iff, Z.leb_le, Z.ltb_lt in C. destruct C as [C1 [C2 C3]].
          apply X; [split; assumption|]. split; [|lia].
          unfold ahead, simple_zone. cbn. rewrite C1.
          replace (l - a + a) with l by lia. apply seconds_of_says.
        * destruct (s t) eqn:St; [|lia].
          exfalso. assert (Ea : l - a = t) by lia. rewrite Ea, St in C. cbn [andb] in C.
          unfold time_range in R. rewrite andb_false_iff, Z.leb_gt, Z.ltb_ge in C. lia. }
  rewrite T. f_equal. exact (local_unique _ _ _ _ (local_of_local _ t) L).
Qed.

Definition plain_libc (s : Z -> bool) (a b0 w : Z) : libc :=
  mkLibc libc_gmtime_r (libc_timegm w) (libc_localtime_r (simple_zone s a b0)) (libc_mktime s a b0 w).

Lemma plain_libc_ok : forall s a b0 w, libc_ok (simple_zone s a b0) w (plain_libc s a b0 w).
Proof.
  intros s a b0 w. split; [apply libc_gmtime_r_ok|]. split; [apply libc_timegm_ok|].
  split; [apply libc_localtime_r_ok|apply libc_mktime_ok].
Qed.
