(** Proofs for C115. *)
From Coq Require Import List Arith ZArith Bool Lia.
From Verif Require Import Base SeqSpec PtrModel PtrSpec.
Import ListNotations.

Lemma pbind_fine {S A B} (m : P S A) (f : A -> P S B) s a s' : m s = Fine a s' -> pbind m f s = f a s'.
Proof. intro H. unfold pbind. rewrite H. reflexivity. Qed.
Lemma pbind_fault {S A B} (m : P S A) (f : A -> P S B) s x : m s = Fault x -> pbind m f s = Fault x.
Proof. intro H. unfold pbind. rewrite H. reflexivity. Qed.
Lemma pbind_rejected {S A B} (m : P S A) (f : A -> P S B) s s' : m s = Rejected s' -> pbind m f s = Rejected s'.
Proof. intro H. unfold pbind. rewrite H. reflexivity. Qed.
Lemma pbind_assoc {S A B C} (m : P S A) (f : A -> P S B) (g : B -> P S C) s :
  pbind (pbind m f) g s = pbind m (fun x => pbind (f x) g) s.
Proof. unfold pbind. destruct (m s); reflexivity. Qed.

Definition live (m : mem) (b c : nat) : Prop := nth_error m b = Some (Some c).

Lemma padd_ok m b c i d : live m b c -> (0 <= i + d <= Z.of_nat c)%Z -> padd m (b, i) d = inr (b, (i + d)%Z).
Proof.
  intros L H. unfold padd, live in *. cbn [fst snd]. rewrite L.
  rewrite (proj2 (Z.leb_le _ _)) by lia. rewrite (proj2 (Z.leb_le _ _)) by lia. reflexivity.
Qed.
Lemma padd_out m b c i d : live m b c -> (i + d < 0)%Z -> padd m (b, i) d = inl Outside.
Proof.
  intros L H. unfold padd, live in *. cbn [fst snd]. rewrite L.
  rewrite (proj2 (Z.leb_gt _ _)) by lia. reflexivity.
Qed.
Lemma pdiff_ok m b c i j : live m b c -> pdiff m (b, i) (b, j) = inr (i - j)%Z.
Proof. intro L. unfold pdiff, usable, live in *. cbn [fst snd]. rewrite L, Nat.eqb_refl. reflexivity. Qed.
Lemma peq_ok m b c b' c' i j : live m b c -> live m b' c' ->
  peq m (b, i) (b', j) = inr ((b =? b') && (i =? j)%Z).
Proof. intros L L'. unfold peq, usable, live in *. cbn [fst snd]. rewrite L, L'. reflexivity. Qed.
Lemma deref_ok m b c i : live m b c -> (0 <= i < Z.of_nat c)%Z -> deref m (b, i) = inr tt.
Proof.
  intros L H. unfold deref, live in *. cbn [fst snd]. rewrite L.
  rewrite (proj2 (Z.leb_le _ _)) by lia. rewrite (proj2 (Z.ltb_lt _ _)) by lia. reflexivity.
Qed.

(** * static_vector *)
Section Static.
Variable C : nat.

Definition St (n : nat) : sv := mkSv [Some C] n.
Lemma live0 : live [Some C] 0 C.
Proof. reflexivity. Qed.

Lemma s_padd n i d : (0 <= i + d <= Z.of_nat C)%Z ->
  schk (fun m => padd m (0, i) d) (St n) = Fine (0, (i + d)%Z) (St n).
Proof. intro H. unfold schk, St. cbn [smem]. rewrite (padd_ok _ _ _ _ _ live0 H). reflexivity. Qed.
Lemma s_padd_out n i d : (i + d < 0)%Z -> schk (fun m => padd m (0, i) d) (St n) = Fault Outside.
Proof. intro H. unfold schk, St. cbn [smem]. rewrite (padd_out _ _ _ _ _ live0 H). reflexivity. Qed.
Lemma s_pdiff n i j : schk (fun m => pdiff m (0, i) (0, j)) (St n) = Fine (i - j)%Z (St n).
Proof. unfold schk, St. cbn [smem]. rewrite (pdiff_ok _ _ _ i j live0). reflexivity. Qed.
Lemma s_peq n i j : schk (fun m => peq m (0, i) (0, j)) (St n) = Fine (i =? j)%Z (St n).
Proof. unfold schk, St. cbn [smem]. rewrite (peq_ok _ _ _ _ _ i j live0 live0). reflexivity. Qed.
Lemma s_deref n i : (0 <= i < Z.of_nat C)%Z -> schk (fun m => deref m (0, i)) (St n) = Fine tt (St n).
Proof. intro H. unfold schk, St. cbn [smem]. rewrite (deref_ok _ _ _ _ live0 H). reflexivity. Qed.
Lemma s_get n : sget (St n) = Fine n (St n).
Proof. reflexivity. Qed.
Lemma s_set n k : sset k (St n) = Fine tt (St k).
Proof. reflexivity. Qed.
Lemma reject_no {S} (s : S) c : c = false -> reject_if c s = Fine tt s.
Proof. intros ->. reflexivity. Qed.
Lemma reject_yes {S} (s : S) c : c = true -> reject_if c s = Rejected s.
Proof. intros ->. reflexivity. Qed.

Ltac st L := erewrite pbind_fine; [| eapply L; try lia].

Lemma s_end n : n <= C -> send (St n) = Fine (0, Z.of_nat n) (St n).
Proof. intro H. unfold send, sbegin. st s_get. exact (s_padd n 0 (Z.of_nat n) ltac:(lia)). Qed.

Lemma sdestroy_ok n : forall fuel i j, (0 <= i <= j)%Z -> (j <= Z.of_nat C)%Z -> Z.to_nat (j - i) < fuel ->
  sdestroy fuel (0, i) (0, j) (St n) = Fine tt (St n).
Proof.
  induction fuel as [| f IH]; intros i j H1 H2 H3; [lia |].
  cbn [sdestroy]. st s_peq.
  destruct (Z.eqb_spec i j) as [E | E]; [reflexivity |].
  st s_deref. st s_padd. apply IH; lia.
Qed.
Lemma sclear_ok n : n <= C -> sclear C (St n) = Fine tt (St 0).
Proof.
  intro H. unfold sclear. st s_end. unfold sbegin. st sdestroy_ok. reflexivity.
Qed.
Lemma spush_ok n : n < C -> spush C (St n) = Fine tt (St (S n)).
Proof.
  intro H. unfold spush, sbegin. st s_get. st (@reject_no sv); [| apply Nat.leb_gt; lia].
  st s_padd. st s_deref. reflexivity.
Qed.
Lemma spush_full n : C <= n -> spush C (St n) = Rejected (St n).
Proof.
  intro H. unfold spush. st s_get. erewrite pbind_rejected; [reflexivity |].
  apply reject_yes. apply Nat.leb_le. exact H.
Qed.

Lemma sgrow_loop_ok n k q : (1 <= q)%Z -> forall fuel i, (q - 1 <= i)%Z -> (i + Z.of_nat k < Z.of_nat C)%Z ->
  Z.to_nat (i - q + 1) < fuel ->
  sgrow_loop fuel (0, i) (0, q) k (St n) = Fine tt (St n).
Proof.
  intro Hq. induction fuel as [| f IH]; intros i H1 H2 H3; [lia |].
  cbn [sgrow_loop]. st s_pdiff.
  destruct (Z.ltb_spec (i - q) 0) as [E | E]; [reflexivity |].
  st s_padd. st s_deref. st s_deref. st s_padd. apply IH; lia.
Qed.
Lemma sgrow_loop_bad n k : forall fuel i, (0 <= i)%Z -> (i + Z.of_nat k < Z.of_nat C)%Z ->
  Z.to_nat (i + 1) < fuel ->
  sgrow_loop fuel (0, i) (0, 0%Z) k (St n) = Fault Outside.
Proof.
  induction fuel as [| f IH]; intros i H1 H2 H3; [lia |].
  cbn [sgrow_loop]. st s_pdiff.
  destruct (Z.ltb_spec (i - 0) 0) as [E | E]; [lia |].
  st s_padd. st s_deref. st s_deref.
  destruct (Z.eq_dec i 0) as [-> | N].
  - erewrite pbind_fault; [reflexivity | apply s_padd_out; lia].
  - st s_padd. apply IH; lia.
Qed.

Lemma sgrow_full n q k : C < n + k -> sgrow_at C q k (St n) = Rejected (St n).
Proof.
  intro H. unfold sgrow_at. st s_get. erewrite pbind_rejected; [reflexivity |].
  apply reject_yes. apply Nat.ltb_lt. exact H.
Qed.
Lemma sgrow_ok n pos k : n + k <= C -> pos <= n -> (0 < pos \/ k = 0) ->
  sgrow_at C (0, Z.of_nat pos) k (St n) = Fine (0, Z.of_nat pos) (St (n + k)).
Proof.
  intros H P D. unfold sgrow_at. st s_get. st (@reject_no sv); [| apply Nat.ltb_ge; lia].
  destruct (Nat.eqb_spec k 0) as [-> | K].
  - rewrite Nat.add_0_r. reflexivity.
  - st s_end. st s_padd. st sgrow_loop_ok. st s_set. reflexivity.
Qed.
Lemma sgrow_bad n k : n + k <= C -> 0 < k ->
  sgrow_at C (0, 0%Z) k (St n) = Fault Outside.
Proof.
  intros H K. unfold sgrow_at. st s_get. st (@reject_no sv); [| apply Nat.ltb_ge; lia].
  destruct (Nat.eqb_spec k 0) as [-> | _]; [lia |].
  st s_end. destruct (Nat.eq_dec n 0) as [-> | N].
  - erewrite pbind_fault; [reflexivity | apply s_padd_out; lia].
  - st s_padd. erewrite pbind_fault; [reflexivity | apply sgrow_loop_bad; lia].
Qed.

Lemma sshrink_loop_ok n : forall fuel i j e, (0 <= i <= j)%Z -> (j <= e)%Z -> (e <= Z.of_nat C)%Z ->
  Z.to_nat (e - j) < fuel ->
  sshrink_loop fuel (0, i) (0, j) (0, e) (St n) = Fine tt (St n).
Proof.
  induction fuel as [| f IH]; intros i j e H1 H2 H3 H4; [lia |].
  cbn [sshrink_loop]. st s_peq.
  destruct (Z.eqb_spec j e) as [E | E]; [reflexivity |].
  st s_deref. st s_deref. st s_padd. st s_padd. apply IH; lia.
Qed.
Lemma sshrink_ok n pos k : n <= C -> pos + k <= n ->
  exists p, sshrink_at C (0, Z.of_nat pos) k (St n) = Fine p (St (n - k)).
Proof.
  intros H P. unfold sshrink_at. st s_get. st (@reject_no sv); [| apply Nat.ltb_ge; lia].
  destruct (Nat.eqb_spec (n - k) 0) as [E | E].
  - st sclear_ok. exists sbegin. rewrite E. reflexivity.
  - st s_end. st s_padd. st sshrink_loop_ok. st s_padd. st sdestroy_ok. st s_set. eexists. reflexivity.
Qed.
Lemma spop_ok n : n <= C -> 0 < n -> spop C (St n) = Fine tt (St (n - 1)).
Proof.
  intros H N. unfold spop. st s_end. st s_padd.
  destruct (sshrink_ok n (n - 1) 1 H ltac:(lia)) as [p E].
  replace (Z.of_nat n + -1)%Z with (Z.of_nat (n - 1)) by lia.
  rewrite (pbind_fine _ _ _ _ _ E). reflexivity.
Qed.
Lemma spop_empty : spop C (St 0) = Fault Outside.
Proof.
  unfold spop. st s_end. erewrite pbind_fault; [reflexivity | apply s_padd_out; lia].
Qed.

Lemma sfill_ok n pos : forall k i, pos + i + k <= C -> sfill (0, Z.of_nat pos) i k (St n) = Fine tt (St n).
Proof.
  induction k as [| k IH]; intros i H; [reflexivity |].
  cbn [sfill]. st s_padd. st s_deref. apply IH. lia.
Qed.
Lemma scopy_ok n : forall k i, (0 <= i)%Z -> (i + Z.of_nat k <= Z.of_nat C)%Z -> scopy (0, i) k (St n) = Fine tt (St n).
Proof.
  induction k as [| k IH]; intros i H1 H2; [reflexivity |].
  cbn [scopy]. st s_deref. st s_padd. apply IH; lia.
Qed.

Lemma spop_while_ok k : forall fuel n, n <= C -> n - k < fuel -> spop_while C fuel k (St n) = Fine tt (St (Nat.min n k)).
Proof.
  induction fuel as [| f IH]; intros n H F; [lia |].
  cbn [spop_while]. st s_get.
  destruct (Nat.ltb_spec k n) as [L | L].
  - st spop_ok. rewrite IH by lia. f_equal. f_equal. lia.
  - rewrite Nat.min_l by lia. reflexivity.
Qed.
Lemma spush_while_ok k : k <= C -> forall fuel n, k - n < fuel -> spush_while C fuel k (St n) = Fine tt (St (Nat.max n k)).
Proof.
  intro K. induction fuel as [| f IH]; intros n F; [lia |].
  cbn [spush_while]. st s_get.
  destruct (Nat.ltb_spec n k) as [L | L].
  - st spush_ok. rewrite IH by lia. f_equal. f_equal. lia.
  - rewrite Nat.max_l by lia. reflexivity.
Qed.
Lemma sresize_ok n k : n <= C -> k <= C -> sresize C k (St n) = Fine tt (St k).
Proof.
  intros H K. unfold sresize. st (@reject_no sv); [| apply Nat.ltb_ge; lia].
  st spop_while_ok. rewrite spush_while_ok by lia. f_equal. f_equal. lia.
Qed.
Lemma spush_n_ok : forall k n, n + k <= C -> spush_n C k (St n) = Fine tt (St (n + k)).
Proof.
  induction k as [| k IH]; intros n H.
  - rewrite Nat.add_0_r. reflexivity.
  - cbn [spush_n]. st spush_ok. rewrite IH by lia. f_equal. f_equal. lia.
Qed.
Lemma sassign_ok n k : n <= C -> k <= C -> sassign C k (St n) = Fine tt (St k).
Proof.
  intros H K. unfold sassign. st sclear_ok. st (@reject_no sv); [| apply Nat.ltb_ge; lia].
  exact (spush_n_ok k 0 K).
Qed.
Lemma sassign_full n k : n <= C -> C < k -> sassign C k (St n) = Rejected (St 0).
Proof.
  intros H K. unfold sassign. st sclear_ok. erewrite pbind_rejected; [reflexivity |].
  apply reject_yes. apply Nat.ltb_lt. exact K.
Qed.
Lemma sat_ok n pos : pos <= C -> sat pos (St n) = Fine (0, Z.of_nat pos) (St n).
Proof. intro H. exact (s_padd n 0 (Z.of_nat pos) ltac:(lia)). Qed.

(** Insertions in one go *)
Lemma sins_cases n pos k (w : ptr -> P sv unit) : n <= C -> pos <= n ->
  (n + k <= C -> w (0, Z.of_nat pos) (St (n + k)) = Fine tt (St (n + k))) ->
  pbind (sat pos) (fun q => pbind (sgrow_at C q k) w) (St n)
  = if (pos =? 0) && (0 <? k) && (n + k <=? C) then Fault Outside
    else if n + k <=? C then Fine tt (St (n + k)) else Rejected (St n).
Proof.
  intros H P W. st sat_ok.
  destruct (Nat.leb_spec (n + k) C) as [R | R].
  - rewrite andb_true_r.
    destruct (Nat.eqb_spec pos 0) as [-> | N].
    + destruct (Nat.ltb_spec 0 k) as [K | K]; cbn [andb].
      * erewrite pbind_fault; [reflexivity | apply (sgrow_bad n k R K)].
      * st sgrow_ok. exact (W R).
    + cbn [andb]. st sgrow_ok. exact (W R).
  - rewrite andb_false_r. erewrite pbind_rejected; [reflexivity | apply sgrow_full; lia].
Qed.

Theorem static_call n o : n <= C -> vin n o ->
  scall C o (St n)
  = if static_bad C n o then Fault Outside
    else if new_size n o <=? C then Fine tt (St (static_next C n o)) else Rejected (St (static_next C n o)).
Proof.
  intros H I. unfold static_next. destruct o; cbn [scall vin static_bad insertion new_size] in *.
  - destruct (Nat.leb_spec (S n) C) as [L | L]; [apply spush_ok; lia | apply spush_full; lia].
  - destruct (Nat.eqb_spec n 0) as [-> | N]; [apply spop_empty |].
    rewrite (proj2 (Nat.leb_le (n - 1) C)) by lia. apply spop_ok; lia.
  - erewrite sins_cases; try assumption.
    + replace (n + 1) with (S n) by lia. destruct (S n <=? C); reflexivity.
    + intro R. apply s_deref. lia.
  - erewrite sins_cases; try assumption.
    + destruct (n + n0 <=? C); reflexivity.
    + intro R. apply sfill_ok. lia.
  - erewrite sins_cases; try assumption.
    + destruct (n + length l <=? C); reflexivity.
    + intro R. apply scopy_ok; lia.
  - rewrite (proj2 (Nat.leb_le (n - 1) C)) by lia. st sat_ok.
    destruct (sshrink_ok n pos 1 H ltac:(lia)) as [p E]. rewrite (pbind_fine _ _ _ _ _ E). reflexivity.
  - rewrite (proj2 (Nat.leb_le (n - (last - first)) C)) by lia. st sat_ok. st sat_ok. st s_pdiff.
    replace (Z.to_nat (Z.of_nat last - Z.of_nat first)) with (last - first) by lia.
    destruct (sshrink_ok n first (last - first) H ltac:(lia)) as [p E]. rewrite (pbind_fine _ _ _ _ _ E). reflexivity.
  - destruct (Nat.leb_spec n0 C) as [L | L]; [apply sresize_ok; lia |].
    unfold sresize. erewrite pbind_rejected; [reflexivity |]. apply reject_yes. apply Nat.ltb_lt. exact L.
  - destruct (Nat.leb_spec n0 C) as [L | L]; [apply sresize_ok; lia |].
    unfold sresize. erewrite pbind_rejected; [reflexivity |]. apply reject_yes. apply Nat.ltb_lt. exact L.
  - rewrite (proj2 (Nat.leb_le 0 C)) by lia. apply sclear_ok. exact H.
  - destruct (Nat.leb_spec n0 C) as [L | L]; [apply sassign_ok; lia | apply sassign_full; lia].
  - destruct (Nat.leb_spec (length l) C) as [L | L]; [apply sassign_ok; lia | apply sassign_full; lia].
Qed.

Lemma static_next_le n o : n <= C -> static_next C n o <= C.
Proof.
  intro H. unfold static_next. destruct (Nat.leb_spec (new_size n o) C) as [L | L]; [exact L |].
  destruct o; lia.
Qed.
Theorem static_run : forall os n, n <= C -> static_in C n os ->
  prun (scall C) os (St n)
  = match static_hist C n os with Some n' => Fine tt (St n') | None => Fault Outside end.
Proof.
  induction os as [| o os IH]; intros n H I; [reflexivity |].
  cbn [prun static_hist static_in] in *. destruct I as [I1 I2].
  rewrite (static_call n o H I1).
  destruct (static_bad C n o); [reflexivity |].
  destruct (new_size n o <=? C); (apply IH; [apply static_next_le; exact H | exact I2]).
Qed.
End Static.
