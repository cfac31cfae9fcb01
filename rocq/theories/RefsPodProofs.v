(** What calls of pod_vector leave alone. *)
From Coq Require Import List Arith NArith ZArith Bool Lia.
From Verif Require Import Base SeqSpec VecCommon PodVectorModel RefsSpec RefsProofs.
Import ListNotations.

Lemma skipn_upd {A} (l : list A) : forall j o x, j < o -> skipn o (upd l j x) = skipn o l.
Proof. induction l as [|y l IH]; intros [|j] [|o] x H; cbn; auto; try lia. apply IH. lia. Qed.
Lemma firstn_upd {A} (l : list A) : forall j o x, j < o -> firstn o (upd l j x) = upd (firstn o l) j x.
Proof. induction l as [|y l IH]; intros [|j] [|o] x H; cbn; auto; try lia. f_equal. apply IH. lia. Qed.
Lemma upd_app {A} (l m : list A) : forall j x, j < length l -> upd (l ++ m) j x = upd l j x ++ m.
Proof. induction l as [|y l IH]; intros [|j] x H; cbn in *; auto; try lia. f_equal. apply IH. lia. Qed.
Lemma splice_upd bytes o l j x : j < o -> o + length l <= length bytes -> splice (upd bytes j x) o l = upd (splice bytes o l) j x.
Proof.
  intros H1 H2. unfold splice. rewrite firstn_upd, skipn_upd by lia. rewrite upd_app; [reflexivity|]. rewrite firstn_length. lia.
Qed.

Lemma nth_error_firstn_lt {A} (l : list A) : forall j o, j < o -> nth_error (firstn o l) j = nth_error l j.
Proof. induction l as [|y l IH]; intros [|j] [|o] H; cbn; auto; try lia. apply IH. lia. Qed.

Section Pod.
Variable A : alc.
Variable T : ety.
Variable early : bool.
Notation SZ := (esz T).

Variable b j : nat.
Notation unt := (untouched (put_byte b j)).

Lemma block_put x s c : nth_error (blks (fst (put_byte b j x s))) c =
  match nth_error (blks (fst s)) c with
  | Some (MBlk a l) => Some (MBlk a (if c =? b then upd l j x else l))
  | y => y
  end.
Proof.
  unfold put_byte. cbn. destruct (Nat.eqb_spec c b) as [->|N].
  - destruct (nth_error (blks (fst s)) b) as [[a l|a]|] eqn:Q; rewrite ?Q; auto.
    now rewrite nth_error_upd_eq by (apply nth_error_Some; congruence).
  - destruct (nth_error (blks (fst s)) b) as [[a l|a]|] eqn:Q; rewrite ?nth_error_upd_neq by congruence;
    destruct (nth_error (blks (fst s)) c) as [[a' l'|a']|]; auto.
Qed.

Definition keeps {R} (m : M pst R) (s : pst) : Prop :=
  match m s with
  | Ok _ s' | Throw _ s' => pb (snd s') = pb (snd s) /\ pcap (snd s') = pcap (snd s) /\ byte_at b j s' = byte_at b j s
  | _ => True
  end.
Definition good {R} (m : M pst R) (s : pst) : Prop := unt m s /\ keeps m s.

Lemma good_ret {R} (a : R) s : good (ret a) s.
Proof. split; [apply unt_ret|repeat split; reflexivity]. Qed.
Lemma good_ub {R} s : good (ub (A := R)) s.
Proof. split; [apply unt_ub|exact I]. Qed.
Lemma good_bind {R Q} (m : M pst R) (f : R -> M pst Q) s :
  good m s -> (forall a s', m s = Ok a s' -> pb (snd s') = pb (snd s) -> pcap (snd s') = pcap (snd s) -> good (f a) s') ->
  good (bind m f) s.
Proof.
  intros [H1 H2] K. split.
  - apply unt_bind; auto. intros a s' E. unfold keeps in H2. rewrite E in H2. destruct H2 as (E1 & E2 & E3). now apply K.
  - unfold keeps, bind in *. destruct (m s) as [a s'|e s'| |] eqn:E; auto. destruct H2 as (E1 & E2 & E3).
    destruct (K a s' eq_refl E1 E2) as [_ K2]. unfold keeps in K2. rewrite E1, E2, E3 in K2. exact K2.
Qed.
Lemma good_mbegin s : good mbegin s.
Proof. split; [intros x; reflexivity|repeat split; reflexivity]. Qed.
Lemma good_mend s : good mend s.
Proof. split; [intros x; reflexivity|repeat split; reflexivity]. Qed.
Lemma good_mcap s : good mcap s.
Proof. split; [intros x; reflexivity|repeat split; reflexivity]. Qed.
Lemma good_set_pend p s : good (set_pend p) s.
Proof. split; [intros x; reflexivity|repeat split; reflexivity]. Qed.
Lemma good_psize s : good (psize T) s.
Proof.
  split; [intros x|unfold keeps]; unfold psize, put_byte; cbn [fst snd];
  (destruct (pb (snd s)) as [[c o]|] eqn:E1, (pe (snd s)) as [[c' o']|] eqn:E2; cbn [rmap]; auto; destruct ((c =? c') && (o <=? o')); auto).
Qed.

(** A pointer behind the byte *)
Definition behind (p : bptr) : Prop := match p with None => True | Some (c, o) => c = b -> j < o end.

Lemma good_read p n s : behind p -> good (read_bytes p n) s.
Proof.
  intros Hp. destruct p as [[c o]|]; [|split; [apply unt_ub|exact I]]. cbn in Hp. split.
  - intros x. unfold read_bytes. rewrite block_put. destruct (nth_error (blks (fst s)) c) as [[a l|a]|]; auto.
    destruct (Nat.eqb_spec c b) as [E|E].
    + rewrite upd_length. destruct (_ <=? _); auto. cbn. rewrite skipn_upd by auto. reflexivity.
    + destruct (_ <=? _); auto.
  - unfold keeps, read_bytes. destruct (nth_error (blks (fst s)) c) as [[a l|a]|]; auto. destruct (_ <=? _); auto.
Qed.
Lemma good_write p l s : behind p -> good (write_bytes p l) s.
Proof.
  intros Hp. destruct p as [[c o]|]; [|split; [apply unt_ub|exact I]]. cbn in Hp. split.
  - intros x. unfold write_bytes. rewrite block_put. destruct (nth_error (blks (fst s)) c) as [[a bs|a]|] eqn:Q; auto.
    destruct (Nat.eqb_spec c b) as [E|E].
    + rewrite upd_length. destruct (Nat.leb_spec (o + length l) (length bs)); auto. cbn. f_equal. unfold put_byte. cbn. subst c. rewrite Q.
      rewrite nth_error_upd_eq by (apply nth_error_Some; congruence). rewrite !upd_twice.
      rewrite splice_upd by auto. reflexivity.
    + destruct (Nat.leb_spec (o + length l) (length bs)); auto. cbn. f_equal. unfold put_byte. cbn.
      rewrite (nth_error_upd_neq (blks (fst s)) c b) by congruence.
      destruct (nth_error (blks (fst s)) b) as [[a' l'|a']|]; auto. rewrite upd_comm by congruence. reflexivity.
  - unfold keeps, write_bytes. destruct (nth_error (blks (fst s)) c) as [[a bs|a]|] eqn:Q; auto.
    destruct (Nat.leb_spec (o + length l) (length bs)); auto. cbn. repeat split. unfold byte_at. cbn.
    destruct (Nat.eq_dec c b) as [->|E]; [|now rewrite nth_error_upd_neq by congruence].
    rewrite nth_error_upd_eq by (apply nth_error_Some; congruence). rewrite Q. specialize (Hp eq_refl). unfold splice.
    rewrite nth_error_app1 by (rewrite firstn_length; lia). apply nth_error_firstn_lt. exact Hp.
Qed.
Lemma good_padd p n s : good (padd p n) s.
Proof.
  destruct p as [[c o]|]; [|split; [intros x|unfold keeps]; unfold padd; destruct (_ =? _)%N; cbn; auto]. split.
  - intros x. unfold padd. rewrite block_put. destruct (nth_error (blks (fst s)) c) as [[a l|a]|]; auto.
    destruct (c =? b); rewrite ?upd_length; destruct (_ <=? _)%N; auto.
  - unfold keeps, padd. destruct (nth_error (blks (fst s)) c) as [[a l|a]|]; auto. destruct (_ <=? _)%N; auto.
Qed.
Lemma padd_some c o n s p' s' : padd (Some (c, o)) n s = Ok p' s' -> s' = s /\ p' = Some (c, o + N.to_nat n).
Proof. unfold padd. destruct (nth_error _ c) as [[a l|a]|]; try discriminate. destruct (_ <=? _)%N; [|discriminate]. intros Q. injection Q as <- <-. auto. Qed.
Lemma padd_behind p n s p' s' : behind p -> padd p n s = Ok p' s' -> s' = s /\ behind p'.
Proof.
  destruct p as [[c o]|]; intros Hp Q.
  - apply padd_some in Q as [-> ->]. split; auto. cbn in *. intros E. specialize (Hp E). lia.
  - unfold padd in Q. destruct (_ =? _)%N; [|discriminate]. injection Q as <- <-. auto.
Qed.

Lemma good_memmove d f n s : behind d -> behind f -> good (memmove d f n) s.
Proof. intros Hd Hf. apply good_bind; [now apply good_read|]. intros. now apply good_write. Qed.
Lemma good_end_at n s : good (end_at T n) s.
Proof.
  apply good_bind; [apply good_mbegin|]. intros. apply good_bind; [apply good_padd|]. intros. apply good_set_pend.
Qed.
Lemma good_pfill k : forall p v s, behind p -> good (pfill T p k (Val v)) s.
Proof.
  induction k as [|k IH]; intros p v s Hp; cbn [pfill]; [apply good_ret|].
  apply good_bind; [apply good_ret|]. intros a s' Q _ _. injection Q as <- <-.
  apply good_bind; [now apply good_write|]. intros.
  apply good_bind; [apply good_padd|]. intros p' s1 Q _ _. apply padd_behind in Q as [-> Hp']; auto.
Qed.
Lemma good_copy p l s : behind p -> good (copy_not_aliased p l) s.
Proof. intros Hp. destruct l; [apply good_ret|now apply good_write]. Qed.

Lemma preserve_keeps n s : (n <= N.of_nat (pcap (snd s)))%N -> preserve A T n s = Ok false s.
Proof. intros H. unfold preserve, mcap, bind. apply N.leb_le in H. now rewrite H. Qed.
Lemma good_preserve n s : (n <= N.of_nat (pcap (snd s)))%N -> good (preserve A T n) s.
Proof.
  intros H. split; [intros x|unfold keeps]; rewrite (preserve_keeps n s) by auto; cbn; auto.
  exact (preserve_keeps n (put_byte b j x s) H).
Qed.

Lemma psize_lies s c o0 oe : lies s c o0 oe -> psize T s = Ok ((oe - o0) / SZ) s.
Proof. intros (H1 & H2 & H3). unfold psize. rewrite H1, H2, Nat.eqb_refl. apply Nat.leb_le in H3. now rewrite H3. Qed.

Lemma good_presize n s c o0 oe : lies s c o0 oe -> (c = b -> j < oe) -> (n <= N.of_nat (pcap (snd s)))%N -> good (presize A T n) s.
Proof.
  intros L Hj Hc. unfold presize. apply good_bind; [now apply good_preserve|]. intros r s' Q _ _. rewrite preserve_keeps in Q by auto. injection Q as <- <-.
  apply good_bind; [apply good_psize|]. intros k s' Q _ _. rewrite (psize_lies _ _ _ _ L) in Q. injection Q as <- <-.
  apply good_bind; [apply good_mend|]. intros e s' Q _ _. injection Q as <- <-. destruct L as (_ & L2 & _).
  apply good_bind; [destruct (_ && _); [apply good_write; rewrite L2; exact Hj|apply good_ret]|]. intros.
  apply good_bind; [apply good_end_at|]. intros. apply good_ret.
Qed.
Lemma mod_le_ a : (a mod two64 <= a)%N.
Proof. apply N.mod_le. unfold two64. lia. Qed.

Lemma good_pgrow_at off num s c o0 oe : lies s c o0 oe -> (c = b -> j < o0 + off * SZ) -> off <= (oe - o0) / SZ ->
  (N.of_nat ((oe - o0) / SZ) + num <= N.of_nat (pcap (snd s)))%N -> good (pgrow_at A T off num) s.
Proof.
  intros L Hj Ho Hc. unfold pgrow_at. pose proof (mod_le_ (N.of_nat ((oe - o0) / SZ) + num)) as Hm.
  apply good_bind; [apply good_psize|]. intros k s' Q _ _. rewrite (psize_lies _ _ _ _ L) in Q. injection Q as <- <-.
  apply good_bind.
  - destruct (Nat.eqb_spec off ((oe - o0) / SZ)) as [E|E].
    + apply good_bind; [|intros; apply good_ret]. apply (good_presize _ _ c o0 oe); auto; [|lia]. intros Ec. specialize (Hj Ec).
      destruct L as (_ & _ & L3). pose proof (Nat.mul_div_le (oe - o0) SZ). rewrite E in Hj. destruct (Nat.eq_dec SZ 0) as [Z0|Z0]; [rewrite Z0 in *; cbn in *; lia|]. specialize (H Z0). lia.
    + apply good_bind; [apply good_mcap|]. intros cc s' Q _ _. injection Q as <- <-.
      assert ((N.of_nat (pcap (snd s)) <? (N.of_nat ((oe - o0) / SZ) + num) mod two64)%N = false) as -> by (apply N.ltb_ge; lia).
      apply good_bind; [apply good_mbegin|]. intros bb s' Q _ _. injection Q as <- <-. destruct L as (L1 & _). rewrite L1.
      apply good_bind; [apply good_padd|]. intros d s' Q _ _. apply padd_some in Q as [-> ->].
      apply good_bind; [apply good_padd|]. intros f s' Q _ _. apply padd_some in Q as [-> ->].
      apply good_memmove; cbn; intros Ec; specialize (Hj Ec); lia.
  - intros u s1 Q E1 _. apply good_bind; [apply good_end_at|]. intros.
    apply good_bind; [apply good_mbegin|]. intros. apply good_padd.
Qed.
Lemma pgrow_at_answer off num s c o0 oe p s' : lies s c o0 oe -> off <= (oe - o0) / SZ -> (c = b -> j < o0 + off * SZ) ->
  (N.of_nat ((oe - o0) / SZ) + num <= N.of_nat (pcap (snd s)))%N ->
  pgrow_at A T off num s = Ok p s' -> behind p.
Proof.
  intros L Ho Hj Hc Q.
  assert (pb (snd s') = Some (c, o0)) as E.
  { destruct (good_pgrow_at off num s c o0 oe L Hj Ho Hc) as [_ K]. unfold keeps in K. rewrite Q in K. destruct K as [-> _]. apply L. }
  revert Q. unfold pgrow_at. unfold bind at 1. destruct (psize T s) as [k s0| | |]; try discriminate.
  unfold bind at 1. match goal with |- match ?m with Ok _ _ => _ | _ => _ end = _ -> _ => destruct m as [u s1| | |]; try discriminate end.
  unfold bind at 1. destruct (end_at T _ s1) as [u2 s2| | |]; try discriminate. unfold bind, mbegin. intros Q.
  assert (pb (snd s2) = Some (c, o0)) as E2.
  { pose proof (good_padd (pb (snd s2)) (N.of_nat off * N.of_nat SZ) s2) as [_ K]. unfold keeps in K. rewrite Q in K. destruct K as [K _]. congruence. }
  rewrite E2 in Q. apply padd_some in Q as [-> ->]. cbn. intros Ec. specialize (Hj Ec). lia.
Qed.

Lemma good_pshrink_at off num s c o0 oe : lies s c o0 oe -> (c = b -> j < o0 + off * SZ) -> off + num <= (oe - o0) / SZ ->
  good (pshrink_at T off num) s.
Proof.
  intros L Hj Ho. unfold pshrink_at.
  apply good_bind; [apply good_psize|]. intros k s' Q _ _. rewrite (psize_lies _ _ _ _ L) in Q. injection Q as <- <-.
  destruct (_ =? num).
  { apply good_bind; [|intros; apply good_ret]. apply good_bind; [apply good_mbegin|]. intros. apply good_set_pend. }
  apply good_bind; [apply good_mbegin|]. intros bb s' Q _ _. injection Q as <- <-. destruct L as (L1 & _). rewrite L1.
  apply good_bind; [apply good_padd|]. intros d s' Q _ _. apply padd_some in Q as [-> ->].
  apply good_bind; [apply good_padd|]. intros f s' Q _ _. apply padd_some in Q as [-> ->].
  apply good_bind; [apply good_memmove; cbn; intros Ec; specialize (Hj Ec); lia|]. intros.
  apply good_bind; [apply good_end_at|]. intros. apply good_ret.
Qed.

Theorem good_pcall o s c o0 oe : lies s c o0 oe -> positions_in o ((oe - o0) / SZ) ->
  (c = b -> j < o0 + first_touched o ((oe - o0) / SZ) * SZ) -> first_touched o ((oe - o0) / SZ) <> 0 ->
  new_size o ((oe - o0) / SZ) <= pcap (snd s) ->
  good (pcall A T early (PSeq o)) s.
Proof.
  intros L Ho Hj Hz Hc. pose proof L as (L1 & L2 & L3).
  assert ((oe - o0) / SZ * SZ <= oe - o0) as HD.
  { destruct (Nat.eq_dec SZ 0) as [Z0|Z0]; [rewrite Z0; lia|]. rewrite Nat.mul_comm. now apply Nat.mul_div_le. }
  destruct o as [v| |pos v|pos n v|pos l|pos|f l|n|n v| |n v|l]; cbn -[two64 Nat.div] in *; try congruence;
  unfold no_answer, position_answer; apply good_bind; try (intros; apply good_ret).
  - assert (good (pemplace_back A T) s) as G.
    { unfold pemplace_back.
      apply good_bind; [apply good_psize|]. intros k s' Q _ _. rewrite (psize_lies _ _ _ _ L) in Q. injection Q as <- <-.
      pose proof (mod_le_ (N.of_nat ((oe - o0) / SZ) + 1)) as Hm.
      apply good_bind; [apply good_preserve; lia|]. intros r s' Q _ _. rewrite preserve_keeps in Q by lia. injection Q as <- <-.
      apply good_bind; [apply good_mend|]. intros e s' Q _ _. injection Q as <- <-.
      apply good_bind; [apply good_padd|]. intros e' s' Q _ _. apply good_bind; [apply good_set_pend|]. intros. apply good_ret. }
    assert (forall e s', pemplace_back A T s = Ok e s' -> behind e) as B.
    { intros e s'. unfold pemplace_back. unfold bind at 1. rewrite (psize_lies _ _ _ _ L).
      pose proof (mod_le_ (N.of_nat ((oe - o0) / SZ) + 1)) as Hm. unfold bind at 1. rewrite preserve_keeps by lia.
      unfold bind, mend, set_pend, ret. destruct (padd _ _ s) as [e' s1| | |]; try discriminate. intros Q. injection Q as <- _.
      rewrite L2. cbn. intros Ec. specialize (Hj Ec). lia. }
    unfold ppush_back. destruct early.
    + apply good_bind; [apply good_ret|]. intros a s' Q _ _. injection Q as <- <-.
      apply good_bind; [exact G|]. intros e s' Q _ _. apply good_write. eapply B; eauto.
    + apply good_bind; [exact G|]. intros e s' Q _ _. apply good_bind; [apply good_ret|]. intros. apply good_write. eapply B; eauto.
  - unfold ppop_back. apply good_bind; [apply good_psize|]. intros k s' Q _ _. rewrite (psize_lies _ _ _ _ L) in Q. injection Q as <- <-.
    destruct (_ =? 0); [apply good_ub|]. apply good_bind; [|intros; apply good_ret]. apply (good_pshrink_at _ _ _ c o0 oe); auto. lia.
  - unfold pinsert1. apply good_bind; [apply (good_pgrow_at _ _ _ c o0 oe); auto; lia|]. intros p s' Q _ _.
    apply (pgrow_at_answer _ _ _ c o0 oe) in Q; auto; [|lia].
    apply good_bind; [apply good_ret|]. intros. apply good_bind; [now apply good_write|]. intros. apply good_ret.
  - unfold pinsert_n. apply good_bind; [apply (good_pgrow_at _ _ _ c o0 oe); auto; lia|]. intros p s' Q _ _.
    apply (pgrow_at_answer _ _ _ c o0 oe) in Q; auto; [|lia].
    apply good_bind; [now apply good_pfill|]. intros. apply good_ret.
  - unfold pinsert_range. apply good_bind; [apply (good_pgrow_at _ _ _ c o0 oe); auto; lia|]. intros p s' Q _ _.
    apply (pgrow_at_answer _ _ _ c o0 oe) in Q; auto; [|lia].
    apply good_bind; [now apply good_copy|]. intros. apply good_ret.
  - unfold perase. apply (good_pshrink_at _ _ _ c o0 oe); auto. lia.
  - unfold perase_range. apply (good_pshrink_at _ _ _ c o0 oe); auto. lia.
  - apply (good_presize _ _ c o0 oe); auto; [|lia]. intros Ec. specialize (Hj Ec).
    assert (Nat.min n ((oe - o0) / SZ) * SZ <= (oe - o0) / SZ * SZ) by (apply Nat.mul_le_mono_r; lia). lia.
  - unfold presize_val. apply good_bind; [apply good_preserve; lia|]. intros r s' Q _ _. rewrite preserve_keeps in Q by lia. injection Q as <- <-.
    apply good_bind; [apply good_mend|]. intros e s' Q _ _. injection Q as <- <-.
    apply good_bind.
    { apply good_pfill. rewrite L2. cbn. intros Ec. specialize (Hj Ec).
      assert (Nat.min n ((oe - o0) / SZ) * SZ <= (oe - o0) / SZ * SZ) by (apply Nat.mul_le_mono_r; lia). lia. }
    intros. apply good_bind; [apply good_end_at|]. intros. apply good_ret.
Qed.
End Pod.
