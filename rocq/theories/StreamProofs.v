(** Proofs about the memory stream buffers and redirect_rstream. *)
From Coq Require Import List Arith NArith ZArith Lia Bool.
From Verif Require Import Base VecCommon StreamModel StreamSpec.
Import ListNotations.

(** * mem_ostreambuf *)
Section O.
Context {C : Type}.
Variable zero : C.
Variable P : policy.
Hypothesis HP : good_policy P.

Lemma to_int_small z : (0 <= z < int_max1)%Z -> to_int z = z.
Proof.
  unfold to_int, int_max1. intros H. rewrite Z.mod_small by lia.
  now rewrite (proj2 (Z.ltb_lt _ _)) by lia.
Qed.

Definition nul (s : ob C) : bool := null_data P && (ocap s =? 0).

Lemma nul_cap (s : ob C) : nul s = true -> ocap s = 0.
Proof. unfold nul. intros H. apply andb_true_iff in H as (_ & H). now apply Nat.eqb_eq. Qed.

Lemma held_poff (s : ob C) l pos : holds_file P s (Held l pos) -> poff P s = Ok pos s.
Proof.
  intros (A & B & (t & D) & E & F). unfold poff, ptr_off, base_null. destruct (null_data P && (ocap s =? 0)) eqn:N.
  - destruct F as (-> & _). apply nul_cap in N. rewrite D in B. len. rewrite app_length in B.
    assert (pos = 0) as -> by lia. reflexivity.
  - destruct F as (-> & _). reflexivity.
Qed.

Lemma held_remaining (s : ob C) l pos : holds_file P s (Held l pos) ->
  remaining s = Some (length (odata s) - pos).
Proof.
  intros (A & B & (t & D) & E & F). unfold remaining. destruct (null_data P && (ocap s =? 0)) eqn:N.
  - destruct F as (-> & ->). apply nul_cap in N. f_equal. lia.
  - destruct F as (-> & ->). reflexivity.
Qed.

Lemma setp_held (d : list C) c p e (l t : list C) pos : c <= max_sz P -> length d <= c -> d = l ++ t -> pos <= length l ->
  exists s', setp P (Z.of_nat pos) (mkOb d c p e) = Ok tt s' /\ holds_file P s' (Held l pos) /\
    odata s' = d /\ ocap s' = c.
Proof.
  intros A B D E. unfold setp, ptr_at, base_null. cbn [ocap odata].
  destruct (null_data P && (c =? 0)) eqn:N.
  - assert (c = 0) as -> by (apply andb_true_iff in N as (_ & N); now apply Nat.eqb_eq).
    assert (length d = 0) as L0 by lia. assert (pos = 0) as ->.
    { rewrite D, app_length in L0. lia. }
    rewrite L0. cbn [Z.of_nat Z.eqb]. eexists. split; [reflexivity|]. split; [|auto].
    unfold holds_file. cbn [ocap odata pptr epptr]. rewrite N. repeat split; eauto; lia.
  - assert (length l <= length d) by (rewrite D; len).
    rewrite (proj2 (Z.leb_le 0 (Z.of_nat pos))) by lia.
    rewrite (proj2 (Z.leb_le (Z.of_nat pos) _)) by lia. cbn [andb].
    rewrite (proj2 (Z.leb_le 0 (Z.of_nat (length d)))) by lia. rewrite Z.leb_refl. cbn [andb].
    rewrite !Nat2Z.id. eexists. split; [reflexivity|]. split; [|auto].
    unfold holds_file. cbn [ocap odata pptr epptr]. rewrite N. repeat split; eauto.
Qed.

Lemma cap_resize_ok s l pos by_ : holds_file P s (Held l pos) ->
  length (odata s) + by_ <= max_sz P ->
  exists s', cap_resize_by zero P by_ s = Ok tt s' /\ holds_file P s' (Held l pos) /\
    length (odata s) + by_ <= length (odata s') /\ length (odata s') = ocap s'.
Proof.
  intros H Hm. pose proof H as (A & B & (t & D) & E & F). destruct HP as (P1 & P2 & P3).
  unfold cap_resize_by. erewrite bind_ok by (eapply held_poff; exact H). rewrite bind_get.
  set (n := length (odata s) + by_) in *.
  assert (n <= new_cap P (ocap s) n <= max_sz P) as Hc.
  { destruct (Nat.le_gt_cases n (ocap s)) as [L|L]; [rewrite P1 by auto; lia|auto]. }
  erewrite bind_ok by (unfold cont_resize; rewrite (proj2 (Nat.ltb_ge _ _)) by lia; reflexivity).
  rewrite bind_get. cbn [ocap odata].
  set (c := new_cap P (ocap s) n) in *.
  erewrite bind_ok by (unfold cont_resize; cbn [ocap]; rewrite (proj2 (Nat.ltb_ge _ _)) by lia; reflexivity).
  cbn [odata ocap pptr epptr]. rewrite (P1 c c) by lia.
  rewrite (firstn_all2 (n := n)) by lia. fold n.
  rewrite (firstn_all2 (n := c)) by (len; lia). rewrite app_length, repeat_length.
  destruct (setp_held ((odata s ++ repeat zero (n - length (odata s))) ++ repeat zero (c - (length (odata s) + (n - length (odata s)))))
     c (pptr s) (epptr s) l (t ++ repeat zero (n - length (odata s)) ++ repeat zero (c - (length (odata s) + (n - length (odata s))))) pos)
    as (s' & R & H' & D' & C'); try lia.
  - len.
  - rewrite D, <- !app_assoc. reflexivity.
  - exists s'. split; [exact R|]. split; [exact H'|]. rewrite D', C'. split; len.
Qed.

Lemma cap_resize_throw s l pos by_ : holds_file P s (Held l pos) ->
  max_sz P < length (odata s) + by_ -> cap_resize_by zero P by_ s = Throw LengthError s.
Proof.
  intros H Hm. unfold cap_resize_by. erewrite bind_ok by (eapply held_poff; exact H). rewrite bind_get.
  apply bind_throw. unfold cont_resize. now rewrite (proj2 (Nat.ltb_lt _ _)) by lia.
Qed.

Lemma poke_block (c : C) s : poke c s = put_block [c] s.
Proof.
  unfold poke, put_block. destruct (pptr s) as [|n]; [reflexivity|]. cbn [length].
  destruct (n <? length (odata s)) eqn:E.
  - apply Nat.ltb_lt in E. rewrite (proj2 (Nat.leb_le _ _)) by lia.
    rewrite upd_firstn_skipn by auto. rewrite Nat.add_1_r. reflexivity.
  - apply Nat.ltb_ge in E. rewrite (proj2 (Nat.leb_gt _ _)) by lia. reflexivity.
Qed.

Lemma overwrite_length (l : list C) pos str : pos <= length l ->
  length (overwrite l pos str) = Nat.max (length l) (pos + length str).
Proof. intros H. unfold overwrite. len. Qed.

Lemma block_ok (s : ob C) l pos str : holds_file P s (Held l pos) ->
  pos + length str <= length (odata s) ->
  exists s', bind (put_block str) (fun _ => pbump (Z.of_nat (length str))) s = Ok tt s' /\
    holds_file P s' (Held (overwrite l pos str) (pos + length str)).
Proof.
  intros H Hr. pose proof H as (A & B & (t & D) & E & F).
  destruct (null_data P && (ocap s =? 0)) eqn:N.
  - destruct F as (Fp & Fe). apply nul_cap in N as N0. assert (length str = 0) as L0 by lia.
    destruct str; [|discriminate]. exists s. split.
    + unfold bind, put_block, pbump. rewrite Fp. cbn [length]. rewrite Fp. reflexivity.
    + unfold overwrite. cbn [app length]. rewrite Nat.add_0_r, firstn_skipn. exact H.
  - destruct F as (Fp & Fe). eexists. split.
    + unfold bind, put_block, pbump. rewrite Fp. rewrite (proj2 (Nat.leb_le _ _)) by lia.
      cbn [pptr odata ocap epptr]. rewrite !app_length, firstn_length, skipn_length.
      rewrite (proj2 (Z.leb_le 0 _)), (proj2 (Z.leb_le _ (Z.of_nat _))) by lia. cbn [andb]. reflexivity.
    + replace (Z.to_nat (Z.of_nat pos + Z.of_nat (length str))) with (pos + length str) by lia.
      cbn [holds_file odata ocap pptr epptr]. rewrite N. split; [lia|]. split; [len|]. split.
      * unfold overwrite. rewrite D. destruct (Nat.le_gt_cases (pos + length str) (length l)) as [L|L].
        -- exists t. rewrite firstn_app, skipn_app.
           replace (pos - length l) with 0 by lia. replace (pos + length str - length l) with 0 by lia.
           cbn [firstn skipn]. rewrite app_nil_r, <- !app_assoc. reflexivity.
        -- exists (skipn (pos + length str) (l ++ t)).
           rewrite firstn_app. replace (pos - length l) with 0 by lia. cbn [firstn]. rewrite app_nil_r.
           rewrite (skipn_all2 l) by lia. rewrite app_nil_r, <- app_assoc. reflexivity.
      * split; [rewrite overwrite_length by auto; lia|]. rewrite Fe. split; [reflexivity|]. f_equal. len.
Qed.

Lemma xsputn_ok s l pos str : holds_file P s (Held l pos) ->
  pos + length str <= max_sz P -> (Z.of_nat (length str) < int_max1)%Z ->
  exists s', xsputn zero P str s = Ok tt s' /\
    holds_file P s' (Held (overwrite l pos str) (pos + length str)).
Proof.
  intros H Hm H31. pose proof H as (A & B & (t & D) & E & F).
  assert (length l <= length (odata s)) as LL by (rewrite D; len).
  unfold xsputn. rewrite bind_get, (held_remaining _ _ _ H). rewrite to_int_small by lia.
  destruct (length (odata s) - pos <? length str) eqn:Q.
  - apply Nat.ltb_lt in Q.
    destruct (cap_resize_ok s l pos (length str - (length (odata s) - pos)) H) as (s1 & R1 & H1 & L1 & _); [lia|].
    erewrite bind_ok by exact R1. destruct (block_ok s1 l pos str H1 ltac:(lia)) as (s' & R & H').
    exists s'. split; auto.
  - apply Nat.ltb_ge in Q. unfold ret at 1. erewrite bind_ok by reflexivity.
    apply block_ok; auto. lia.
Qed.

Lemma xsputn_throw s l pos str : holds_file P s (Held l pos) ->
  max_sz P < pos + length str -> xsputn zero P str s = Throw LengthError s.
Proof.
  intros H Hm. pose proof H as (A & B & (t & D) & E & F).
  assert (length l <= length (odata s)) as LL by (rewrite D; len).
  unfold xsputn. rewrite bind_get, (held_remaining _ _ _ H).
  rewrite (proj2 (Nat.ltb_lt _ _)) by lia. apply bind_throw.
  eapply cap_resize_throw; [exact H|]. lia.
Qed.

Lemma sputc_ok s l pos c : holds_file P s (Held l pos) -> pos + 1 <= max_sz P ->
  exists s', sputc zero P c s = Ok tt s' /\
    holds_file P s' (Held (overwrite l pos [c]) (pos + 1)).
Proof.
  intros H Hm. pose proof H as (A & B & (t & D) & E & F).
  assert (length l <= length (odata s)) as LL by (rewrite D; len).
  unfold sputc. rewrite bind_get, (held_remaining _ _ _ H).
  assert (forall s1, holds_file P s1 (Held l pos) -> pos + 1 <= length (odata s1) ->
    exists s', (poke c ;;; pbump 1) s1 = Ok tt s' /\ holds_file P s' (Held (overwrite l pos [c]) (pos + 1))) as G.
  { intros s1 H1 L1. destruct (block_ok s1 l pos [c] H1 L1) as (s' & R & H'). exists s'. split; [|exact H'].
    unfold bind in *. rewrite poke_block. exact R. }
  destruct (length (odata s) - pos) eqn:Q.
  - unfold overflow. destruct (cap_resize_ok s l pos 1 H) as (s1 & R1 & H1 & L1 & _); [lia|].
    erewrite bind_ok by exact R1. apply G; auto. lia.
  - apply G; auto. lia.
Qed.

Lemma sputc_throw s l pos c : holds_file P s (Held l pos) -> max_sz P < pos + 1 ->
  sputc zero P c s = Throw LengthError s.
Proof.
  intros H Hm. pose proof H as (A & B & (t & D) & E & F).
  assert (length l <= length (odata s)) as LL by (rewrite D; len).
  unfold sputc. rewrite bind_get, (held_remaining _ _ _ H).
  replace (length (odata s) - pos) with 0 by lia. unfold overflow. apply bind_throw.
  eapply cap_resize_throw; [exact H|]. lia.
Qed.

Lemma seekpos_ok (s : ob C) l pos off : holds_file P s (Held l pos) ->
  (0 <= off <= Z.of_nat (length l))%Z -> (off < int_max1)%Z ->
  exists s', oseekpos P off s = Ok off s' /\ holds_file P s' (Held l (Z.to_nat off)).
Proof.
  intros (A & B & (t & D) & E & F) Ho H31. unfold oseekpos. rewrite to_int_small by lia.
  destruct s as [d c p e]. cbn [odata ocap pptr epptr] in *.
  destruct (setp_held d c p e l t (Z.to_nat off) A B D ltac:(lia)) as (s' & R & H' & _).
  rewrite Z2Nat.id in R by lia. erewrite bind_ok by exact R. eauto.
Qed.

Lemma clear_ok (s : ob C) : ocap s <= max_sz P ->
  exists s', oclear P s = Ok tt s' /\ holds_file P s' (Held [] 0).
Proof.
  intros A. unfold oclear. destruct (setp_held [] (ocap s) (pptr s) (epptr s) [] [] 0 A) as (s' & R & H & _); auto; cbn [length]; try lia.
  eauto.
Qed.

Lemma get_ok (s : ob C) l pos : holds_file P s (Held l pos) ->
  get_container zero P s = Ok (firstn pos l) (mkOb [] (cap0 P) PNull PNull).
Proof.
  intros H. pose proof H as (A & B & (t & D) & E & F). unfold get_container.
  erewrite bind_ok by (eapply held_poff; exact H). rewrite bind_get.
  unfold put. erewrite bind_ok by reflexivity.
  assert (length l <= length (odata s)) as LL by (rewrite D; len).
  rewrite (proj2 (Nat.ltb_ge _ _)) by lia. unfold ret. f_equal.
  replace (pos - length (odata s)) with 0 by lia. cbn [repeat]. rewrite app_nil_r, D, firstn_app.
  replace (pos - length l) with 0 by lia. cbn [firstn]. now rewrite app_nil_r.
Qed.

Lemma fresh_held : holds_file P (fresh P) (Held ([] : list C) 0).
Proof.
  destruct HP as (_ & _ & P3). unfold fresh, base_null. cbn [ocap].
  destruct (null_data P && (cap0 P =? 0)) eqn:N; unfold holds_file; cbn [ocap odata pptr epptr length];
    rewrite N; repeat split; try lia; now exists [].
Qed.

(** The state after a call: the same whether it returns or throws. *)
Definition oafter (r : res (ob C) (oans C)) : option (ob C * oans C) :=
  match r with
  | Ok a s => Some (s, a)
  | Throw e s => Some (s, OaThrow e)
  | _ => None
  end.

Lemma ocall_sim s f o : holds_file P s f -> fok f o ->
  exists s', oafter (ocall zero P o s) = Some (s', snd (fstep P f o)) /\
    holds_file P s' (fst (fstep P f o)).
Proof.
  intros H Hok. destruct f as [l pos|].
  - pose proof H as (A & B & (t & D) & E & F). destruct o; cbn [fok fstep ocall] in *.
    + cbn [length]. destruct (max_sz P <? pos + 1) eqn:Q.
      * apply Nat.ltb_lt in Q. exists s. rewrite (bind_throw _ _ _ _ _ (sputc_throw s l pos c H Q)). auto.
      * apply Nat.ltb_ge in Q. destruct (sputc_ok s l pos c H Q) as (s' & R & H').
        exists s'. erewrite bind_ok by exact R. auto.
    + destruct (max_sz P <? pos + length str) eqn:Q.
      * apply Nat.ltb_lt in Q. exists s. rewrite (bind_throw _ _ _ _ _ (xsputn_throw s l pos str H Q)). auto.
      * apply Nat.ltb_ge in Q. destruct (xsputn_ok s l pos str H Q Hok) as (s' & R & H').
        exists s'. erewrite bind_ok by exact R. auto.
    + destruct Hok as (H1 & H2). destruct (seekpos_ok s l pos off H H1 H2) as (s' & R & H').
      exists s'. cbn [oseekoff]. erewrite bind_ok by exact R. auto.
    + destruct Hok as (H1 & H2). destruct (seekpos_ok s l pos _ H H1 H2) as (s' & R & H').
      exists s'. assert (oseekoff P off Cur s = Ok (Z.of_nat pos + off)%Z s') as RR.
      { cbn [oseekoff]. erewrite bind_ok by (eapply held_poff; exact H). exact R. }
      erewrite bind_ok by exact RR. auto.
    + exists s. erewrite bind_ok by (eapply held_poff; exact H). auto.
    + exists s. erewrite bind_ok by (eapply held_poff; exact H). rewrite bind_get. cbn [oafter ret fst snd].
      split; auto. unfold ret. cbn [oafter]. do 3 f_equal. rewrite D, firstn_app. replace (pos - length l) with 0 by lia.
      cbn [firstn]. now rewrite app_nil_r.
    + destruct (clear_ok s A) as (s' & R & H'). exists s'. erewrite bind_ok by exact R. auto.
    + eexists. erewrite bind_ok by (apply (get_ok s l pos); exact H). cbn [oafter ret fst snd]. split; [reflexivity|].
      unfold fresh_null. destruct (null_data P && (cap0 P =? 0)) eqn:N.
      * unfold holds_file. cbn [ocap odata pptr epptr length]. rewrite N. destruct HP as (_ & _ & P3).
        repeat split; try lia. now exists [].
      * split; auto.
  - cbn [fok] in Hok. subst o. destruct H as (N & ->). cbn [fstep fst snd ocall].
    destruct HP as (_ & _ & P3).
    destruct (clear_ok (mkOb [] (cap0 P) PNull PNull)) as (s' & R & H'); auto.
    exists s'. erewrite bind_ok by exact R. auto.
Qed.

Lemma orun_sim os : forall s f, holds_file P s f -> falong P f os ->
  exists s', orun zero P s os = Some (s', snd (StreamSpec.frun P f os)) /\
    holds_file P s' (fst (StreamSpec.frun P f os)).
Proof.
  induction os as [|o os IH]; intros s f H Hl; cbn [orun StreamSpec.frun falong] in *.
  - eauto.
  - destruct Hl as (Ho & Hl). destruct (ocall_sim s f o H Ho) as (s1 & R & H1).
    destruct (fstep P f o) as (f1, a). cbn [fst snd] in *.
    destruct (IH s1 f1 H1 Hl) as (s2 & R2 & H2).
    destruct (StreamSpec.frun P f1 os) as (f2, rs). cbn [fst snd] in *.
    exists s2. split; [|exact H2].
    destruct (ocall zero P o s) as [a0 s0|e0 s0| |]; cbn [oafter] in R; try discriminate; injection R as <- <-; now rewrite R2.
Qed.

(** Writes only. *)
Definition wfile (taken : bool) (l : list C) : file C := if taken then Taken else Held l (length l).

Lemma overwrite_end (l str : list C) : overwrite l (length l) str = l ++ str.
Proof.
  unfold overwrite. rewrite firstn_all, skipn_all2 by lia. now rewrite app_nil_r.
Qed.

Lemma wstep_fstep os : forall taken l, walong P taken os -> (taken = true -> l = []) ->
  falong P (wfile taken l) os /\
  snd (StreamSpec.frun P (wfile taken l) os) = snd (wrun P l os) /\
  exists taken', fst (StreamSpec.frun P (wfile taken l) os) = wfile taken' (fst (wrun P l os)) /\
    (taken' = true -> fst (wrun P l os) = []).
Proof.
  induction os as [|o os IH]; intros taken l Hw Ht; cbn [walong falong StreamSpec.frun wrun] in *.
  - split; [exact I|]. split; [reflexivity|]. exists taken. auto.
  - destruct Hw as (Hs & Htk & H31 & Hw).
    assert (fok (wfile taken l) o /\
       fstep P (wfile taken l) o =
         (wfile (match o with OGet => negb (fresh_null P) | _ => false end) (fst (wstep P l o)), snd (wstep P l o)) /\
       ((match o with OGet => negb (fresh_null P) | _ => false end) = true -> fst (wstep P l o) = [])) as (A & B & D).
    { destruct taken.
      - rewrite (Htk eq_refl). cbn. auto.
      - cbn [wfile]. destruct o; cbn [is_seek] in Hs; try discriminate; cbn [fok fstep wstep fst snd length].
        + split; [exact I|]. destruct (max_sz P <? length l + 1); cbn [fst snd]; (split; [|discriminate]); [reflexivity|].
          cbn [wfile]. rewrite overwrite_end, app_length. reflexivity.
        + split; [now apply H31|]. destruct (max_sz P <? length l + length str); cbn [fst snd]; (split; [|discriminate]); [reflexivity|].
          cbn [wfile]. rewrite overwrite_end, app_length. reflexivity.
        + split; [exact I|]. split; [reflexivity|discriminate].
        + split; [exact I|]. split; [|discriminate]. now rewrite firstn_all.
        + split; [exact I|]. split; [reflexivity|discriminate].
        + split; [exact I|]. rewrite firstn_all. split; [|reflexivity]. destruct (fresh_null P); reflexivity. }
    destruct (wstep P l o) as (l1, a). cbn [fst snd] in *. rewrite B. cbn [fst snd].
    specialize (IH _ l1 Hw D). destruct IH as (I1 & I2 & tk & I3 & I4).
    split; [auto|].
    destruct (StreamSpec.frun P (wfile (match o with OGet => negb (fresh_null P) | _ => false end) l1) os) as (f2, rs).
    destruct (wrun P l1 os) as (l2, rs'). cbn [fst snd] in *. subst rs'. split; [reflexivity|]. eauto.
Qed.
(** * What goes wrong *)
Lemma oconstruct_ok reserve : reserve <= max_sz P ->
  exists s, oconstruct zero P reserve = Ok tt s /\ holds_file P s (Held [] 0).
Proof.
  intros H. unfold oconstruct.
  destruct (cap_resize_ok (fresh P) [] 0 reserve fresh_held) as (s & R & H' & _).
  - unfold fresh. destruct (base_null _ _); cbn [odata length]; lia.
  - eauto.
Qed.
Lemma oconstruct_throw reserve : max_sz P < reserve ->
  oconstruct zero P reserve = Throw LengthError (fresh P).
Proof.
  intros H. unfold oconstruct. eapply cap_resize_throw; [exact fresh_held|].
  unfold fresh. destruct (base_null _ _); cbn [odata length]; lia.
Qed.

Lemma taken_poff : fresh_null P = false -> poff P (mkOb ([] : list C) (cap0 P) PNull PNull) = UB.
Proof. intros H. unfold poff, ptr_off, base_null. cbn [pptr ocap]. unfold fresh_null in H. now rewrite H. Qed.

Lemma taken_write o : fresh_null P = false -> (exists c, o = OPut c) \/ (exists str, o = OWrite str /\ str <> []) ->
  ocall zero P o (mkOb [] (cap0 P) PNull PNull) = UB.
Proof.
  intros H [(c & ->)|(str & -> & Hs)]; cbn [ocall].
  - unfold sputc, overflow, cap_resize_by, bind, get. cbn [remaining pptr epptr]. now rewrite taken_poff.
  - unfold xsputn, cap_resize_by, bind, get. cbn [remaining pptr epptr].
    destruct str as [|c str]; [congruence|]. cbn [length Nat.ltb Nat.leb Nat.sub]. now rewrite taken_poff.
Qed.

Lemma to_int_big z : (int_max1 <= z < 2 * int_max1)%Z -> to_int z = (z - 2 * int_max1)%Z.
Proof.
  unfold to_int, int_max1. intros H. rewrite Z.mod_small by lia.
  rewrite (proj2 (Z.ltb_ge _ _)) by lia. lia.
Qed.

Lemma held_not_null (s : ob C) l pos : holds_file P s (Held l pos) -> 0 < length (odata s) ->
  null_data P && (ocap s =? 0) = false /\ pptr s = POff pos /\ epptr s = POff (length (odata s)).
Proof.
  intros (A & B & _ & _ & F) L. destruct (null_data P && (ocap s =? 0)) eqn:N; [|auto].
  apply nul_cap in N. lia.
Qed.

Lemma block_huge (s : ob C) l pos str : holds_file P s (Held l pos) ->
  pos + length str <= length (odata s) -> (int_max1 <= Z.of_nat (length str))%Z ->
  (Z.of_nat (pos + length str) < 2 * int_max1)%Z ->
  bind (put_block str) (fun _ => pbump (to_int (Z.of_nat (length str)))) s = UB.
Proof.
  intros H L H1 H2. destruct (held_not_null s l pos H) as (N & Fp & Fe); [unfold int_max1 in *; lia|].
  unfold bind, put_block, pbump. rewrite Fp, (proj2 (Nat.leb_le _ _)) by lia.
  cbn [pptr odata ocap epptr]. rewrite to_int_big by lia. now rewrite (proj2 (Z.leb_gt 0 _)) by lia.
Qed.

Lemma xsputn_huge (s : ob C) l pos str : holds_file P s (Held l pos) ->
  pos + length str <= max_sz P -> (int_max1 <= Z.of_nat (length str))%Z ->
  (Z.of_nat (pos + length str) < 2 * int_max1)%Z ->
  xsputn zero P str s = UB.
Proof.
  intros H Hm H1 H2. pose proof H as (A & B & (t & D) & E & F).
  assert (length l <= length (odata s)) as LL by (rewrite D; len).
  unfold xsputn. rewrite bind_get, (held_remaining _ _ _ H).
  destruct (length (odata s) - pos <? length str) eqn:Q.
  - apply Nat.ltb_lt in Q.
    destruct (cap_resize_ok s l pos (length str - (length (odata s) - pos)) H) as (s1 & R1 & H' & L1 & _); [lia|].
    erewrite bind_ok by exact R1. eapply block_huge; [exact H'| | |]; lia.
  - apply Nat.ltb_ge in Q. unfold ret. erewrite bind_ok by reflexivity.
    eapply block_huge; [exact H| | |]; lia.
Qed.

Lemma seek_end (s : ob C) l pos off : holds_file P s (Held l pos) ->
  (0 <= Z.of_nat (length (odata s)) + off)%Z -> (off <= 0)%Z ->
  (Z.of_nat (length (odata s)) + off < int_max1)%Z ->
  exists s', oseekoff P off End s = Ok (Z.of_nat (length (odata s)) + off)%Z s' /\
    holds_file P s' (Held (odata s) (Z.to_nat (Z.of_nat (length (odata s)) + off))).
Proof.
  intros (A & B & _) H1 H2 H3. cbn [oseekoff]. rewrite bind_get. unfold oseekpos.
  rewrite to_int_small by lia. destruct s as [d c p e]. cbn [odata ocap] in *.
  destruct (setp_held d c p e d [] (Z.to_nat (Z.of_nat (length d) + off)) A B) as (s' & R & H' & _).
  - now rewrite app_nil_r.
  - lia.
  - rewrite Z2Nat.id in R by lia. erewrite bind_ok by exact R. eauto.
Qed.

Lemma seek_far (s : ob C) l pos off : holds_file P s (Held l pos) ->
  (int_max1 <= off < 2 * int_max1)%Z -> oseekoff P off Beg s = UB.
Proof.
  intros H H1. cbn [oseekoff]. unfold oseekpos. rewrite to_int_big by lia.
  unfold bind, setp, ptr_at. destruct (base_null P s).
  - rewrite (proj2 (Z.eqb_neq _ _)) by lia. reflexivity.
  - rewrite (proj2 (Z.leb_gt 0 _)) by lia. reflexivity.
Qed.
End O.

(** * mem_istreambuf *)
Section I.
Context {C : Type}.
Variable mem : list C.
Hypothesis Hlen : (Z.of_nat (length mem) < Z.of_N two63)%Z.

Lemma to_pos_small z : (0 <= z < Z.of_N two63)%Z -> to_pos z = z.
Proof.
  unfold to_pos, two63, two64. intros H. cbn [Z.of_N] in *. rewrite Z.mod_small by lia.
  now rewrite (proj2 (Z.ltb_lt _ _)) by lia.
Qed.

Lemma to_pos_wrap z off : (0 <= z + off < Z.of_N two63)%Z -> to_pos (z mod Z.of_N two64 + off) = (z + off)%Z.
Proof.
  intros H. unfold to_pos. rewrite Zplus_mod_idemp_l. fold (to_pos (z + off)). now apply to_pos_small.
Qed.

Lemma peek_ok pos c z : nth_error mem pos = Some c -> z = Z.of_nat pos ->
  forall s, imem s = mem -> peek_at z s = Ok c s.
Proof.
  intros E -> s Hs. unfold peek_at. rewrite (proj2 (Z.ltb_ge _ _)) by lia. rewrite Nat2Z.id, Hs, E. reflexivity.
Qed.

Lemma icall_ok pos o : pos <= length mem -> iok mem pos o ->
  icall o (mkIb mem (Z.of_nat pos)) =
    Ok (snd (istep mem pos o)) (mkIb mem (Z.of_nat (fst (istep mem pos o)))) /\
  fst (istep mem pos o) <= length mem.
Proof.
  intros Hp Hok. destruct o; cbn [icall istep iok] in *.
  - (* peek *)
    split; [|exact Hp]. unfold sgetc. unfold bind, get. cbn [gpos imem isize].
    unfold isize. cbn [imem]. destruct (Z.of_nat pos <? Z.of_nat (length mem))%Z eqn:Q.
    + apply Z.ltb_lt in Q. destruct (nth_error mem pos) as [c|] eqn:E; [|apply nth_error_None in E; lia].
      rewrite (peek_ok pos c _ E eq_refl) by reflexivity. reflexivity.
    + apply Z.ltb_ge in Q. rewrite (proj2 (nth_error_None mem pos)) by lia. reflexivity.
  - (* get *)
    unfold sbumpc, bind, get. cbn [gpos imem]. unfold isize. cbn [imem].
    destruct (Z.of_nat pos <? Z.of_nat (length mem))%Z eqn:Q.
    + apply Z.ltb_lt in Q. destruct (nth_error mem pos) as [c|] eqn:E; [|apply nth_error_None in E; lia].
      rewrite (peek_ok pos c _ E eq_refl) by reflexivity. rewrite (proj2 (Nat.ltb_lt _ _)) by lia.
      unfold put, ret. cbn [fst snd]. split; [|lia]. do 2 f_equal. lia.
    + apply Z.ltb_ge in Q. rewrite (proj2 (nth_error_None mem pos)) by lia.
      rewrite (proj2 (Nat.ltb_ge _ _)) by lia. split; [reflexivity|exact Hp].
  - (* unget *)
    unfold sungetc, bind, get. cbn [gpos imem]. destruct pos as [|p].
    + cbn. split; [reflexivity|lia].
    + rewrite (proj2 (Z.ltb_lt 0 _)) by lia. unfold put.
      destruct (nth_error mem p) as [c|] eqn:E; [|apply nth_error_None in E; lia].
      replace (Z.of_nat (S p) - 1)%Z with (Z.of_nat p) by lia.
      rewrite (peek_ok p c _ E eq_refl) by reflexivity. cbn [fst snd]. split; [reflexivity|lia].
  - (* read *)
    unfold xsgetn, bind, get. cbn [gpos imem]. unfold isize. cbn [imem].
    set (k := if (Z.of_nat (length mem) <? Z.of_nat pos + Z.of_nat n)%Z
              then (Z.of_nat (length mem) - Z.of_nat pos)%Z else Z.of_nat n).
    assert (k = Z.of_nat (Nat.min n (length mem - pos))) as Hk.
    { unfold k. destruct (Z.of_nat (length mem) <? Z.of_nat pos + Z.of_nat n)%Z eqn:Q;
        [apply Z.ltb_lt in Q|apply Z.ltb_ge in Q]; lia. }
    rewrite Hk. rewrite (proj2 (Z.ltb_ge _ 0)) by lia. cbn [fst snd].
    assert (firstn (Nat.min n (length mem - pos)) (skipn pos mem) = firstn n (skipn pos mem)) as FE.
    { rewrite <- (firstn_firstn (skipn pos mem) n (length mem - pos)). f_equal. apply firstn_all2. len. }
    assert (length (firstn n (skipn pos mem)) = Nat.min n (length mem - pos)) as FL by len.
    rewrite FL. destruct (Z.of_nat (Nat.min n (length mem - pos)) =? 0)%Z eqn:Z0.
    + apply Z.eqb_eq in Z0. assert (firstn n (skipn pos mem) = []) as ->.
      { apply length_zero_iff_nil. lia. }
      unfold put, ret. split; [|lia]. do 2 f_equal. lia.
    + rewrite (proj2 (Z.ltb_ge (Z.of_nat pos) 0)) by lia. unfold put, ret. rewrite !Nat2Z.id, FE.
      split; [|lia]. do 2 f_equal. lia.
  - (* seek *)
    assert (iseekoff off w (mkIb mem (Z.of_nat pos)) = Ok (target mem pos off w) (mkIb mem (target mem pos off w))) as R.
    { destruct w; cbn [iseekoff target] in *.
      - reflexivity.
      - unfold bind, goff. cbn [gpos]. unfold iseekpos. cbn [imem]. now rewrite to_pos_wrap by lia.
      - unfold bind, get. unfold iseekpos, isize. cbn [imem]. now rewrite to_pos_small by lia. }
    erewrite bind_ok by exact R. cbn [fst snd]. unfold ret. split; [|lia]. do 2 f_equal. lia.
  - (* tell *)
    split; [|exact Hp]. unfold bind, goff. cbn [gpos]. unfold ret. cbn [snd fst]. do 2 f_equal.
    rewrite Z.mod_small; [reflexivity|]. unfold two63, two64 in *. cbn [Z.of_N] in *. lia.
  - split; [reflexivity|exact Hp].
Qed.

Lemma irun_ok os : forall pos, pos <= length mem -> ialong mem pos os ->
  irun (mkIb mem (Z.of_nat pos)) os =
    Some (mkIb mem (Z.of_nat (fst (irun_spec mem pos os))), snd (irun_spec mem pos os)).
Proof.
  induction os as [|o os IH]; intros pos Hp Hl; cbn [irun irun_spec ialong] in *; [reflexivity|].
  destruct Hl as (Ho & Hl). destruct (icall_ok pos o Hp Ho) as (R & L). rewrite R.
  destruct (istep mem pos o) as (p1, a). cbn [fst snd] in *. rewrite (IH p1 L Hl).
  destruct (irun_spec mem p1 os). reflexivity.
Qed.
Lemma iseek_outside off n (s : ib C) : imem s = mem -> 0 < n ->
  (off < 0)%Z \/ (Z.of_nat (length mem) < off)%Z ->
  exists s', icall (ISeek off Beg) s = Ok (IaPos off) s' /\ icall (IRead n) s' = UB /\
    ((off < 0)%Z -> icall IGet s' = UB /\ icall IPeek s' = UB).
Proof.
  intros Hs Hn Ho. exists (mkIb mem off). split; [cbn; unfold bind, iseekpos; now rewrite Hs|]. split.
  - cbn [icall]. unfold xsgetn, bind, get. cbn [gpos imem]. unfold isize. cbn [imem].
    destruct (Z.of_nat (length mem) <? off + Z.of_nat n)%Z eqn:Q;
      [apply Z.ltb_lt in Q|apply Z.ltb_ge in Q].
    + destruct Ho as [Ho|Ho].
      * rewrite (proj2 (Z.ltb_ge _ 0)) by lia. rewrite (proj2 (Z.eqb_neq _ _)) by lia.
        now rewrite (proj2 (Z.ltb_lt off 0)) by lia.
      * now rewrite (proj2 (Z.ltb_lt _ 0)) by lia.
    + rewrite (proj2 (Z.ltb_ge _ 0)) by lia. rewrite (proj2 (Z.eqb_neq _ _)) by lia.
      now rewrite (proj2 (Z.ltb_lt off 0)) by lia.
  - intros Hneg. cbn [icall]. unfold sbumpc, sgetc, bind, get. cbn [gpos imem]. unfold isize. cbn [imem].
    rewrite (proj2 (Z.ltb_lt _ (Z.of_nat _))) by lia. unfold peek_at.
    now rewrite (proj2 (Z.ltb_lt off 0)) by lia.
Qed.
End I.

(** * redirect_rstream *)
Section R.
Context {C : Type}.

Lemma cmd_ind' (Q : cmd -> Prop) :
  (forall n, Q (Read n)) ->
  (forall p cs, Forall Q cs -> Q (Redirect p cs)) ->
  forall c, Q c.
Proof.
  intros HR HD. fix IH 1. intros [n|p cs]; [apply HR|]. apply HD.
  induction cs as [|c cs IHcs]; constructor; auto.
Qed.

Lemma exec_redirect p cs (s : istream C) :
  exec (Redirect p cs) s =
    let '(restore, s1) := tellg s in
    let '(ls, s3) := exec_all cs (seekg p s1) in (ls, seekg restore s3).
Proof.
  cbn [exec]. destruct (tellg s) as (restore, s1).
  assert (forall cs s,
    (fix go (cs : list cmd) (s : istream C) : list (list C) * istream C :=
           match cs with
           | [] => ([], s)
           | c :: cs' =>
               let '(a, s') := exec c s in
               let '(b, s'') := go cs' s' in (a ++ b, s'')
           end) cs s = exec_all cs s) as E.
  { intros l. induction l as [|c l IH]; intros t; [reflexivity|]. cbn [exec_all].
    destruct (exec c t) as (a, s'). rewrite IH. reflexivity. }
  rewrite E. reflexivity.
Qed.

Lemma exec_content c : forall s : istream C, content (snd (exec c s)) = content s.
Proof.
  assert (forall t : istream C, content (sentry t) = content t) as CS.
  { intros t. unfold sentry. now destruct (good t). }
  assert (forall p (t : istream C), content (seekg p t) = content t) as CK.
  { intros p t. unfold seekg, sentry, good. cbn. destruct (failbit t); cbn; [reflexivity|].
    now destruct ((0 <=? p)%Z && (p <=? Z.of_nat (length (content t)))%Z). }
  induction c as [n|p cs IH] using cmd_ind'; intros s.
  - cbn [exec]. unfold read. destruct (failbit (sentry s)); cbn; apply CS.
  - rewrite exec_redirect. unfold tellg.
    assert (forall t : istream C, content (snd (exec_all cs t)) = content t) as CA.
    { clear - IH. induction IH as [|c cs Hc _ IHcs]; intros t; [reflexivity|]. cbn [exec_all].
      specialize (Hc t). destruct (exec c t) as (a, t1). specialize (IHcs t1). destruct (exec_all cs t1). cbn [snd] in *. congruence. }
    destruct (failbit (sentry s)).
    + specialize (CA (seekg p (sentry s))). destruct (exec_all cs (seekg p (sentry s))). cbn [snd] in *. now rewrite CK, CA, CK, CS.
    + specialize (CA (seekg p (sentry s))). destruct (exec_all cs (seekg p (sentry s))). cbn [snd] in *. now rewrite CK, CA, CK, CS.
Qed.

(** A stream which has failed stays so. *)
Lemma sentry_fail (s : istream C) : failbit s = true -> failbit (sentry s) = true.
Proof. unfold sentry. destruct (good s); auto. Qed.
Lemma seekg_fail p (s : istream C) : failbit s = true -> failbit (seekg p s) = true.
Proof.
  intros H. unfold seekg. assert (failbit (sentry (mkIs (content s) (ipos s) false (failbit s))) = true) as E
    by (apply sentry_fail; exact H). rewrite E. exact E.
Qed.
Lemma exec_fail c : forall s : istream C, failbit s = true -> failbit (snd (exec c s)) = true.
Proof.
  induction c as [n|p cs IH] using cmd_ind'; intros s H.
  - cbn [exec]. unfold read. pose proof (sentry_fail s H) as E. rewrite E. exact E.
  - rewrite exec_redirect. unfold tellg. pose proof (sentry_fail s H) as E. rewrite E.
    assert (forall t : istream C, failbit t = true -> failbit (snd (exec_all cs t)) = true) as CA.
    { clear - IH. induction IH as [|c cs Hc _ IHcs]; intros t Ht; [exact Ht|]. cbn [exec_all].
      specialize (Hc t Ht). destruct (exec c t) as (a, t1). specialize (IHcs t1 Hc). destruct (exec_all cs t1). exact IHcs. }
    specialize (CA _ (seekg_fail p _ E)). destruct (exec_all cs (seekg p (sentry s))). cbn [snd] in *. now apply seekg_fail.
Qed.
Lemma exec_all_fail cs : forall s : istream C, failbit s = true -> failbit (snd (exec_all cs s)) = true.
Proof.
  induction cs as [|c cs IH]; intros s H; [exact H|]. cbn [exec_all].
  pose proof (exec_fail c s H) as E. destruct (exec c s) as (a, s1). specialize (IH s1 E). destruct (exec_all cs s1). exact IH.
Qed.
Lemma exec_all_content cs : forall s : istream C, content (snd (exec_all cs s)) = content s.
Proof.
  induction cs as [|c cs IH]; intros s; [reflexivity|]. cbn [exec_all].
  pose proof (exec_content c s) as E. destruct (exec c s) as (a, s1). specialize (IH s1). destruct (exec_all cs s1). cbn [snd] in *. congruence.
Qed.

(** If the stream has not failed after the redirect, it is where it was. *)
Lemma redirect_restores p cs (s : istream C) : ipos s <= length (content s) ->
  failbit (snd (exec (Redirect p cs) s)) = false ->
  snd (exec (Redirect p cs) s) = mkIs (content s) (ipos s) false false.
Proof.
  intros Hp. rewrite exec_redirect. unfold tellg, sentry. destruct (good s) eqn:G.
  - unfold good in G. apply andb_true_iff in G as (G1 & G2). apply negb_true_iff in G1, G2. rewrite G2.
    pose proof (exec_all_content cs (seekg p s)) as EC. destruct (exec_all cs (seekg p s)) as (ls, s3).
    cbn [snd] in *. intros HF.
    assert (content s3 = content s) as E3.
    { rewrite EC. unfold seekg, sentry, good. cbn. rewrite G2. cbn.
      now destruct ((0 <=? p)%Z && (p <=? Z.of_nat (length (content s)))%Z). }
    destruct (failbit s3) eqn:F3; [rewrite seekg_fail in HF by exact F3; discriminate|].
    unfold seekg, sentry, good. cbn. rewrite F3. cbn. rewrite E3.
    rewrite (proj2 (Z.leb_le 0 _)), (proj2 (Z.leb_le _ (Z.of_nat (length _)))) by lia. cbn. rewrite Nat2Z.id. reflexivity.
  - cbn [failbit]. intros HF. exfalso.
    set (t := mkIs (content s) (ipos s) (eofbit s) true) in *.
    pose proof (exec_all_fail cs (seekg p t) (seekg_fail p t eq_refl)) as F.
    destruct (exec_all cs (seekg p t)) as (ls, s3). cbn [snd] in *.
    rewrite seekg_fail in HF by exact F. discriminate.
Qed.

Lemma plain_redirect (content : list C) p cs pos :
  plain content (Redirect p cs) pos =
    if ((0 <=? p) && (p <=? Z.of_nat (length content)))%Z then
      match (fix go (cs : list cmd) (pos : nat) : option (list (list C) * nat) :=
             match cs with
             | [] => Some ([], pos)
             | c :: cs' =>
                 match plain content c pos with
                 | None => None
                 | Some (a, pos') =>
                     match go cs' pos' with
                     | None => None
                     | Some (b, pos'') => Some (a ++ b, pos'')
                     end
                 end
             end) cs (Z.to_nat p) with
      | None => None
      | Some (ls, _) => Some (ls, pos)
      end
    else None.
Proof. reflexivity. Qed.

Lemma exec_plain (cont : list C) c : forall pos ls pos',
  pos <= length cont -> plain cont c pos = Some (ls, pos') ->
  exec c (mkIs cont pos false false) = (ls, mkIs cont pos' false false) /\ pos' <= length cont.
Proof.
  induction c as [n|p cs IH] using cmd_ind'; intros pos ls pos' Hp H.
  - cbn [plain] in H. destruct (pos + n <=? length cont) eqn:Q; [|discriminate]. apply Nat.leb_le in Q.
    injection H as <- <-. split; [|lia]. cbn [exec]. unfold read, sentry, good. cbn [content ipos eofbit failbit negb andb orb].
    assert (length (firstn n (skipn pos cont)) = n) as L by len. rewrite L.
    rewrite Nat.ltb_irrefl. reflexivity.
  - rewrite plain_redirect in H. destruct ((0 <=? p)%Z && (p <=? Z.of_nat (length cont))%Z) eqn:Q; [|discriminate].
    rewrite exec_redirect. unfold tellg, sentry, good. cbn [content ipos eofbit failbit negb andb].
    assert (seekg p (mkIs cont pos false false) = mkIs cont (Z.to_nat p) false false) as SK.
    { unfold seekg, sentry, good. cbn [content ipos eofbit failbit negb andb orb]. now rewrite Q. }
    rewrite SK. apply andb_true_iff in Q as (Q1 & Q2). apply Z.leb_le in Q1, Q2.
    match type of H with match ?g cs _ with _ => _ end = _ => set (go := g) in H end.
    destruct (go cs (Z.to_nat p)) as [(ls0, pe)|] eqn:G; [|discriminate]. injection H as <- <-.
    assert (exec_all cs (mkIs cont (Z.to_nat p) false false) = (ls0, mkIs cont pe false false) /\ pe <= length cont) as (R & Lpe).
    { assert (Z.to_nat p <= length cont) as Hs by lia. revert Hs G. generalize (Z.to_nat p) as q. revert ls0 pe. clear Q1 Q2 SK.
      induction IH as [|c cs Hc _ IHcs]; intros ls0 pe q Hq G; cbn [go] in G.
      - injection G as <- <-. split; [reflexivity|exact Hq].
      - destruct (plain cont c q) as [(a, q1)|] eqn:E1; [|discriminate].
        fold go in G. destruct (go cs q1) as [(b, q2)|] eqn:E2; [|discriminate]. injection G as <- <-.
        destruct (Hc q a q1 Hq E1) as (R1 & L1). destruct (IHcs b q2 q1 L1 E2) as (R2 & L2).
        cbn [exec_all]. rewrite R1, R2. split; [reflexivity|exact L2]. }
    rewrite R. split; [|exact Hp]. f_equal. unfold seekg, sentry, good. cbn [content ipos eofbit failbit negb andb orb].
    rewrite (proj2 (Z.leb_le 0 _)), (proj2 (Z.leb_le _ (Z.of_nat (length _)))) by lia. cbn. now rewrite Nat2Z.id.
Qed.

(** A read through the redirect which hits the end. *)
Lemma redirect_short p n (s : istream C) : good s = true ->
  (0 <= p <= Z.of_nat (length (content s)))%Z -> length (content s) < Z.to_nat p + n ->
  exec (Redirect p [Read n]) s =
    ([skipn (Z.to_nat p) (content s)], mkIs (content s) (length (content s)) false true).
Proof.
  intros G Hp Hn. rewrite exec_redirect. unfold tellg, sentry. rewrite G.
  unfold good in G. apply andb_true_iff in G as (G1 & G2). apply negb_true_iff in G1, G2. rewrite G2.
  assert (seekg p s = mkIs (content s) (Z.to_nat p) false false) as SK.
  { unfold seekg, sentry, good. cbn [content ipos eofbit failbit negb andb]. rewrite G2.
    cbn [content ipos eofbit failbit negb andb].
    rewrite (proj2 (Z.leb_le 0 _)), (proj2 (Z.leb_le _ (Z.of_nat (length _)))) by lia. reflexivity. }
  rewrite SK. cbn [exec_all exec].
  unfold read, sentry, good. cbn [content ipos eofbit failbit negb andb orb].
  rewrite (firstn_all2 (n := n)) by len. rewrite skipn_length.
  rewrite (proj2 (Nat.ltb_lt _ _)) by lia.
  unfold seekg, sentry, good. cbn [content ipos eofbit failbit negb andb orb app].
  do 2 f_equal; lia.
Qed.
End R.
