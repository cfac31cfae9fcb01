(** Proofs about mem_ostreambufs which are copied and moved. *)
From Coq Require Import List Arith NArith ZArith Bool Lia.
From Verif Require Import Base VecCommon StreamModel StreamSpec StreamProofs StreamCopyModel StreamCopySpec.
Import ListNotations.
Open Scope nat_scope.

Section Proofs.
Context {C : Type}.
Variable zero : C.
Variable P : policy.
Hypothesis HP : good_policy P.

Notation nulc b := (null_data P && (bcap b =? 0)).

(** * One buffer *)

Definition freshm (s : loc C) : Prop := forall a, lnxt s <= a -> lmem s a = None.
Definition okc (s : loc C) (d : list C) : Prop :=
  length d <= bcap (lbuf s) /\ bcap (lbuf s) <= max_sz P /\
  match bbase (lbuf s) with
  | None => nulc (lbuf s) = true /\ d = []
  | Some a => nulc (lbuf s) = false /\ lmem s a = Some d /\ a < lnxt s
  end.
Definition holdsf (s : loc C) (f : file C) : Prop :=
  match f with
  | Taken => exists d, okc s d
  | Held l pos =>
      exists t, okc s (l ++ t) /\ pos <= length l /\
      match bbase (lbuf s) with
      | None => bp (lbuf s) = CNull /\ be (lbuf s) = CNull
      | Some a => bp (lbuf s) = CAt a pos /\ be (lbuf s) = CAt a (length (l ++ t))
      end
  end.
Definition owns (s : loc C) (a : nat) : Prop := bbase (lbuf s) = Some a.
(** Only the memory of the buffer is touched. *)
Definition frame (s s' : loc C) : Prop :=
  lnxt s <= lnxt s' /\ freshm s' /\
  (forall a, owns s' a -> owns s a \/ lnxt s <= a) /\
  (forall a, ~ owns s a -> ~ owns s' a -> lmem s' a = lmem s a) /\
  (forall a, owns s a -> ~ owns s' a -> lmem s' a = None).

Lemma frame_refl s : freshm s -> frame s s.
Proof. intros F. repeat split; auto. intros a A B. contradiction. Qed.
Lemma owns_dec s a : {owns s a} + {~ owns s a}.
Proof. unfold owns. decide equality. apply Nat.eq_dec. Qed.
Lemma frame_trans s0 s1 s2 : freshm s0 -> frame s0 s1 -> frame s1 s2 -> frame s0 s2.
Proof.
  intros F0 (A1 & B1 & D1 & E1 & G1) (A2 & B2 & D2 & E2 & G2).
  split; [lia|]. split; [exact B2|]. split; [|split].
  - intros a Ha. destruct (D2 a Ha) as [X|X]; [|right; lia]. auto.
  - intros a H0 H2. destruct (owns_dec s1 a) as [X|X].
    + rewrite (G2 a X H2). destruct (D1 a X) as [Y|Y]; [contradiction|]. symmetry. now apply F0.
    + rewrite (E2 a X H2). now apply E1.
  - intros a H0 H2. destruct (owns_dec s1 a) as [X|X].
    + now apply G2.
    + rewrite (E2 a X H2). now apply G1.
Qed.
Lemma frame_same s s' : freshm s -> lmem s' = lmem s -> lnxt s' = lnxt s ->
  bbase (lbuf s') = bbase (lbuf s) -> frame s s'.
Proof.
  intros F M N B. unfold frame, owns, freshm. rewrite M, N, B. repeat split; auto.
  intros a X Y. contradiction.
Qed.
Lemma frame_write s s' a d : freshm s -> bbase (lbuf s) = Some a -> a < lnxt s ->
  lmem s' = set_block (lmem s) a d -> lnxt s' = lnxt s -> bbase (lbuf s') = Some a -> frame s s'.
Proof.
  intros F B L M N B'. unfold frame, owns, freshm. rewrite M, N, B, B'. unfold set_block.
  split; [lia|]. split; [|split; [|split]].
  - intros b Hb. destruct (Nat.eqb_spec b a); [lia|]. now apply F.
  - auto.
  - intros b X _. destruct (Nat.eqb_spec b a); [congruence|reflexivity].
  - intros b X Y. contradiction.
Qed.

Lemma c_data_ok s d : okc s d -> c_data s = Ok d s.
Proof.
  intros (_ & _ & H). unfold c_data. destruct (bbase (lbuf s)) as [a|].
  - destruct H as (_ & -> & _). reflexivity.
  - destruct H as (_ & ->). reflexivity.
Qed.

Lemma c_free_ok s d : okc s d -> freshm s ->
  exists s', c_free s = Ok tt s' /\ frame s s' /\ bbase (lbuf s') = None /\ lnxt s' = lnxt s.
Proof.
  intros (_ & _ & H) F. unfold c_free. destruct (bbase (lbuf s)) as [a|] eqn:B.
  - destruct H as (_ & -> & L). eexists. split; [reflexivity|]. cbn [lbuf bbase lnxt].
    split; [|auto]. unfold frame, owns, freshm, set_block. cbn [lmem lnxt lbuf bbase]. rewrite B.
    split; [lia|]. split; [|split; [|split]].
    + intros b Hb. destruct (b =? a); [reflexivity|]. now apply F.
    + discriminate.
    + intros b X _. destruct (Nat.eqb_spec b a); [congruence|reflexivity].
    + intros b [= ->] _. now rewrite Nat.eqb_refl.
  - exists s. split; [reflexivity|]. split; [now apply frame_refl|]. auto.
Qed.

(** A buffer without memory gets a block. *)
Lemma frame_new s l b : freshm s -> bbase (lbuf s) = None -> bbase b = Some (lnxt s) ->
  frame s (mkLoc (set_block (lmem s) (lnxt s) (Some l)) (S (lnxt s)) b).
Proof.
  intros F B B'. unfold frame, owns, freshm, set_block. cbn [lmem lnxt lbuf]. rewrite B, B'.
  split; [lia|]. split; [|split; [|split]].
  - intros a Ha. destruct (Nat.eqb_spec a (lnxt s)); [lia|]. apply F. lia.
  - intros a [= <-]. right. lia.
  - intros a _ X. destruct (Nat.eqb_spec a (lnxt s)); [congruence|reflexivity].
  - discriminate.
Qed.
Lemma own_memory_ok s cap l : freshm s -> bbase (lbuf s) = None -> length l <= cap -> cap <= max_sz P ->
  exists s', own_memory P cap l s = Ok tt s' /\ okc s' l /\ frame s s' /\ bcap (lbuf s') = cap /\
    bp (lbuf s') = bp (lbuf s) /\ be (lbuf s') = be (lbuf s).
Proof.
  intros F B L M. unfold own_memory. destruct (null_data P && (cap =? 0)) eqn:N.
  - eexists. split; [reflexivity|]. cbn [lbuf bcap bp be]. split; [|split; [|auto]].
    + unfold okc. cbn [lbuf bcap bbase]. rewrite N. split; [exact L|]. split; [exact M|].
      split; [reflexivity|]. apply andb_true_iff in N as (_ & N). apply Nat.eqb_eq in N.
      destruct l; [reflexivity|]. cbn [length] in L. lia.
    + apply frame_same; auto.
  - eexists. split; [reflexivity|]. cbn [lbuf bcap bp be]. split; [|split; [|auto]].
    + unfold okc, set_block. cbn [lbuf bcap bbase lmem lnxt]. rewrite N, Nat.eqb_refl.
      repeat split; auto; lia.
    + apply frame_new; auto.
Qed.
Lemma c_default_own (s : loc C) : c_default P s = own_memory P (cap0 P) [] s.
Proof. reflexivity. Qed.

Lemma c_become_ok s d l : okc s d -> freshm s -> length l <= max_sz P ->
  exists s', c_become P l s = Ok tt s' /\ okc s' l /\ frame s s' /\
    bp (lbuf s') = bp (lbuf s) /\ be (lbuf s') = be (lbuf s) /\
    bcap (lbuf s') = new_cap P (bcap (lbuf s)) (length l).
Proof.
  intros H F L. pose proof H as (H1 & H2 & H3). destruct HP as (P1 & P2 & P3).
  unfold c_become. rewrite bind_get.
  destruct (Nat.eqb_spec (new_cap P (bcap (lbuf s)) (length l)) (bcap (lbuf s))) as [Q|Q].
  - assert (length l <= bcap (lbuf s)) as LL.
    { destruct (le_lt_dec (length l) (bcap (lbuf s))); [assumption|]. specialize (P2 _ _ l0 L). lia. }
    destruct (bbase (lbuf s)) as [a|] eqn:B.
    + destruct H3 as (N & Hm & La). eexists. split; [reflexivity|]. unfold okc. cbn [lbuf lmem lnxt].
      rewrite B. unfold set_block at 1. rewrite Nat.eqb_refl.
      split; [repeat split; auto|]. split; [|auto]. eapply frame_write; cbn [lmem lnxt lbuf]; eauto.
    + destruct H3 as (N & ->). apply andb_true_iff in N as N'. destruct N' as (_ & N').
      apply Nat.eqb_eq in N'. destruct l; [|cbn [length] in LL; lia].
      exists s. split; [reflexivity|]. split; [|split; [now apply frame_refl|auto]].
      unfold okc. rewrite B. auto.
  - assert (bcap (lbuf s) < length l) as LL.
    { destruct (le_lt_dec (length l) (bcap (lbuf s))) as [X|X]; [|assumption]. now specialize (P1 _ _ X). }
    specialize (P2 _ _ LL L). destruct (c_free_ok s d H F) as (s1 & R1 & F1 & B1 & N1).
    erewrite bind_ok by exact R1. eexists. split; [reflexivity|]. cbn [lbuf bp be bcap].
    split; [|split; [|auto]].
    + unfold okc, set_block. cbn [lbuf bcap bbase lmem lnxt]. rewrite Nat.eqb_refl.
      destruct (Nat.eqb_spec (new_cap P (bcap (lbuf s)) (length l)) 0); [lia|].
      rewrite andb_false_r. repeat split; lia.
    + eapply frame_trans; [exact F|exact F1|]. apply frame_new; auto. apply F1.
Qed.

Lemma c_resize_ok s d n : okc s d -> freshm s -> n <= max_sz P ->
  exists s', c_resize zero P n s = Ok tt s' /\ okc s' (firstn n d ++ repeat zero (n - length d)) /\
    frame s s' /\ bp (lbuf s') = bp (lbuf s) /\ be (lbuf s') = be (lbuf s) /\
    bcap (lbuf s') = new_cap P (bcap (lbuf s)) n.
Proof.
  intros H F L. unfold c_resize. erewrite bind_ok by (eapply c_data_ok; exact H).
  rewrite (proj2 (Nat.ltb_ge _ _)) by lia.
  assert (length (firstn n d ++ repeat zero (n - length d)) = n) as LN.
  { rewrite app_length, firstn_length, repeat_length. lia. }
  destruct (c_become_ok s d (firstn n d ++ repeat zero (n - length d)) H F) as (s' & R & A & B & D & E & G);
    [lia|]. rewrite LN in G. eauto 8.
Qed.
Lemma c_resize_throw s d n : okc s d -> max_sz P < n -> c_resize zero P n s = Throw LengthError s.
Proof.
  intros H L. unfold c_resize. erewrite bind_ok by (eapply c_data_ok; exact H).
  now rewrite (proj2 (Nat.ltb_lt _ _)) by lia.
Qed.

Lemma c_setp_ok s l t pos : okc s (l ++ t) -> freshm s -> pos <= length l ->
  exists s', c_setp (Z.of_nat pos) s = Ok tt s' /\ holdsf s' (Held l pos) /\ frame s s' /\
    okc s' (l ++ t).
Proof.
  intros H F L. unfold c_setp. erewrite bind_ok by (eapply c_data_ok; exact H).
  pose proof H as (H1 & H2 & H3). unfold c_addr. destruct (bbase (lbuf s)) as [a|] eqn:B.
  - assert (length l <= length (l ++ t)) as LL by (rewrite app_length; lia).
    rewrite (proj2 (Z.leb_le 0 (Z.of_nat pos))) by lia. rewrite (proj2 (Z.leb_le (Z.of_nat pos) _)) by lia.
    rewrite (proj2 (Z.leb_le 0 (Z.of_nat (length (l ++ t))))) by lia. rewrite Z.leb_refl, !Nat2Z.id. cbn [andb].
    eexists. split; [reflexivity|].
    assert (okc (mkLoc (lmem s) (lnxt s) (mkBuf (Some a) (bcap (lbuf s)) (CAt a pos) (CAt a (length (l ++ t))))) (l ++ t)) as K.
    { unfold okc. cbn [lbuf bcap bbase lmem lnxt]. auto. }
    split; [|split; [|exact K]].
    + exists t. split; [exact K|]. cbn [lbuf bbase bp be]. auto.
    + apply frame_same; auto.
  - destruct H3 as (N & E). apply app_eq_nil in E as (-> & ->). cbn [length] in *.
    assert (pos = 0) as -> by lia. cbn [Z.of_nat Z.eqb]. eexists. split; [reflexivity|].
    assert (okc (mkLoc (lmem s) (lnxt s) (mkBuf None (bcap (lbuf s)) CNull CNull)) ([] ++ [])) as K.
    { unfold okc. cbn [lbuf bcap bbase lmem lnxt length app]. auto. }
    split; [|split; [|exact K]].
    + exists []. split; [exact K|]. cbn [lbuf bbase bp be]. auto.
    + apply frame_same; auto.
Qed.

Lemma held_okc s l pos : holdsf s (Held l pos) -> exists t, okc s (l ++ t).
Proof. intros (t & H & _). eauto. Qed.
Lemma held_off s l pos : holdsf s (Held l pos) -> c_poff s = Ok pos s.
Proof.
  intros (t & (H1 & H2 & H3) & L & H4). unfold c_poff. destruct (bbase (lbuf s)) as [a|].
  - destruct H4 as (-> & _). now rewrite Nat.eqb_refl.
  - destruct H4 as (-> & _). destruct H3 as (_ & E). apply app_eq_nil in E as (-> & _). cbn [length] in L.
    now assert (pos = 0) as -> by lia.
Qed.
Lemma held_rem s l t pos : holdsf s (Held l pos) -> okc s (l ++ t) ->
  c_remaining s = Ok (length (l ++ t) - pos) s.
Proof.
  intros (t' & K & L & H4) K'. pose proof (c_data_ok _ _ K) as D. rewrite (c_data_ok _ _ K') in D.
  injection D as D. apply app_inv_head in D. subst t'. destruct K as (H1 & H2 & H3). unfold c_remaining.
  destruct (bbase (lbuf s)) as [a|].
  - destruct H4 as (-> & ->). destruct H3 as (_ & -> & _). now rewrite Nat.eqb_refl.
  - destruct H4 as (-> & ->). destruct H3 as (_ & ->). reflexivity.
Qed.


Lemma held_pos s l pos : holdsf s (Held l pos) -> pos <= length l.
Proof. intros (t & _ & L & _). exact L. Qed.

Lemma c_cap_ok s l t pos by_ : holdsf s (Held l pos) -> okc s (l ++ t) -> freshm s ->
  length (l ++ t) + by_ <= max_sz P ->
  exists s' t', c_cap_resize_by zero P by_ s = Ok tt s' /\ holdsf s' (Held l pos) /\
    okc s' (l ++ t') /\ frame s s' /\ length (l ++ t) + by_ <= length (l ++ t').
Proof.
  intros H K F L. unfold c_cap_resize_by. erewrite bind_ok by (eapply held_off; exact H).
  erewrite bind_ok by (eapply c_data_ok; exact K).
  destruct (c_resize_ok s (l ++ t) (length (l ++ t) + by_) K F L) as (s1 & R1 & K1 & F1 & _ & _ & C1).
  erewrite bind_ok by exact R1. rewrite bind_get. set (n := length (l ++ t) + by_) in *.
  rewrite firstn_all2 in K1 by lia. set (x := repeat zero (n - length (l ++ t))) in *.
  assert (length ((l ++ t) ++ x) = n) as LX by (unfold x; rewrite app_length, repeat_length; lia).
  pose proof K1 as (L1 & M1 & _).
  destruct (c_resize_ok s1 _ (bcap (lbuf s1)) K1 (proj1 (proj2 F1)) M1) as (s2 & R2 & K2 & F2 & _ & _ & C2).
  erewrite bind_ok by exact R2. rewrite firstn_all2 in K2 by exact L1.
  set (y := repeat zero (bcap (lbuf s1) - length ((l ++ t) ++ x))) in *.
  assert (((l ++ t) ++ x) ++ y = l ++ (t ++ x ++ y)) as E by (now rewrite !app_assoc).
  rewrite E in K2.
  destruct (c_setp_ok s2 l _ pos K2 (proj1 (proj2 F2)) (held_pos _ _ _ H)) as (s3 & R3 & H3 & F3 & K3).
  exists s3, (t ++ x ++ y). split; [exact R3|]. split; [exact H3|]. split; [exact K3|]. split.
  - eapply frame_trans; [exact F|exact F1|]. eapply frame_trans; [apply F1|exact F2|exact F3].
  - rewrite <- E, app_length. lia.
Qed.
Lemma c_cap_throw s l t pos by_ : holdsf s (Held l pos) -> okc s (l ++ t) ->
  max_sz P < length (l ++ t) + by_ -> c_cap_resize_by zero P by_ s = Throw LengthError s.
Proof.
  intros H K L. unfold c_cap_resize_by. erewrite bind_ok by (eapply held_off; exact H).
  erewrite bind_ok by (eapply c_data_ok; exact K). apply bind_throw. eapply c_resize_throw; eauto.
Qed.

Lemma overwrite_app (l t str : list C) pos : pos <= length l ->
  firstn pos (l ++ t) ++ str ++ skipn (pos + length str) (l ++ t)
  = overwrite l pos str ++ skipn (pos + length str - length l) t.
Proof.
  intros L. unfold overwrite. rewrite firstn_app, skipn_app.
  replace (pos - length l) with 0 by lia. cbn [firstn]. rewrite app_nil_r. now rewrite <- !app_assoc.
Qed.

Lemma c_block_ok s l t pos str : holdsf s (Held l pos) -> okc s (l ++ t) -> freshm s ->
  pos + length str <= length (l ++ t) ->
  exists s', bind (c_put str) (fun _ => c_pbump (Z.of_nat (length str))) s = Ok tt s' /\
    holdsf s' (Held (overwrite l pos str) (pos + length str)) /\ frame s s'.
Proof.
  intros (t' & K' & L & H4) K F LS. pose proof (c_data_ok _ _ K) as D. rewrite (c_data_ok _ _ K') in D.
  injection D as D. apply app_inv_head in D. subst t'. clear K'.
  pose proof K as (H1 & H2 & H3). destruct (bbase (lbuf s)) as [a|] eqn:B.
  - destruct H4 as (Hp & He). destruct H3 as (N & Hm & La).
    unfold bind, c_put. rewrite Hp, Hm. rewrite (proj2 (Nat.leb_le _ _)) by exact LS.
    rewrite overwrite_app by exact L. set (t2 := skipn _ t).
    assert (length (overwrite l pos str ++ t2) = length (l ++ t)) as LE.
    { unfold t2. rewrite <- overwrite_app by exact L. rewrite !app_length, firstn_length, skipn_length, app_length in *. lia. }
    unfold c_pbump. cbn [lbuf lmem lnxt]. rewrite Hp. unfold set_block at 1. rewrite Nat.eqb_refl, LE.
    rewrite (proj2 (Z.leb_le 0 _)) by lia. rewrite (proj2 (Z.leb_le _ _)) by lia. cbn [andb].
    replace (Z.to_nat (Z.of_nat pos + Z.of_nat (length str))) with (pos + length str) by lia.
    eexists. split; [reflexivity|]. split.
    + exists t2. unfold okc. cbn [lbuf bcap bbase bp be lmem lnxt]. rewrite B. unfold set_block.
      rewrite Nat.eqb_refl, LE. repeat split; auto; try lia.
      rewrite overwrite_length by exact L. lia.
    + eapply frame_write; cbn [lmem lnxt lbuf bbase]; eauto.
  - destruct H3 as (N & E). rewrite E in LS. cbn [length] in LS. destruct str; [|cbn [length] in LS; lia].
    destruct H4 as (Hp & He). unfold bind, c_put. rewrite Hp. unfold c_pbump. rewrite Hp. cbn [length Z.of_nat Z.eqb].
    exists s. split; [reflexivity|]. split; [|now apply frame_refl].
    apply app_eq_nil in E as (-> & ->). cbn [length] in *. assert (pos = 0) as -> by lia.
    exists []. rewrite B. cbn. auto.
Qed.

Lemma c_xsputn_ok s l pos str : holdsf s (Held l pos) -> freshm s ->
  pos + length str <= max_sz P -> (Z.of_nat (length str) < int_max1)%Z ->
  exists s', c_xsputn zero P str s = Ok tt s' /\
    holdsf s' (Held (overwrite l pos str) (pos + length str)) /\ frame s s'.
Proof.
  intros H F M M31. destruct (held_okc _ _ _ H) as (t & K). pose proof (held_pos _ _ _ H) as L.
  unfold c_xsputn. erewrite bind_ok by (eapply held_rem; eauto). rewrite to_int_small by lia.
  assert (length l <= length (l ++ t)) as LL by (rewrite app_length; lia).
  destruct (Nat.ltb_spec (length (l ++ t) - pos) (length str)) as [Q|Q].
  - destruct (c_cap_ok s l t pos (length str - (length (l ++ t) - pos)) H K F) as (s1 & t1 & R1 & H1 & K1 & F1 & L1); [lia|].
    erewrite bind_ok by exact R1.
    destruct (c_block_ok s1 l t1 pos str H1 K1 (proj1 (proj2 F1))) as (s2 & R2 & H2 & F2); [lia|].
    exists s2. split; [exact R2|]. split; [exact H2|]. eapply frame_trans; eauto.
  - unfold ret at 1. erewrite bind_ok by reflexivity.
    destruct (c_block_ok s l t pos str H K F) as (s2 & R2 & H2 & F2); [lia|]. eauto.
Qed.
Lemma c_xsputn_throw s l pos str : holdsf s (Held l pos) -> max_sz P < pos + length str ->
  c_xsputn zero P str s = Throw LengthError s.
Proof.
  intros H M. destruct (held_okc _ _ _ H) as (t & K). pose proof (held_pos _ _ _ H) as L.
  unfold c_xsputn. erewrite bind_ok by (eapply held_rem; eauto).
  assert (length l <= length (l ++ t)) as LL by (rewrite app_length; lia).
  pose proof K as (K1 & K2 & _).
  rewrite (proj2 (Nat.ltb_lt _ _)) by lia. apply bind_throw. eapply c_cap_throw; eauto. lia.
Qed.
Lemma c_sputc_ok s l pos c : holdsf s (Held l pos) -> freshm s -> pos + 1 <= max_sz P ->
  exists s', c_sputc zero P c s = Ok tt s' /\
    holdsf s' (Held (overwrite l pos [c]) (pos + 1)) /\ frame s s'.
Proof.
  intros H F M. destruct (held_okc _ _ _ H) as (t & K). pose proof (held_pos _ _ _ H) as L.
  unfold c_sputc. erewrite bind_ok by (eapply held_rem; eauto).
  assert (length l <= length (l ++ t)) as LL by (rewrite app_length; lia).
  destruct (length (l ++ t) - pos) eqn:Q.
  - destruct (c_cap_ok s l t pos 1 H K F) as (s1 & t1 & R1 & H1 & K1 & F1 & L1); [lia|].
    unfold c_overflow. erewrite bind_ok by exact R1.
    destruct (c_block_ok s1 l t1 pos [c] H1 K1 (proj1 (proj2 F1))) as (s2 & R2 & H2 & F2); [cbn [length]; lia|].
    exists s2. split; [exact R2|]. split; [exact H2|]. eapply frame_trans; eauto.
  - destruct (c_block_ok s l t pos [c] H K F) as (s2 & R2 & H2 & F2); [cbn [length]; lia|]. eauto.
Qed.
Lemma c_sputc_throw s l pos c : holdsf s (Held l pos) -> max_sz P < pos + 1 ->
  c_sputc zero P c s = Throw LengthError s.
Proof.
  intros H M. destruct (held_okc _ _ _ H) as (t & K). pose proof (held_pos _ _ _ H) as L.
  unfold c_sputc. erewrite bind_ok by (eapply held_rem; eauto).
  assert (length l <= length (l ++ t)) as LL by (rewrite app_length; lia).
  pose proof K as (K1 & K2 & _). replace (length (l ++ t) - pos) with 0 by lia.
  unfold c_overflow. apply bind_throw. eapply c_cap_throw; eauto. lia.
Qed.
Lemma c_seek_ok s l pos off : holdsf s (Held l pos) -> freshm s ->
  (0 <= off <= Z.of_nat (length l))%Z -> (off < int_max1)%Z ->
  exists s', c_seekpos off s = Ok off s' /\ holdsf s' (Held l (Z.to_nat off)) /\ frame s s'.
Proof.
  intros H F L M. destruct (held_okc _ _ _ H) as (t & K). unfold c_seekpos. rewrite to_int_small by lia.
  destruct (c_setp_ok s l t (Z.to_nat off) K F) as (s' & R & H' & F' & _); [lia|].
  rewrite Z2Nat.id in R by lia. erewrite bind_ok by exact R. eauto.
Qed.
Lemma c_clear_ok s d : okc s d -> freshm s ->
  exists s', c_clear s = Ok tt s' /\ holdsf s' (Held [] 0) /\ frame s s'.
Proof.
  intros K F. pose proof K as (K1 & K2 & K3). unfold c_clear. rewrite bind_get.
  destruct (bbase (lbuf s)) as [a|] eqn:B.
  - destruct K3 as (N & Hm & La). unfold put. erewrite bind_ok by reflexivity.
    set (s1 := mkLoc _ _ _).
    assert (frame s s1) as F1 by (eapply frame_write; cbn; eauto).
    destruct (c_setp_ok s1 [] [] 0) as (s' & R & H' & F' & _).
    + unfold okc, s1, set_block. cbn [lbuf lmem lnxt app length]. rewrite B, Nat.eqb_refl.
      repeat split; auto; lia.
    + apply F1.
    + cbn; lia.
    + exists s'. split; [exact R|]. split; [exact H'|]. eapply frame_trans; eauto.
  - unfold ret at 1. erewrite bind_ok by reflexivity. destruct K3 as (N & ->).
    destruct (c_setp_ok s [] [] 0) as (s' & R & H' & F' & _); auto.
    exists s'. auto.
Qed.
Lemma c_default_ok s : freshm s -> bbase (lbuf s) = None ->
  exists s', c_default P s = Ok tt s' /\ okc s' [] /\ frame s s' /\ bcap (lbuf s') = cap0 P /\
    bp (lbuf s') = bp (lbuf s) /\ be (lbuf s') = be (lbuf s).
Proof.
  intros F B. rewrite c_default_own. apply own_memory_ok; auto; cbn; [lia|]. apply HP.
Qed.
Lemma okc_same (s s' : loc C) d : okc s d -> lmem s' = lmem s -> lnxt s' = lnxt s ->
  bbase (lbuf s') = bbase (lbuf s) -> bcap (lbuf s') = bcap (lbuf s) -> okc s' d.
Proof. unfold okc. intros H A B D E. now rewrite A, B, D, E. Qed.

Lemma c_get_ok s l pos : holdsf s (Held l pos) -> freshm s ->
  exists s', c_get_container zero P s = Ok (firstn pos l) s' /\
    holdsf s' (if fresh_null P then Held [] 0 else Taken) /\ frame s s'.
Proof.
  intros H F. destruct (held_okc _ _ _ H) as (t & K). pose proof (held_pos _ _ _ H) as L.
  unfold c_get_container. erewrite bind_ok by (eapply held_off; exact H).
  erewrite bind_ok by (eapply c_data_ok; exact K).
  destruct (c_free_ok s _ K F) as (s1 & R1 & F1 & B1 & _). erewrite bind_ok by exact R1.
  destruct (c_default_ok s1 (proj1 (proj2 F1)) B1) as (s2 & R2 & K2 & F2 & C2 & _).
  erewrite bind_ok by exact R2. erewrite bind_ok by reflexivity.
  assert (length l <= length (l ++ t)) as LL by (rewrite app_length; lia).
  pose proof K as (X1 & X2 & _). rewrite (proj2 (Nat.ltb_ge _ _)) by lia.
  unfold ret. eexists. split.
  { f_equal. replace (pos - length (l ++ t)) with 0 by lia. cbn [repeat]. rewrite app_nil_r.
    rewrite firstn_app. replace (pos - length l) with 0 by lia. cbn [firstn]. now rewrite app_nil_r. }
  assert (okc (mkLoc (lmem s2) (lnxt s2) (mkBuf (bbase (lbuf s2)) (bcap (lbuf s2)) CNull CNull)) []) as K3
    by (eapply okc_same; eauto).
  split.
  - destruct (fresh_null P) eqn:N.
    + exists []. split; [exact K3|]. split; [cbn; lia|]. cbn [lbuf bbase bp be].
      destruct K2 as (_ & _ & K2). destruct (bbase (lbuf s2)); [|auto].
      destruct K2 as (K2 & _). rewrite C2 in K2. unfold fresh_null in N. congruence.
    + exists []. exact K3.
  - eapply frame_trans; [exact F|exact F1|]. eapply frame_trans; [apply F1|exact F2|].
    apply frame_same; auto. apply F2.
Qed.

(** The state after a call: the same whether it returns or throws. *)
Definition cafter {S} (r : res S (oans C)) : option (S * oans C) :=
  match r with
  | Ok a s => Some (s, a)
  | Throw e s => Some (s, OaThrow e)
  | _ => None
  end.
Lemma c_call_sim s f o : holdsf s f -> freshm s -> fok f o ->
  exists s', cafter (c_call zero P o s) = Some (s', snd (fstep P f o)) /\
    holdsf s' (fst (fstep P f o)) /\ frame s s'.
Proof.
  intros H F Hok. destruct f as [l pos|].
  - destruct o; cbn [fok fstep c_call] in *.
    + cbn [length]. destruct (Nat.ltb_spec (max_sz P) (pos + 1)) as [Q|Q].
      * exists s. rewrite (bind_throw _ _ _ _ _ (c_sputc_throw s l pos c H Q)). cbn.
        split; [reflexivity|]. split; [exact H|]. now apply frame_refl.
      * destruct (c_sputc_ok s l pos c H F Q) as (s' & R & H' & F'). erewrite bind_ok by exact R. cbn. eauto.
    + destruct (Nat.ltb_spec (max_sz P) (pos + length str)) as [Q|Q].
      * exists s. rewrite (bind_throw _ _ _ _ _ (c_xsputn_throw s l pos str H Q)). cbn.
        split; [reflexivity|]. split; [exact H|]. now apply frame_refl.
      * destruct (c_xsputn_ok s l pos str H F Q Hok) as (s' & R & H' & F'). erewrite bind_ok by exact R. cbn. eauto.
    + destruct Hok as (A & B). destruct (c_seek_ok s l pos off H F A B) as (s' & R & H' & F').
      erewrite bind_ok by exact R. cbn. eauto.
    + destruct Hok as (A & B). erewrite bind_ok by (eapply held_off; exact H).
      destruct (c_seek_ok s l pos (Z.of_nat pos + off) H F A B) as (s' & R & H' & F').
      erewrite bind_ok by exact R. cbn. eauto.
    + erewrite bind_ok by (eapply held_off; exact H). cbn. exists s.
      split; [reflexivity|]. split; [exact H|]. now apply frame_refl.
    + erewrite bind_ok by (eapply held_off; exact H). destruct (held_okc _ _ _ H) as (t & K).
      erewrite bind_ok by (eapply c_data_ok; exact K). cbn. exists s.
      split; [|split; [exact H|now apply frame_refl]].
      pose proof (held_pos _ _ _ H) as L. rewrite firstn_app. replace (pos - length l) with 0 by lia.
      cbn [firstn]. now rewrite app_nil_r.
    + destruct (held_okc _ _ _ H) as (t & K). destruct (c_clear_ok s _ K F) as (s' & R & H' & F').
      erewrite bind_ok by exact R. cbn. eauto.
    + destruct (c_get_ok s l pos H F) as (s' & R & H' & F'). erewrite bind_ok by exact R. cbn.
      exists s'. split; [reflexivity|]. split; [|exact F']. exact H'.
  - cbn [fok] in Hok. subst o. destruct H as (d & K). cbn [c_call fstep].
    destruct (c_clear_ok s d K F) as (s' & R & H' & F'). erewrite bind_ok by exact R. cbn. eauto.
Qed.

(** * All the buffers *)

Definition at_ (w : world C) (b : obuf) : loc C := mkLoc (wmem w) (wnxt w) b.
Definition related (w : world C) (f : files C) (i : nat) : Prop :=
  match f i, wbuf w i with
  | None, None => True
  | Some x, Some b => holdsf (at_ w b) x
  | _, _ => False
  end.
(** Every block has one owner. *)
Definition mem_ok (w : world C) : Prop :=
  (forall a, wnxt w <= a -> wmem w a = None) /\
  (forall i j b b' a, wbuf w i = Some b -> wbuf w j = Some b' -> bbase b = Some a -> bbase b' = Some a -> i = j) /\
  (forall a, wmem w a <> None -> exists i b, wbuf w i = Some b /\ bbase b = Some a) /\
  (forall i b a, wbuf w i = Some b -> bbase b = Some a -> a < wnxt w).
Definition Inv (w : world C) (f : files C) : Prop := mem_ok w /\ forall i, related w f i.
(** The same but for buffer [i], which may be in any state. *)
Definition InvX (i : nat) (w : world C) (f : files C) : Prop :=
  mem_ok w /\ forall j, j <> i -> related w f j.

Lemma okc_base s d a : okc s d -> bbase (lbuf s) = Some a -> a < lnxt s /\ lmem s a = Some d.
Proof. intros (_ & _ & H) B. rewrite B in H. tauto. Qed.
Lemma holds_base s f a : holdsf s f -> bbase (lbuf s) = Some a -> a < lnxt s.
Proof.
  intros H B. destruct f as [l pos|]; [destruct H as (t & K & _)|destruct H as (d & K)];
    eapply okc_base; eauto.
Qed.

(** A buffer does not notice what happens to other memory. *)
Lemma holds_other m n m' n' b f : holdsf (mkLoc m n b) f -> n <= n' ->
  (forall a, bbase b = Some a -> m' a = m a) -> holdsf (mkLoc m' n' b) f.
Proof.
  intros H L E. assert (forall d, okc (mkLoc m n b) d -> okc (mkLoc m' n' b) d) as K.
  { intros d (A & B & D). unfold okc. cbn [lbuf lmem lnxt] in *. split; [exact A|]. split; [exact B|].
    destruct (bbase b) as [a|]; [|exact D]. destruct D as (D1 & D2 & D3). rewrite E by reflexivity.
    repeat split; auto; lia. }
  destruct f as [l pos|].
  - destruct H as (t & A & B). exists t. auto.
  - destruct H as (d & A). exists d. auto.
Qed.

Definition after (w : world C) (i : nat) (s : loc C) : world C :=
  mkWorld (lmem s) (lnxt s) (set_buf (wbuf w) i (Some (lbuf s))).

Lemma set_buf_eq f i x : @set_buf f i x i = x.
Proof. unfold set_buf. now rewrite Nat.eqb_refl. Qed.
Lemma set_buf_ne f i x j : j <> i -> @set_buf f i x j = f j.
Proof. unfold set_buf. intros H. now rewrite (proj2 (Nat.eqb_neq _ _)). Qed.
Lemma set_file_eq (f : files C) i x : set_file f i x i = x.
Proof. unfold set_file. now rewrite Nat.eqb_refl. Qed.
Lemma set_file_ne (f : files C) i x j : j <> i -> set_file f i x j = f j.
Proof. unfold set_file. intros H. now rewrite (proj2 (Nat.eqb_neq _ _)). Qed.

Lemma InvX_on i w f b s : InvX i w f -> wbuf w i = Some b -> frame (at_ w b) s ->
  (forall a, owns s a -> a < lnxt s) -> InvX i (after w i s) f.
Proof.
  intros ((A & D & O & U) & R) B (N & F & G & E & X) HS. cbn [at_ lnxt lmem lbuf] in *.
  assert (forall j b' a, j <> i -> wbuf w j = Some b' -> bbase b' = Some a ->
            ~ owns (at_ w b) a /\ ~ owns s a) as OT.
  { intros j b' a Hj Hb' Ha. assert (~ owns (at_ w b) a) as X1.
    { intros Y. apply Hj. eapply D; eauto. }
    split; [exact X1|]. intros Y. destruct (G a Y) as [Z|Z]; [auto|]. specialize (U _ _ _ Hb' Ha). lia. }
  split; [split; [|split; [|split]]|].
  - exact F.
  - intros j k b1 b2 a H1 H2 H3 H4. cbn [after wbuf] in *. unfold set_buf in H1, H2.
    destruct (Nat.eqb_spec j i) as [->|Nj]; destruct (Nat.eqb_spec k i) as [->|Nk]; auto.
    + injection H1 as <-. exfalso. destruct (OT k b2 a Nk H2 H4) as (_ & Y). now apply Y.
    + injection H2 as <-. exfalso. destruct (OT j b1 a Nj H1 H3) as (_ & Y). now apply Y.
    + eapply D; eauto.
  - intros a Ha. cbn [after wbuf wmem] in *. destruct (owns_dec s a) as [Y|Y].
    + exists i, (lbuf s). rewrite set_buf_eq. auto.
    + destruct (owns_dec (at_ w b) a) as [Z|Z].
      * exfalso. apply Ha. now apply X.
      * rewrite (E a Z Y) in Ha. destruct (O a Ha) as (j & b' & Hb' & Hj). exists j, b'.
        destruct (Nat.eq_dec j i) as [->|Nj]; [|rewrite set_buf_ne; auto].
        exfalso. apply Z. unfold owns. cbn [at_ lbuf]. congruence.
  - intros j b' a Hb' Ha. cbn [after wbuf wnxt] in *. unfold set_buf in Hb'.
    destruct (Nat.eqb_spec j i) as [->|Nj].
    + injection Hb' as <-. now apply HS.
    + specialize (U _ _ _ Hb' Ha). lia.
  - intros j Hj. specialize (R j Hj). unfold related in *. cbn [after wbuf].
    rewrite set_buf_ne by exact Hj. destruct (f j) as [x|]; destruct (wbuf w j) as [b'|] eqn:Hb'; auto.
    eapply holds_other; [exact R|exact N|]. intros a Ha. destruct (OT j b' a Hj Hb' Ha) as (Y & Z).
    now apply E.
Qed.
Lemma Inv_of_X i w f b x : InvX i w f -> wbuf w i = Some b -> holdsf (at_ w b) x ->
  Inv w (set_file f i (Some x)).
Proof.
  intros (A & R) B H. split; [exact A|]. intros j. unfold related.
  destruct (Nat.eq_dec j i) as [->|Nj].
  - rewrite set_file_eq, B. exact H.
  - rewrite set_file_ne by exact Nj. now apply R.
Qed.
Lemma Inv_X i w f : Inv w f -> InvX i w f.
Proof. intros (A & R). split; auto. Qed.
Lemma Inv_fresh w f b : Inv w f -> freshm (at_ w b).
Proof. intros ((A & _) & _). exact A. Qed.
Lemma InvX_fresh i w f b : InvX i w f -> freshm (at_ w b).
Proof. intros ((A & _) & _). exact A. Qed.
Lemma Inv_get w f i x : Inv w f -> f i = Some x -> exists b, wbuf w i = Some b /\ holdsf (at_ w b) x.
Proof.
  intros (_ & R) E. specialize (R i). unfold related in R. rewrite E in R.
  destruct (wbuf w i) as [b|]; [eauto|contradiction].
Qed.
Lemma Inv_none w f i : Inv w f -> f i = None -> wbuf w i = None.
Proof.
  intros (_ & R) E. specialize (R i). unfold related in R. rewrite E in R.
  destruct (wbuf w i) as [b|]; [contradiction|reflexivity].
Qed.
Lemma holds_okc s f : holdsf s f -> exists d, okc s d.
Proof. destruct f as [l pos|]; [intros (t & K & _)|intros (d & K)]; eauto. Qed.

Lemma on_ok i {R} (m : M (loc C) R) w b r s : wbuf w i = Some b -> m (at_ w b) = Ok r s ->
  on i m w = Ok r (after w i s).
Proof. intros B E. unfold on. rewrite B. unfold at_ in E. now rewrite E. Qed.

Lemma bb {A B} (m : M (world C) A) (k : A -> M (world C) B) w a w' : m w = Ok a w' -> bind m k w = k a w'.
Proof. apply bind_ok. Qed.

(** A new object with the pointers [p] and [e], and yet without a container *)
Lemma raw_ok w f j p e : Inv w f -> f j = None ->
  InvX j (mkWorld (wmem w) (wnxt w) (set_buf (wbuf w) j (Some (mkBuf None 0 p e)))) f.
Proof.
  intros H E. pose proof (Inv_none _ _ _ H E) as B. destruct H as ((A & D & O & U) & R).
  split; [split; [|split; [|split]]|]; cbn [wmem wnxt wbuf].
  - exact A.
  - intros i k b b' a H1 H2 H3 H4. unfold set_buf in H1, H2.
    destruct (Nat.eqb_spec i j); [injection H1 as <-; discriminate|].
    destruct (Nat.eqb_spec k j); [injection H2 as <-; discriminate|]. eapply D; eauto.
  - intros a Ha. destruct (O a Ha) as (i & b & Hb & Hi). exists i, b.
    rewrite set_buf_ne; [auto|]. congruence.
  - intros i b a Hb Ha. unfold set_buf in Hb. destruct (Nat.eqb_spec i j); [injection Hb as <-; discriminate|].
    eapply U; eauto.
  - intros i Hi. specialize (R i). unfold related in *. cbn [wbuf]. rewrite set_buf_ne by exact Hi.
    destruct (f i); destruct (wbuf w i); auto.
Qed.
Lemma raw_run (w : world C) j : wbuf w j = None ->
  raw j w = Ok tt (mkWorld (wmem w) (wnxt w) (set_buf (wbuf w) j (Some (mkBuf None 0 CNull CNull)))).
Proof. intros B. unfold raw. now rewrite B. Qed.

(** Only the pointers of [i] change. *)
Lemma InvX_ptrs i w f b b' : InvX i w f -> wbuf w i = Some b -> bbase b' = bbase b ->
  InvX i (mkWorld (wmem w) (wnxt w) (set_buf (wbuf w) i (Some b'))) f.
Proof.
  intros H B E. apply (InvX_on i w f b (at_ w b') H B).
  - apply frame_same; auto. exact (InvX_fresh i w f b H).
  - unfold owns. cbn [at_ lbuf lnxt]. rewrite E. intros a Ha. destruct H as ((_ & _ & _ & U) & _). eapply U; eauto.
Qed.

(** * The operations *)

Lemma call_ok w f i x o : Inv w f -> f i = Some x -> fok x o ->
  exists w', cafter (on i (c_call zero P o) w) = Some (w', snd (fstep P x o)) /\
    Inv w' (set_file f i (Some (fst (fstep P x o)))).
Proof.
  intros H E Hok. destruct (Inv_get _ _ _ _ H E) as (b & B & Hb).
  destruct (c_call_sim (at_ w b) x o Hb (Inv_fresh w f b H) Hok) as (s & R & Hs & F).
  exists (after w i s). split.
  - unfold on. rewrite B. unfold at_ in R. destruct (c_call zero P o _); try discriminate R;
      injection R as -> R; cbn; rewrite <- R; reflexivity.
  - eapply Inv_of_X.
    + apply (InvX_on i w f b s); [now apply Inv_X|exact B|exact F|]. intros a Ha. eapply holds_base; eauto.
    + cbn [after wbuf]. apply set_buf_eq.
    + destruct s. exact Hs.
Qed.

Lemma new_ok w f i reserve : Inv w f -> f i = None -> reserve <= max_sz P ->
  exists w', w_new zero P i reserve w = Ok tt w' /\ Inv w' (set_file f i (Some (Held [] 0))).
Proof.
  intros H E L. pose proof (Inv_none _ _ _ H E) as B. unfold w_new. erewrite bb by (apply raw_run; exact B).
  pose proof (raw_ok w f i CNull CNull H E) as X. set (w1 := mkWorld _ _ _) in *.
  assert (wbuf w1 i = Some (mkBuf None 0 CNull CNull)) as B1 by (unfold w1; cbn [wbuf]; apply set_buf_eq).
  set (b1 := mkBuf None 0 CNull CNull) in *. pose proof (InvX_fresh i w1 f b1 X) as F1.
  destruct (c_default_ok (at_ w1 b1) F1 eq_refl) as (s2 & R2 & K2 & F2 & _).
  destruct (c_setp_ok s2 [] [] 0 K2 (proj1 (proj2 F2))) as (s3 & R3 & H3 & F3 & K3); [cbn; lia|].
  destruct (c_cap_ok s3 [] [] 0 reserve H3 K3 (proj1 (proj2 F3))) as (s4 & t4 & R4 & H4 & K4 & F4 & _); [cbn; lia|].
  exists (after w1 i s4).
  assert (on i (c_construct zero P reserve) w1 = Ok tt (after w1 i s4)) as R.
  { eapply on_ok; [exact B1|]. unfold c_construct. erewrite bind_ok by exact R2.
    change 0%Z with (Z.of_nat 0). erewrite bind_ok by exact R3. exact R4. }
  rewrite R. split; [reflexivity|]. eapply Inv_of_X.
  - apply (InvX_on i w1 f b1 s4 X B1); [|intros a Ha; eapply holds_base; eauto].
    eapply frame_trans; [exact F1|exact F2|]. eapply frame_trans; [apply F2|exact F3|exact F4].
  - cbn [after wbuf]. apply set_buf_eq.
  - destruct s4. exact H4.
Qed.

(** An object is gone which has no memory. *)
Lemma Inv_drop i w f b : InvX i w f -> wbuf w i = Some b -> bbase b = None ->
  Inv (mkWorld (wmem w) (wnxt w) (set_buf (wbuf w) i None)) (set_file f i None).
Proof.
  intros ((A & D & O & U) & R) B N. split; [split; [|split; [|split]]|]; cbn [wmem wnxt wbuf].
  - exact A.
  - intros j k b1 b2 a H1 H2 H3 H4. unfold set_buf in H1, H2.
    destruct (j =? i); [discriminate|]. destruct (k =? i); [discriminate|]. eapply D; eauto.
  - intros a Ha. destruct (O a Ha) as (j & b' & Hb & Hj). exists j, b'. rewrite set_buf_ne; [auto|]. congruence.
  - intros j b' a Hb Ha. unfold set_buf in Hb. destruct (j =? i); [discriminate|]. eapply U; eauto.
  - intros j. unfold related. cbn [wbuf]. destruct (Nat.eq_dec j i) as [->|Nj].
    + now rewrite set_file_eq, set_buf_eq.
    + rewrite set_file_ne, set_buf_ne by exact Nj. now apply R.
Qed.
Lemma free_ok i w f b d : InvX i w f -> wbuf w i = Some b -> okc (at_ w b) d ->
  exists w' b', on i c_free w = Ok tt w' /\ InvX i w' f /\ wbuf w' i = Some b' /\ bbase b' = None /\
    (forall j, j <> i -> wbuf w' j = wbuf w j).
Proof.
  intros H B K. destruct (c_free_ok (at_ w b) d K (InvX_fresh i w f b H)) as (s & R & F & N & _).
  exists (after w i s), (lbuf s). split; [eapply on_ok; eauto|]. split.
  - apply (InvX_on i w f b s H B F). unfold owns. rewrite N. discriminate.
  - cbn [after wbuf]. rewrite set_buf_eq. split; [reflexivity|]. split; [exact N|].
    intros j Hj. now apply set_buf_ne.
Qed.
Lemma destroy_ok w f i : Inv w f -> f i <> None ->
  exists w', w_destroy i w = Ok tt w' /\ Inv w' (set_file f i None).
Proof.
  intros H E. destruct (f i) as [x|] eqn:Ex; [|congruence]. destruct (Inv_get _ _ _ _ H Ex) as (b & B & Hb).
  destruct (holds_okc _ _ Hb) as (d & K).
  destruct (free_ok i w f b d (Inv_X i w f H) B K) as (w1 & b1 & R & X & B1 & N & _).
  unfold w_destroy. erewrite bb by exact R. unfold drop. eexists. split; [reflexivity|].
  eapply Inv_drop; eauto.
Qed.
Lemma new_throw w f i reserve : Inv w f -> f i = None -> max_sz P < reserve ->
  exists w', w_new zero P i reserve w = Throw LengthError w' /\ Inv w' (set_file f i None).
Proof.
  intros H E L. pose proof (Inv_none _ _ _ H E) as B. unfold w_new. erewrite bb by (apply raw_run; exact B).
  pose proof (raw_ok w f i CNull CNull H E) as X. set (w1 := mkWorld _ _ _) in *.
  assert (wbuf w1 i = Some (mkBuf None 0 CNull CNull)) as B1 by (unfold w1; cbn [wbuf]; apply set_buf_eq).
  set (b1 := mkBuf None 0 CNull CNull) in *. pose proof (InvX_fresh i w1 f b1 X) as F1.
  destruct (c_default_ok (at_ w1 b1) F1 eq_refl) as (s2 & R2 & K2 & F2 & _).
  destruct (c_setp_ok s2 [] [] 0 K2 (proj1 (proj2 F2))) as (s3 & R3 & H3 & F3 & K3); [cbn; lia|].
  assert (on i (c_construct zero P reserve) w1 = Throw LengthError (after w1 i s3)) as R.
  { unfold on. rewrite B1. fold (at_ w1 b1). unfold c_construct. erewrite bind_ok by exact R2.
    change 0%Z with (Z.of_nat 0). erewrite bind_ok by exact R3.
    now rewrite (c_cap_throw s3 [] [] 0 reserve H3 K3) by (cbn; lia). }
  rewrite R.
  assert (InvX i (after w1 i s3) f) as X3.
  { apply (InvX_on i w1 f b1 s3 X B1); [|intros a Ha; eapply holds_base; eauto].
    eapply frame_trans; [exact F1|exact F2|exact F3]. }
  destruct (free_ok i (after w1 i s3) f (lbuf s3) [] X3) as (w4 & b4 & R4 & X4 & B4 & N4 & _).
  - cbn [after wbuf]. apply set_buf_eq.
  - destruct s3. exact K3.
  - erewrite bb by exact R4. unfold drop. erewrite bb by reflexivity. unfold throw.
    eexists. split; [reflexivity|]. eapply Inv_drop; eauto.
Qed.

(** The elements of the container of [j] become [l], and nothing is known of its pointers. *)
Lemma become_ok j w f b d l : InvX j w f -> wbuf w j = Some b -> okc (at_ w b) d -> length l <= max_sz P ->
  exists w' b', on j (c_become P l) w = Ok tt w' /\ Inv w' (set_file f j (Some Taken)) /\
    wbuf w' j = Some b' /\ bp b' = bp b /\ be b' = be b /\
    (forall i, i <> j -> wbuf w' i = wbuf w i).
Proof.
  intros X B K L.
  destruct (c_become_ok (at_ w b) d l K (InvX_fresh j w f b X) L) as (s & R & K' & F & Ep & Ee & _).
  exists (after w j s), (lbuf s). split; [eapply on_ok; eauto|].
  assert (InvX j (after w j s) f) as X'.
  { apply (InvX_on j w f b s X B F). intros a Ha. eapply okc_base; eauto. }
  split; [|cbn [after wbuf]; rewrite set_buf_eq; split; [reflexivity|]; split; [exact Ep|]; split; [exact Ee|];
           intros i Hi; now apply set_buf_ne].
  eapply Inv_of_X; [exact X'|cbn [after wbuf]; apply set_buf_eq|]. exists l. destruct s. exact K'.
Qed.
Lemma data_run i (w : world C) b d : wbuf w i = Some b -> okc (at_ w b) d -> data_of i w = Ok d w.
Proof. intros B K. unfold data_of. rewrite B. fold (at_ w b). now rewrite (c_data_ok _ _ K). Qed.

Lemma okc_len s d : okc s d -> length d <= max_sz P.
Proof. intros (A & B & _). lia. Qed.

Lemma InvX_ext i w w' f : InvX i w f -> wmem w' = wmem w -> wnxt w' = wnxt w ->
  (forall k, wbuf w' k = wbuf w k) -> InvX i w' f.
Proof.
  intros ((A & D & O & U) & R) EM EN EB. unfold InvX, mem_ok, related, at_. rewrite EM, EN.
  split; [split; [exact A|split; [|split]]|].
  - intros j k b b' a. rewrite !EB. apply D.
  - intros a Ha. destruct (O a Ha) as (j & b & Hb). exists j, b. now rewrite EB.
  - intros j b a. rewrite EB. apply U.
  - intros j Hj. rewrite EB. now apply R.
Qed.

(** A new object which has got the pointers of [i] *)
Lemma started w f j i b : Inv w f -> f j = None -> wbuf w i = Some b ->
  exists w', (raw j ;;; copy_base j i) w = Ok tt w' /\ InvX j w' f /\ wmem w' = wmem w /\ wnxt w' = wnxt w /\
    wbuf w' j = Some (mkBuf None 0 (bp b) (be b)) /\ (forall k, k <> j -> wbuf w' k = wbuf w k).
Proof.
  intros H Ej B. pose proof (Inv_none _ _ _ H Ej) as Bj. assert (i <> j) as Nij by congruence.
  erewrite bb by (apply raw_run; exact Bj). unfold copy_base. cbn [wbuf].
  rewrite set_buf_eq, set_buf_ne by exact Nij. rewrite B. cbn [bbase bcap wmem wnxt].
  eexists. split; [reflexivity|]. cbn [wmem wnxt wbuf]. rewrite set_buf_eq.
  split; [|split; [reflexivity|]; split; [reflexivity|]; split; [reflexivity|]; intros k Hk; rewrite !set_buf_ne; auto].
  eapply InvX_ext; [apply (raw_ok w f j (bp b) (be b) H Ej)|reflexivity|reflexivity|].
  intros k. cbn [wbuf]. unfold set_buf. now destruct (k =? j).
Qed.

Lemma bind_assoc3 {A B D} (m : M (world C) A) (m2 : M (world C) B) (k : M (world C) D) w :
  (m ;;; m2 ;;; k) w = ((m ;;; m2) ;;; k) w.
Proof. unfold bind. now destruct (m w). Qed.

Lemma copy_ok w f j i : Inv w f -> f j = None -> f i <> None ->
  exists w', w_copy P j i w = Ok tt w' /\ Inv w' (set_file f j (Some Taken)) /\
    exists b b', wbuf w i = Some b /\ wbuf w' i = Some b /\ wbuf w' j = Some b' /\ bp b' = bp b /\ be b' = be b.
Proof.
  intros H Ej Ei. destruct (f i) as [x|] eqn:Ex; [|congruence]. clear Ei.
  destruct (Inv_get _ _ _ _ H Ex) as (b & B & Hb). destruct (holds_okc _ _ Hb) as (d & K).
  assert (i <> j) as Nij by congruence.
  destruct (started w f j i b H Ej B) as (w1 & R1 & X1 & M1 & N1 & B1 & O1).
  unfold w_copy. rewrite bind_assoc3. erewrite bb by exact R1.
  assert (at_ w1 b = at_ w b) as A1 by (unfold at_; now rewrite M1, N1).
  erewrite bb; [|apply (data_run i w1 b d); [now rewrite O1|now rewrite A1]].
  set (b1 := mkBuf None 0 (bp b) (be b)) in *. pose proof (InvX_fresh j w1 f b1 X1) as F1.
  destruct (c_default_ok (at_ w1 b1) F1 eq_refl) as (s2 & R2 & K2 & F2 & _ & P2 & E2).
  destruct (c_become_ok s2 [] d K2 (proj1 (proj2 F2)) (okc_len _ _ K)) as (s3 & R3 & K3 & F3 & P3 & E3 & _).
  exists (after w1 j s3). split.
  - eapply on_ok; [exact B1|]. erewrite bind_ok by exact R2. exact R3.
  - split.
    + eapply Inv_of_X; [|cbn [after wbuf]; apply set_buf_eq|exists d; destruct s3; exact K3].
      apply (InvX_on j w1 f b1 s3 X1 B1); [|intros a Ha; eapply okc_base; eauto].
      eapply frame_trans; eauto.
    + exists b, (lbuf s3). cbn [after wbuf]. rewrite set_buf_eq, set_buf_ne, O1 by exact Nij.
      repeat split; auto; [rewrite P3, P2|rewrite E3, E2]; reflexivity.
Qed.

(** The memory of [i] goes to [j], which had none. *)
Lemma take_ok w f j i b bj x : i <> j -> InvX j w f -> wbuf w i = Some b -> f i = Some x ->
  wbuf w j = Some bj -> bbase bj = None -> bp bj = bp b -> be bj = be b ->
  exists w', take_over P j i w = Ok tt w' /\ Inv w' (set_file (set_file f j (Some x)) i (Some Taken)).
Proof.
  intros Nij X B Ex Bj Nj Ep Ee. unfold take_over. rewrite B, Bj.
  pose proof X as (_ & R). specialize (R i Nij). unfold related in R. rewrite Ex, B in R.
  set (b2 := mkBuf (bbase b) (bcap b) (bp bj) (be bj)) in *. set (b3 := mkBuf None 0 (bp b) (be b)) in *.
  set (w2 := mkWorld _ _ _).
  assert (b2 = b) as Eb by (unfold b2; rewrite Ep, Ee; now destruct b).
  assert (InvX i w2 (set_file f j (Some x))) as X2.
  { destruct X as ((A & D & O & U) & RR). split; [split; [|split; [|split]]|]; cbn [w2 wmem wnxt wbuf].
    - exact A.
    - intros k1 k2 c1 c2 a H1 H2 H3 H4. unfold set_buf in H1, H2.
      destruct (Nat.eqb_spec k1 i) as [->|N1]; [injection H1 as <-; discriminate|].
      destruct (Nat.eqb_spec k2 i) as [->|N2]; [injection H2 as <-; discriminate|].
      destruct (Nat.eqb_spec k1 j) as [->|N3]; destruct (Nat.eqb_spec k2 j) as [->|N4]; auto.
      + injection H1 as <-. rewrite Eb in H3. exfalso. apply N2. symmetry. eapply D; eauto.
      + injection H2 as <-. rewrite Eb in H4. exfalso. apply N1. eapply D; eauto.
      + eapply D; eauto.
    - intros a Ha. destruct (O a Ha) as (k & c & Hc & Hk). destruct (Nat.eq_dec k i) as [->|Nk].
      + exists j, b2. rewrite set_buf_ne, set_buf_eq by auto. split; [reflexivity|]. rewrite Eb. congruence.
      + exists k, c. rewrite set_buf_ne by exact Nk. rewrite set_buf_ne; [auto|]. congruence.
    - intros k c a Hc Ha. unfold set_buf in Hc. destruct (k =? i); [injection Hc as <-; discriminate|].
      destruct (k =? j); [injection Hc as <-; rewrite Eb in Ha; exact (U i b a B Ha)|exact (U k c a Hc Ha)].
    - intros k Hk. unfold related. cbn [w2 wbuf]. rewrite set_buf_ne by exact Hk.
      destruct (Nat.eq_dec k j) as [->|Nk].
      + rewrite set_file_eq, set_buf_eq, Eb. exact R.
      + rewrite set_file_ne, set_buf_ne by exact Nk. specialize (RR k Nk). exact RR. }
  assert (wbuf w2 i = Some b3) as B2 by (unfold w2; cbn [wbuf]; apply set_buf_eq).
  destruct (c_default_ok (at_ w2 b3) (InvX_fresh i w2 _ b3 X2) eq_refl) as (s & Rs & Ks & Fs & _).
  exists (after w2 i s). split; [eapply on_ok; eauto|].
  eapply Inv_of_X; [|cbn [after wbuf]; apply set_buf_eq|exists []; destruct s; exact Ks].
  apply (InvX_on i w2 _ b3 s X2 B2 Fs). intros a Ha. eapply okc_base; eauto.
Qed.

(** A container is emptied where it is. *)
Lemma emptied_ok i w f b d : InvX i w f -> wbuf w i = Some b -> okc (at_ w b) d ->
  exists w', on i emptied w = Ok tt w' /\ Inv w' (set_file f i (Some Taken)).
Proof.
  intros X B K. pose proof K as (K1 & K2 & K3). cbn [at_ lbuf lmem lnxt] in *.
  pose proof (InvX_fresh i w f b X) as F.
  assert (exists s, emptied (at_ w b) = Ok tt s /\ okc s [] /\ frame (at_ w b) s) as (s & Rs & Ks & Fs).
  { unfold emptied. cbn [at_ lbuf lmem lnxt]. destruct (bbase b) as [a|] eqn:Ba.
    - destruct K3 as (N & Hm & La). eexists. split; [reflexivity|]. split.
      + unfold okc, set_block. cbn [lbuf lmem lnxt length]. rewrite Ba, Nat.eqb_refl. repeat split; auto; lia.
      + eapply frame_write; cbn [at_ lbuf lmem lnxt]; eauto.
    - destruct K3 as (N & ->). eexists. split; [reflexivity|]. split; [exact K|]. now apply frame_refl. }
  exists (after w i s). split; [eapply on_ok; eauto|].
  eapply Inv_of_X; [|cbn [after wbuf]; apply set_buf_eq|exists []; destruct s; exact Ks].
  apply (InvX_on i w f b s X B Fs). intros a Ha. eapply okc_base; eauto.
Qed.

Variable keeps : nat -> bool.
Variable steals : bool.
Hypothesis HS : steals = true -> forall c, keeps c = true.

Lemma Inv_ext w f g : Inv w f -> (forall i, g i = f i) -> Inv w g.
Proof. intros (A & R) E. split; [exact A|]. intros i. unfold related. rewrite E. apply R. Qed.
(** Less is said of a buffer. *)
Lemma Inv_weaken w f j x : Inv w f -> f j = Some x -> Inv w (set_file f j (Some Taken)).
Proof.
  intros H E. destruct (Inv_get _ _ _ _ H E) as (b & B & Hb). eapply Inv_of_X; [apply Inv_X; exact H|exact B|].
  now apply holds_okc in Hb.
Qed.
Lemma set_file2 (f : files C) i j x y k : i <> j ->
  set_file (set_file f j x) i y k = set_file (set_file f i y) j x k.
Proof. intros N. unfold set_file. destruct (Nat.eqb_spec k i); destruct (Nat.eqb_spec k j); congruence. Qed.
Lemma set_file_again (f : files C) i x y k : set_file (set_file f i x) i y k = set_file f i y k.
Proof. unfold set_file. now destruct (k =? i). Qed.

(** What is known of a buffer which got its memory from another *)
Lemma handed_ok w f i j x : i <> j -> f i = Some x -> 
  Inv w (set_file (set_file f j (Some x)) i (Some Taken)) ->
  Inv w (set_file (set_file f j (handed steals f i)) i (Some Taken)).
Proof.
  intros N E H. unfold handed. destruct steals; [now rewrite E|].
  eapply Inv_ext; [eapply (Inv_weaken _ _ j); [exact H|]|].
  - rewrite set_file_ne, set_file_eq by auto. reflexivity.
  - intros k. unfold set_file. destruct (Nat.eqb_spec k i); destruct (Nat.eqb_spec k j); congruence.
Qed.
Lemma handed_taken w f i j : i <> j -> steals = false ->
  Inv w (set_file (set_file f j (Some Taken)) i (Some Taken)) ->
  Inv w (set_file (set_file f j (handed steals f i)) i (Some Taken)).
Proof. intros N -> H. exact H. Qed.
Lemma not_steals c : keeps c = false -> steals = false.
Proof. intros K. destruct steals; [|reflexivity]. now rewrite HS in K. Qed.

Lemma move_ok w f j i : Inv w f -> f j = None -> f i <> None ->
  exists w', w_move P keeps j i w = Ok tt w' /\
    Inv w' (set_file (set_file f j (handed steals f i)) i (Some Taken)).
Proof.
  intros H Ej Ei. destruct (f i) as [x|] eqn:Ex; [|congruence]. clear Ei.
  destruct (Inv_get _ _ _ _ H Ex) as (b & B & Hb). destruct (holds_okc _ _ Hb) as (d & K).
  assert (i <> j) as Nij by congruence.
  destruct (started w f j i b H Ej B) as (w1 & R1 & X1 & M1 & N1 & B1 & O1).
  assert (at_ w1 b = at_ w b) as A1 by (unfold at_; now rewrite M1, N1).
  assert (wbuf w1 i = Some b) as Bi by (now rewrite O1).
  unfold w_move. rewrite bind_assoc3. erewrite bb by exact R1.
  erewrite bb by (unfold cap_of; rewrite Bi; reflexivity).
  destruct (keeps (bcap b)) eqn:Kp.
  - destruct (take_ok w1 f j i b _ x Nij X1 Bi Ex B1 eq_refl eq_refl eq_refl) as (w2 & R2 & H2).
    exists w2. split; [exact R2|]. now apply (handed_ok w2 f i j x).
  - erewrite bb; [|apply (data_run i w1 b d Bi); now rewrite A1].
    set (b1 := mkBuf None 0 (bp b) (be b)) in *. pose proof (InvX_fresh j w1 f b1 X1) as F1.
    pose proof K as (L & L2 & _). cbn [at_ lbuf] in L, L2.
    destruct (own_memory_ok (at_ w1 b1) (bcap b) d F1 eq_refl L L2) as (s2 & R2 & K2 & F2 & _).
    erewrite bb by (eapply on_ok; [exact B1|exact R2]).
    assert (InvX j (after w1 j s2) f) as X2.
    { apply (InvX_on j w1 f b1 s2 X1 B1 F2). intros a Ha. eapply okc_base; eauto. }
    assert (Inv (after w1 j s2) (set_file f j (Some Taken))) as H2.
    { eapply Inv_of_X; [exact X2|cbn [after wbuf]; apply set_buf_eq|exists d; destruct s2; exact K2]. }
    destruct (Inv_get _ _ i x H2) as (b' & B' & Hb'); [now rewrite set_file_ne|].
    destruct (holds_okc _ _ Hb') as (d' & K').
    destruct (emptied_ok i _ _ b' d' (Inv_X i _ _ H2) B' K') as (w3 & R3 & H3).
    exists w3. split; [exact R3|]. apply handed_taken; auto. eapply not_steals; eauto.
Qed.

(** The pointers of an object become those of another. *)
Lemma rebased w f j i b bj : InvX j w f -> wbuf w i = Some b -> wbuf w j = Some bj -> i <> j ->
  exists w', copy_base j i w = Ok tt w' /\ InvX j w' f /\ wmem w' = wmem w /\ wnxt w' = wnxt w /\
    wbuf w' j = Some (mkBuf (bbase bj) (bcap bj) (bp b) (be b)) /\ (forall k, k <> j -> wbuf w' k = wbuf w k).
Proof.
  intros X B Bj N. unfold copy_base. rewrite B, Bj. eexists. split; [reflexivity|]. cbn [wmem wnxt wbuf].
  rewrite set_buf_eq. split; [eapply InvX_ptrs; eauto|]. repeat split; auto. intros k Hk. now apply set_buf_ne.
Qed.

Lemma copy_assign_ok w f j i : Inv w f -> f j <> None -> f i <> None ->
  exists w', w_copy_assign P j i w = Ok tt w' /\
    Inv w' (if j =? i then f else set_file f j (Some Taken)).
Proof.
  intros H Ej Ei. destruct (f i) as [x|] eqn:Ex; [|congruence]. destruct (f j) as [y|] eqn:Ey; [|congruence].
  clear Ei Ej. destruct (Inv_get _ _ _ _ H Ex) as (b & B & Hb). destruct (holds_okc _ _ Hb) as (d & K).
  destruct (Inv_get _ _ _ _ H Ey) as (bj & Bj & Hbj). destruct (holds_okc _ _ Hbj) as (dj & Kj).
  unfold w_copy_assign. destruct (Nat.eqb_spec j i) as [->|N].
  - unfold copy_base. erewrite bb by (rewrite B; reflexivity). unfold ret. eexists. split; [reflexivity|].
    eapply (Inv_ext _ (set_file f i (Some x))).
    + eapply Inv_of_X; [eapply InvX_ptrs; [apply Inv_X; exact H|exact B|reflexivity]|
        cbn [wbuf]; apply set_buf_eq|]. destruct b. exact Hb.
    + intros k. unfold set_file. destruct (Nat.eqb_spec k i); congruence.
  - assert (i <> j) as N' by congruence.
    destruct (rebased w f j i b bj (Inv_X j w f H) B Bj N') as (w1 & R1 & X1 & M1 & N1 & B1 & O1).
    erewrite bb by exact R1. assert (at_ w1 b = at_ w b) as A1 by (unfold at_; now rewrite M1, N1).
    erewrite bb; [|apply (data_run i w1 b d); [now rewrite O1|now rewrite A1]].
    destruct (become_ok j w1 f _ dj d X1 B1) as (w2 & b2 & R2 & H2 & _).
    + eapply okc_same; [exact Kj| | | |]; cbn; auto.
    + eapply okc_len; eauto.
    + eauto.
Qed.
Lemma move_assign_ok w f j i : Inv w f -> f j <> None -> f i <> None -> j <> i ->
  exists w', w_move_assign P keeps j i w = Ok tt w' /\
    Inv w' (set_file (set_file f j (handed steals f i)) i (Some Taken)).
Proof.
  intros H Ej Ei N. destruct (f i) as [x|] eqn:Ex; [|congruence]. destruct (f j) as [y|] eqn:Ey; [|congruence].
  clear Ei Ej. destruct (Inv_get _ _ _ _ H Ex) as (b & B & Hb). destruct (holds_okc _ _ Hb) as (d & K).
  destruct (Inv_get _ _ _ _ H Ey) as (bj & Bj & Hbj). destruct (holds_okc _ _ Hbj) as (dj & Kj).
  assert (i <> j) as N' by congruence.
  destruct (rebased w f j i b bj (Inv_X j w f H) B Bj N') as (w1 & R1 & X1 & M1 & N1 & B1 & O1).
  unfold w_move_assign. erewrite bb by exact R1.
  assert (at_ w1 b = at_ w b) as A1 by (unfold at_; now rewrite M1, N1).
  assert (wbuf w1 i = Some b) as Bi by (now rewrite O1).
  assert (okc (at_ w1 (mkBuf (bbase bj) (bcap bj) (bp b) (be b))) dj) as Kj1.
  { eapply okc_same; [exact Kj| | | |]; cbn; auto. }
  erewrite bb by (unfold cap_of; rewrite Bi; reflexivity).
  destruct (keeps (bcap b)) eqn:Kp.
  - destruct (c_free_ok (at_ w1 (mkBuf (bbase bj) (bcap bj) (bp b) (be b))) dj Kj1
                (InvX_fresh j w1 f _ X1)) as (s2 & R2 & F2 & Z2 & _).
    assert (bp (lbuf s2) = bp b /\ be (lbuf s2) = be b) as (P2 & E2).
    { unfold c_free in R2. cbn [at_ lbuf bbase bcap bp be lmem lnxt] in R2.
      destruct (bbase bj); [destruct (wmem w1 n); [|discriminate]|]; injection R2 as <-; auto. }
    erewrite bb by (eapply on_ok; [exact B1|exact R2]).
    assert (InvX j (after w1 j s2) f) as X2.
    { eapply InvX_on; [exact X1|exact B1|exact F2|]. unfold owns. rewrite Z2. discriminate. }
    destruct (take_ok (after w1 j s2) f j i b (lbuf s2) x N' X2) as (w3 & R3 & H3); auto.
    + cbn [after wbuf]. now rewrite set_buf_ne.
    + cbn [after wbuf]. apply set_buf_eq.
    + exists w3. split; [exact R3|]. now apply (handed_ok w3 f i j x).
  - erewrite bb; [|apply (data_run i w1 b d Bi); now rewrite A1].
    destruct (become_ok j w1 f _ dj d X1 B1 Kj1 (okc_len _ _ K)) as (w2 & b2 & R2 & H2 & _).
    erewrite bb by exact R2.
    destruct (Inv_get _ _ i x H2) as (b' & B' & Hb'); [now rewrite set_file_ne|].
    destruct (holds_okc _ _ Hb') as (d' & K').
    destruct (emptied_ok i _ _ b' d' (Inv_X i _ _ H2) B' K') as (w3 & R3 & H3).
    exists w3. split; [exact R3|]. apply handed_taken; auto. eapply not_steals; eauto.
Qed.

Lemma step_ok w f o : Inv w f -> cp_ok f o ->
  exists w', cafter (w_call zero P keeps o w) = Some (w', snd (cp_step P steals f o)) /\
    Inv w' (fst (cp_step P steals f o)).
Proof.
  intros H Hok. destruct o as [i r|i o|j i|j i|j i|j i|i]; cbn [cp_ok cp_step w_call] in *.
  - destruct (Nat.ltb_spec (max_sz P) r) as [Q|Q].
    + destruct (new_throw w f i r H Hok Q) as (w' & R & H'). exists w'.
      rewrite (bind_throw _ _ _ _ _ R). split; [reflexivity|]. cbn [fst].
      eapply Inv_ext; [exact H'|]. intros k. unfold set_file. destruct (Nat.eqb_spec k i); congruence.
    + destruct (new_ok w f i r H Hok Q) as (w' & R & H'). exists w'. erewrite bb by exact R. split; [reflexivity|exact H'].
  - destruct Hok as (x & E & Hok). destruct (call_ok w f i x o H E Hok) as (w' & R & H').
    rewrite E. destruct (fstep P x o). exists w'. split; [exact R|exact H'].
  - destruct Hok as (A & B). destruct (copy_ok w f j i H A B) as (w' & R & H' & _).
    exists w'. erewrite bb by exact R. split; [reflexivity|exact H'].
  - destruct Hok as (A & B). destruct (move_ok w f j i H A B) as (w' & R & H').
    exists w'. erewrite bb by exact R. split; [reflexivity|exact H'].
  - destruct Hok as (A & B). destruct (copy_assign_ok w f j i H A B) as (w' & R & H').
    exists w'. erewrite bb by exact R. split; [reflexivity|exact H'].
  - destruct Hok as (A & B & N). destruct (move_assign_ok w f j i H A B N) as (w' & R & H').
    exists w'. erewrite bb by exact R. split; [reflexivity|exact H'].
  - destruct (destroy_ok w f i H Hok) as (w' & R & H'). exists w'. erewrite bb by exact R. split; [reflexivity|exact H'].
Qed.
Lemma run_ok os : forall w f, Inv w f -> cp_along P steals f os ->
  exists w', w_run zero P keeps w os = Some (w', snd (cp_run P steals f os)) /\
    Inv w' (fst (cp_run P steals f os)).
Proof.
  induction os as [|o os IH]; intros w f H Hl; cbn [w_run cp_run cp_along] in *.
  - eauto.
  - destruct Hl as (Ho & Hl). destruct (step_ok w f o H Ho) as (w1 & R & H1).
    destruct (cp_step P steals f o) as (f1, a). cbn [fst snd] in *.
    destruct (IH w1 f1 H1 Hl) as (w2 & R2 & H2). destruct (cp_run P steals f1 os) as (f2, rs). cbn [fst snd] in *.
    exists w2. split; [|exact H2].
    destruct (w_call zero P keeps o w); try discriminate R; injection R as -> ->; now rewrite R2.
Qed.
Lemma Inv_start : Inv no_buffers (@no_files C).
Proof.
  split; [split; [|split; [|split]]|]; cbn [no_buffers wmem wnxt wbuf].
  - reflexivity.
  - discriminate.
  - congruence.
  - discriminate.
  - intros i. exact Logic.I.
Qed.
Lemma Inv_end w : Inv w (@no_files C) -> forall a, wmem w a = None.
Proof.
  intros ((_ & _ & O & _) & R) a. destruct (wmem w a) eqn:E; [|reflexivity].
  destruct (O a) as (i & b & B & _); [congruence|]. specialize (R i). unfold related, no_files in R.
  now rewrite B in R.
Qed.

Lemma w_run_app os : forall w os' w1 rs, w_run zero P keeps w os = Some (w1, rs) ->
  w_run zero P keeps w (os ++ os') =
    match w_run zero P keeps w1 os' with Some (w2, rs') => Some (w2, rs ++ rs') | None => None end.
Proof.
  induction os as [|o os IH]; intros w os' w1 rs H; cbn [w_run app] in *.
  - injection H as <- <-. now destruct (w_run zero P keeps w os') as [(w2, rs')|].
  - destruct (w_call zero P keeps o w) as [a w2|e w2| |]; try discriminate;
      destruct (w_run zero P keeps w2 os) as [(w3, rs3)|] eqn:E; try discriminate; injection H as <- <-;
      rewrite (IH _ _ _ _ E); now destruct (w_run zero P keeps w3 os') as [(w4, rs4)|].
Qed.

(** * Pointers into memory of another *)

Lemma held_some s l pos : holdsf s (Held l pos) -> l <> [] ->
  exists a t, bbase (lbuf s) = Some a /\ bp (lbuf s) = CAt a pos /\ be (lbuf s) = CAt a (length (l ++ t)) /\
    lmem s a = Some (l ++ t) /\ a < lnxt s.
Proof.
  intros (t & (_ & _ & K) & L & H) N. destruct (bbase (lbuf s)) as [a|].
  - exists a, t. tauto.
  - destruct K as (_ & E). apply app_eq_nil in E as (-> & _). congruence.
Qed.

(** pptr() points into block [a], and the container has other memory. *)
Definition strays (w : world C) (j a pos size : nat) : Prop :=
  exists b, wbuf w j = Some b /\ bp b = CAt a pos /\ be b = CAt a size /\ bbase b <> Some a.

Lemma strays_poff w j a pos size : strays w j a pos size -> on j c_poff w = UB.
Proof.
  intros (b & B & Hp & _ & N). unfold on, c_poff. rewrite B. cbn [lbuf]. rewrite Hp.
  destruct (bbase b) as [a'|]; [|reflexivity]. now rewrite (proj2 (Nat.eqb_neq a a')) by congruence.
Qed.
Lemma on_bind_ub j {A B} (m : M (loc C) A) (k : A -> M (loc C) B) w : on j m w = UB -> on j (bind m k) w = UB.
Proof.
  unfold on, bind. destruct (wbuf w j); [|reflexivity]. now destruct (m _).
Qed.
Definition needs_off (o : oop C) : Prop :=
  match o with OTell | OPeek | OGet | OSeekCur _ => True | _ => False end.
Lemma strays_call w j a pos size o : strays w j a pos size -> needs_off o ->
  on j (c_call zero P o) w = UB.
Proof.
  intros H N. pose proof (strays_poff _ _ _ _ _ H) as U.
  destruct o; try contradiction; cbn [c_call].
  - now apply on_bind_ub.
  - now apply on_bind_ub.
  - now apply on_bind_ub.
  - apply on_bind_ub. unfold c_get_container. now apply on_bind_ub.
Qed.
Lemma strays_dead w j a pos size c : strays w j a pos size -> wmem w a = None ->
  on j (c_call zero P (OPut c)) w = UB.
Proof.
  intros (b & B & Hp & He & _) D. cbn [c_call]. apply on_bind_ub. unfold c_sputc. apply on_bind_ub.
  unfold on, c_remaining. rewrite B. cbn [lbuf lmem]. rewrite Hp, He, Nat.eqb_refl. now rewrite D.
Qed.
Lemma strays_write w j a pos size l c : strays w j a pos size -> wmem w a = Some l -> pos < size -> size <= length l ->
  exists w', on j (c_call zero P (OPut c)) w = Ok OaNone w' /\ wnxt w' = wnxt w /\
    wmem w' = set_block (wmem w) a (Some (firstn pos l ++ [c] ++ skipn (pos + 1) l)) /\
    (exists b b', wbuf w j = Some b /\ wbuf w' j = Some b' /\ bbase b' = bbase b /\ bcap b' = bcap b) /\
    (forall k, k <> j -> wbuf w' k = wbuf w k).
Proof.
  intros (b & B & Hp & He & N) D L L2.
  assert (length (firstn pos l ++ [c] ++ skipn (pos + 1) l) = length l) as LL.
  { rewrite !app_length, firstn_length, skipn_length. cbn [length]. lia. }
  assert (c_remaining (at_ w b) = Ok (size - pos) (at_ w b)) as R1.
  { unfold c_remaining. cbn [at_ lbuf lmem]. now rewrite Hp, He, Nat.eqb_refl, D. }
  set (m := set_block (wmem w) a (Some (firstn pos l ++ [c] ++ skipn (pos + 1) l))).
  assert (c_put [c] (at_ w b) = Ok tt (mkLoc m (wnxt w) b)) as R2.
  { unfold c_put. cbn [at_ lbuf lmem lnxt]. rewrite Hp, D. cbn [length].
    now rewrite (proj2 (Nat.leb_le _ _)) by lia. }
  assert (c_pbump 1 (mkLoc m (wnxt w) b)
          = Ok tt (mkLoc m (wnxt w) (mkBuf (bbase b) (bcap b) (CAt a (Z.to_nat (Z.of_nat pos + 1))) (be b)))) as R3.
  { unfold c_pbump. cbn [lbuf lmem lnxt]. rewrite Hp. unfold m at 1, set_block at 1. rewrite Nat.eqb_refl, LL.
    now rewrite (proj2 (Z.leb_le 0 _)), (proj2 (Z.leb_le _ _)) by lia. }
  eexists. split.
  - eapply on_ok; [exact B|]. cbn [c_call]. erewrite bind_ok; [reflexivity|].
    unfold c_sputc. erewrite bind_ok by exact R1. destruct (size - pos) eqn:Q; [lia|].
    erewrite bind_ok by exact R2. exact R3.
  - cbn [after wmem wnxt wbuf lbuf lmem lnxt]. repeat split.
    + exists b. eexists. rewrite set_buf_eq. cbn [bbase bcap]. auto.
    + intros k Hk. now apply set_buf_ne.
Qed.

Lemma copy_strays w f j i l pos : Inv w f -> f j = None -> f i = Some (Held l pos) -> l <> [] ->
  exists w' a t, w_copy P j i w = Ok tt w' /\ Inv w' (set_file f j (Some Taken)) /\
    strays w' j a pos (length (l ++ t)) /\ wmem w' a = Some (l ++ t) /\
    exists b, wbuf w' i = Some b /\ bbase b = Some a.
Proof.
  intros H Ej Ei N. assert (i <> j) as Nij by congruence.
  destruct (copy_ok w f j i H Ej ltac:(congruence)) as (w' & R & H' & b & b' & Bi & Bi' & Bj' & Ep & Ee).
  destruct (Inv_get _ _ i (Held l pos) H') as (b2 & B2 & Hb); [now rewrite set_file_ne|].
  rewrite Bi' in B2. injection B2 as <-.
  destruct (held_some _ _ _ Hb N) as (a & t & A1 & A2 & A3 & A4 & A5). cbn [at_ lbuf lmem lnxt] in *.
  exists w', a, t. split; [exact R|]. split; [exact H'|]. split.
  - exists b'. split; [exact Bj'|]. split; [congruence|]. split; [congruence|]. intros Y.
    destruct H' as ((_ & D & _) & _). apply Nij. eapply D; eauto.
  - split; [exact A4|]. exists b. auto.
Qed.
Lemma move_strays w f j i l pos : Inv w f -> f j = None -> f i = Some (Held l pos) -> l <> [] ->
  (forall c, keeps c = false) ->
  exists w' a t, w_move P keeps j i w = Ok tt w' /\ strays w' j a pos (length (l ++ t)).
Proof.
  intros H Ej Ei N Hk. assert (i <> j) as Nij by congruence.
  destruct (Inv_get _ _ _ _ H Ei) as (b & B & Hb). destruct (holds_okc _ _ Hb) as (d & K).
  destruct (held_some _ _ _ Hb N) as (a & t & A1 & A2 & A3 & A4 & A5). cbn [at_ lbuf lmem lnxt] in *.
  destruct (started w f j i b H Ej B) as (w1 & R1 & X1 & M1 & N1 & B1 & O1).
  assert (at_ w1 b = at_ w b) as E1 by (unfold at_; now rewrite M1, N1).
  assert (wbuf w1 i = Some b) as Bi by (now rewrite O1).
  unfold w_move. rewrite bind_assoc3. erewrite bb by exact R1.
  erewrite bb by (unfold cap_of; rewrite Bi; reflexivity). rewrite Hk.
  erewrite bb; [|apply (data_run i w1 b d Bi); now rewrite E1].
  set (b1 := mkBuf None 0 (bp b) (be b)) in *.
  pose proof K as (L & L2 & _). cbn [at_ lbuf] in L, L2.
  destruct (own_memory_ok (at_ w1 b1) (bcap b) d (InvX_fresh j w1 f b1 X1) eq_refl L L2)
    as (s2 & R2 & K2 & (F2 & _ & G2 & _) & _ & P2 & Q2).
  erewrite bb by (eapply on_ok; [exact B1|exact R2]).
  assert (wbuf (after w1 j s2) i = Some b) as Bi2 by (cbn [after wbuf]; now rewrite set_buf_ne).
  unfold on at 1. rewrite Bi2. unfold emptied. cbn [lbuf]. rewrite A1. eexists _, a, t.
  split; [reflexivity|]. exists (lbuf s2). cbn [wbuf lbuf after]. rewrite set_buf_ne, set_buf_eq by auto.
  split; [reflexivity|]. rewrite P2, Q2. split; [exact A2|]. split; [exact A3|]. intros Y.
  destruct (G2 a Y) as [Z|Z]; [discriminate Z|]. cbn [at_ lnxt] in Z. rewrite N1 in Z. lia.
Qed.

(** What the copy writes is in the file of the original. *)
Lemma strays_Inv w f i j a b pos l t c w' : Inv w f -> f i = Some (Held l pos) -> i <> j ->
  wbuf w i = Some b -> bbase b = Some a -> wmem w a = Some (l ++ t) -> pos < length l ->
  f j = Some Taken -> wnxt w' = wnxt w ->
  wmem w' = set_block (wmem w) a (Some (firstn pos (l ++ t) ++ [c] ++ skipn (pos + 1) (l ++ t))) ->
  (exists b b', wbuf w j = Some b /\ wbuf w' j = Some b' /\ bbase b' = bbase b /\ bcap b' = bcap b) ->
  (forall k, k <> j -> wbuf w' k = wbuf w k) ->
  Inv w' (set_file f i (Some (Held (overwrite l pos [c]) pos))).
Proof.
  intros H Ei Nij B Ba Hm L Ej En Em (bj & bj' & Bj & Bj' & E1 & E2) Eo.
  pose proof H as ((A & D & O & U) & R).
  assert (forall k c, wbuf w' k = Some c -> exists c', wbuf w k = Some c' /\ bbase c = bbase c') as BK.
  { intros k cb Hc. destruct (Nat.eq_dec k j) as [->|Nk].
    - exists bj. split; [exact Bj|]. congruence.
    - exists cb. rewrite <- Eo by exact Nk. auto. }
  split; [split; [|split; [|split]]|].
  - intros x Hx. rewrite Em. unfold set_block. rewrite En in Hx. pose proof (U _ _ _ B Ba).
    destruct (Nat.eqb_spec x a); [lia|]. now apply A.
  - intros k1 k2 c1 c2 x H1 H2 H3 H4. destruct (BK _ _ H1) as (d1 & X1 & Y1). destruct (BK _ _ H2) as (d2 & X2 & Y2).
    rewrite Y1 in H3. rewrite Y2 in H4. exact (D k1 k2 d1 d2 x X1 X2 H3 H4).
  - intros x Hx. rewrite Em in Hx. unfold set_block in Hx.
    assert (wmem w x <> None) as Hx'.
    { destruct (Nat.eqb_spec x a) as [Ea|Nx]; [rewrite Ea; congruence|exact Hx]. }
    destruct (O x Hx') as (k & cb & Hk & Hb). destruct (Nat.eq_dec k j) as [->|Nk].
    + exists j, bj'. split; [exact Bj'|]. congruence.
    + exists k, cb. rewrite Eo by exact Nk. auto.
  - intros k cb x Hc Hx. rewrite En. destruct (BK _ _ Hc) as (d1 & X1 & Y1). rewrite Y1 in Hx. exact (U k d1 x X1 Hx).
  - intros k. unfold related. destruct (Nat.eq_dec k i) as [->|Nk].
    + rewrite set_file_eq, Eo by exact Nij. rewrite B.
      pose proof (R i) as Ri. unfold related in Ri. rewrite Ei, B in Ri.
      destruct Ri as (t' & (K1 & K2 & K3) & L' & Hp). cbn [at_ lbuf lmem lnxt] in *. rewrite Ba in K3, Hp.
      destruct K3 as (K3 & K4 & K5). rewrite Hm in K4. injection K4 as K4. apply app_inv_head in K4. subst t'.
      exists (skipn (pos + 1 - length l) t). unfold okc. cbn [at_ lbuf lmem lnxt]. rewrite Ba, Em, En.
      unfold set_block. rewrite Nat.eqb_refl.
      change (pos + 1) with (pos + length [c]). rewrite (overwrite_app l t [c] pos) by lia.
      assert (length (overwrite l pos [c] ++ skipn (pos + length [c] - length l) t) = length (l ++ t)) as LL.
      { rewrite !app_length, overwrite_length by lia. rewrite skipn_length. cbn [length]. lia. }
      rewrite LL. repeat split; auto; try tauto. rewrite overwrite_length by lia. lia.
    + rewrite set_file_ne by exact Nk. pose proof (R k) as Rk. unfold related in Rk.
      destruct (Nat.eq_dec k j) as [->|Nkj].
      * rewrite Ej, Bj in Rk. rewrite Ej, Bj'. destruct Rk as (d & K1 & K2 & K3). exists d.
        unfold okc. cbn [at_ lbuf lmem lnxt] in *. rewrite E1, E2. split; [exact K1|]. split; [exact K2|].
        destruct (bbase bj) as [a'|] eqn:Baj; [|exact K3]. rewrite Em, En. unfold set_block.
        destruct (Nat.eqb_spec a' a) as [->|Na]; [|exact K3].
        exfalso. apply Nij. eapply D; eauto.
      * rewrite Eo by exact Nkj. destruct (f k) as [x|]; [|destruct (wbuf w k); auto].
        destruct (wbuf w k) as [cb|] eqn:Bk; [|contradiction].
        eapply holds_other; [exact Rk|lia|]. intros a' Ha'. rewrite Em. unfold set_block.
        destruct (Nat.eqb_spec a' a) as [->|Na]; [|reflexivity]. exfalso. apply Nk. eapply D; eauto.
Qed.
End Proofs.
