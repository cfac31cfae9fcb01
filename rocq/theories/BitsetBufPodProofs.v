(** itlib::pod_vector as the buffer of dynamic_bitset. *)
From Coq Require Import List Arith NArith ZArith Bool Lia.
From Verif Require Import Base SeqSpec VecCommon SmallVectorModel SmallVectorProofs PodVectorModel PodVectorSpec PodVectorProofs BitsetModel BitsetSpec BitsetBufModel BitsetBufSpec.
Import ListNotations.
Open Scope nat_scope.

(** * Words as bytes *)
Lemma to_bytes_length k : forall w, length (to_bytes k w) = k.
Proof. induction k; cbn; auto. Qed.
Lemma to_bytes_0 k : to_bytes k 0 = repeat 0%N k.
Proof. induction k as [|k IH]; cbn; auto. f_equal. exact IH. Qed.
Lemma of_to_bytes k : forall w, (w < 2 ^ N.of_nat (8 * k))%N -> of_bytes (to_bytes k w) = w.
Proof.
  induction k as [|k IH]; intros w H.
  - cbn in *. lia.
  - cbn [to_bytes of_bytes]. rewrite IH.
    + pose proof (N.div_mod w 256 ltac:(lia)). lia.
    + replace (N.of_nat (8 * S k)) with (8 + N.of_nat (8 * k))%N in H by lia.
      rewrite N.pow_add_r in H. apply N.div_lt_upper_bound; [lia|]. exact H.
Qed.

Lemma map_upd {X Y} (f : X -> Y) l i x : map f (upd l i x) = upd (map f l) i (f x).
Proof. revert i. induction l as [|y l IH]; intros [|i]; cbn; auto. now rewrite IH. Qed.
Lemma nth_map {X Y} (f : X -> Y) l i x : nth_error l i = Some x -> nth_error (map f l) i = Some (f x).
Proof. intros H. rewrite nth_error_map, H. reflexivity. Qed.
Lemma map_rep {X Y} (f : X -> Y) x n : map f (repeat x n) = repeat (f x) n.
Proof. induction n; cbn; congruence. Qed.
Lemma upd_app {X} (l k : list X) i x : i < length l -> upd (l ++ k) i x = upd l i x ++ k.
Proof. revert i. induction l as [|y l IH]; intros [|i] H; cbn in *; try lia; auto. f_equal. apply IH. lia. Qed.
Lemma upd_last {X} (l : list X) x y : upd (l ++ [y]) (length l) x = l ++ [x].
Proof. induction l as [|z l IH]; cbn; auto. now f_equal. Qed.
Lemma nth_last {X} (l : list X) x : nth_error (l ++ [x]) (length l) = Some x.
Proof. rewrite nth_error_app2 by lia. now rewrite Nat.sub_diag. Qed.
Lemma upd_parts {X} (l : list X) k y x : nth_error l k = Some y ->
  exists P S, l = P ++ [y] ++ S /\ length P = k /\ upd l k x = P ++ [x] ++ S.
Proof.
  revert k. induction l as [|z l IH]; intros [|k] H; cbn in H; try discriminate.
  - injection H as ->. exists [], l. auto.
  - destruct (IH k H) as (P & S & E & L & U). exists (z :: P), S. cbn. rewrite U, E, L. auto.
Qed.

Section Inst.
Variable A : alc.
Variable T : ety.
Variable early : bool.
Hypothesis HT : ety_ok T.
Hypothesis HA : alc_ok A.
Hypothesis HZ : a_zero A = true.

Notation SZ := (esz T).
Notation W := (8 * esz T).
Notation fam := (PodVectorProofs.fam A T).
Notation holds := (pod_holds A T).
Notation room := (PodVectorSpec.room T).
Notation B := (pod_buffers A T early).
Notation bytes := (map (to_bytes (esz T))).

Lemma fam_push bs vs cs : fam bs vs cs -> fam bs (vs ++ [init_pv]) (cs ++ [[]]).
Proof.
  intros (HH & HO1 & HO2). split; [|split].
  - apply Forall2_app; auto. constructor; [apply holds_init|constructor].
  - intros i j v w b Hv Hw Ov Ow.
    assert (forall i v, nth_error (vs ++ [init_pv]) i = Some v -> owner v = Some b -> nth_error vs i = Some v) as K.
    { intros i0 v0 H0 O0. destruct (Nat.lt_ge_cases i0 (length vs)) as [L|L].
      - now rewrite nth_error_app1 in H0 by lia.
      - rewrite nth_error_app2 in H0 by lia. destruct (i0 - length vs) as [|[|?]]; try discriminate.
        injection H0 as <-. discriminate. }
    eapply HO1; eauto.
  - intros b Hb H. apply HO2; auto. intros v Hv. apply H. apply in_or_app. now left.
Qed.

(** Destroying the last vector of the family. *)
Lemma fam_drop bs k vs cs v xs : fam bs (vs ++ [v]) (cs ++ [xs]) ->
  exists bs', pdestructor A T (mkMem bs k, v) = Ok tt (mkMem bs' k, v) /\ fam bs' vs cs.
Proof.
  intros (HH & HO1 & HO2). apply Forall2_app_inv_r in HH. destruct HH as (vs0 & w0 & H1 & H2 & Eq).
  inversion H2 as [|w ? ws ? Hv Hn]; subst. inversion Hn; subst. apply app_inj_tail in Eq. destruct Eq as (-> & ->).
  destruct Hv as (Hxs & rest & Hb & _).
  destruct (a_free_spec A T bs k w _ Hb) as (bs1 & E & HL & HK & HF).
  exists bs1. split; [exact E|].
  assert (forall j u, nth_error vs0 j = Some u -> forall b, owner u = Some b -> owner w <> Some b) as Hd.
  { intros j u Hu b Ou Ow. assert (j < length vs0) as L by (apply nth_error_Some; congruence).
    assert (j = length vs0); [|lia]. apply (HO1 j (length vs0) u w b); auto; [rewrite nth_error_app1; auto|apply nth_last]. }
  split; [|split].
  - apply Forall2_intro; [eapply SmallVectorProofs.Forall2_len; eauto|]. intros i u ys Hu Hy.
    apply (holds_framed A T bs w bs1 init_pv u ys).
    + exact (Forall2_get (holds bs) vs0 cs i u ys H1 Hu Hy).
    + eapply freed_frame; eauto.
    + intros j Oj. eapply Hd; eauto.
  - intros i j u u' b Hu Hu' Ou Ou'. apply (HO1 i j u u' b); auto;
      (rewrite nth_error_app1; auto; apply nth_error_Some; congruence).
  - intros b Hlt Hno.
    assert ({owner w = Some b} + {owner w <> Some b}) as [Ev|Ev] by (decide equality; apply Nat.eq_dec).
    { now apply HF. }
    rewrite HK by auto. apply HO2; [lia|]. intros u Hu. apply in_app_or in Hu. destruct Hu as [Hu|[<-|[]]]; auto.
Qed.

Definition prep (st : pfam) (ls : list (list N)) : Prop :=
  fam (blks (fst st)) (snd st) (map bytes ls) /\ Forall (words_ok W) ls.

Lemma fam_get bs vs cs i xs : fam bs vs cs -> nth_error cs i = Some xs ->
  exists v, nth_error vs i = Some v /\ holds bs v xs.
Proof.
  intros (HH & _) E. destruct (nth_error vs i) as [v|] eqn:Ev.
  - exists v. split; auto. eapply Forall2_get; eauto.
  - apply nth_error_None in Ev. rewrite (SmallVectorProofs.Forall2_len _ _ _ HH) in Ev. assert (i < length cs) by (apply nth_error_Some; congruence). lia.
Qed.
Lemma words_at ls i l : Forall (words_ok W) ls -> nth_error ls i = Some l -> words_ok W l.
Proof. intros H E. eapply Forall_forall in H; eauto. eapply nth_error_In; eauto. Qed.
Lemma words_upd ls i l : Forall (words_ok W) ls -> words_ok W l -> Forall (words_ok W) (upd ls i l).
Proof. intros H K. revert i. induction H as [|x ls Hx H IH]; intros [|i]; cbn; constructor; auto. Qed.

(** A call of one vector. *)
Lemma prep_one {R} (f : M pst R) (st : pfam) ls i l r ys :
  prep st ls -> nth_error ls i = Some l -> words_ok W ys ->
  (forall v, nth_error (snd st) i = Some v -> holds (blks (fst st)) v (bytes l) ->
    exists bs' k' v', f (fst st, v) = Ok r (mkMem bs' k', v') /\ holds bs' v' (bytes ys) /\ frame (blks (fst st)) v bs' v') ->
  exists st', pod_one f i st = Ok r st' /\ prep st' (upd ls i ys).
Proof.
  intros (F & K) E Hy H. destruct (fam_get _ _ _ _ _ F (nth_map bytes _ _ _ E)) as (v & Ev & Hv).
  destruct (H v Ev Hv) as (bs' & k' & v' & G & H' & Fr).
  exists (mkMem bs' k', upd (snd st) i v'). split; [unfold pod_one; now rewrite Ev, G|].
  split; cbn [fst snd blks]; [|now apply words_upd].
  rewrite map_upd. exact (fam_one A T _ _ _ i v _ _ _ _ F Ev (nth_map bytes _ _ _ E) Fr H').
Qed.
(** A look at one vector. *)
Lemma prep_look {R} (f : M pst R) (st : pfam) ls i l r :
  prep st ls -> nth_error ls i = Some l ->
  (forall v, nth_error (snd st) i = Some v -> holds (blks (fst st)) v (bytes l) -> f (fst st, v) = Ok r (fst st, v)) ->
  pod_one f i st = Ok r st.
Proof.
  intros (F & _) E H. destruct (fam_get _ _ _ _ _ F (nth_map bytes _ _ _ E)) as (v & Ev & Hv).
  unfold pod_one. rewrite Ev, (H v Ev Hv), upd_nth_id by auto. now destruct st.
Qed.

Lemma elems l : Forall (is_elem T) (bytes l).
Proof. apply Forall_forall. intros x Hx. apply in_map_iff in Hx. destruct Hx as (w & <- & _). apply to_bytes_length. Qed.

Lemma psize_at m v xs : holds (blks m) v xs -> psize T (m, v) = Ok (length xs) (m, v).
Proof.
  intros H. destruct (holds_parts A T HT _ _ _ H) as (rest & _ & _ & He & _ & _ & _ & Hn & _).
  apply (psize_spec T HT); auto.
Qed.

Lemma put_at bs k v xs i x y : holds bs v xs -> nth_error xs i = Some y -> is_elem T x ->
  exists bs', pod_put T i x (mkMem bs k, v) = Ok tt (mkMem bs' k, v) /\ holds bs' v (upd xs i x) /\ frame bs v bs' v.
Proof.
  intros H E Hx. destruct (upd_parts _ _ _ x E) as (P & S & -> & L & ->).
  destruct (write_hole1 A T HT bs k v P y S x H Hx) as (bs' & G & H' & Fr).
  exists bs'. split; auto. unfold pod_put. unfold mbegin at 1. unfold bind at 1. cbn [snd]. rewrite (begin_raw v).
  destruct (holds_parts A T HT _ _ _ H) as (rest & _ & Hb & _ & _ & _ & Hlen & _).
  erewrite bind_ok.
  2:{ eapply (padd_raw A T bs k v v _ 0); [exact Hb|].
      rewrite Hlen, !app_length. cbn [length Nat.add]. nia. }
  rewrite <- G. replace (0 + _) with (length P * SZ) by lia. reflexivity.
Qed.

(** A temporary is made, one vector is assigned from it, the temporary is destroyed. *)
Lemma temporary_ok (make : M pst unit) (o : nat -> podsys) (st : pfam) ls i ws :
  prep st ls -> i < length ls -> words_ok W ws ->
  (forall bs k, exists bs' k' v', make (mkMem bs k, init_pv) = Ok tt (mkMem bs' k', v') /\
     holds bs' v' (bytes ws) /\ frame bs init_pv bs' v') ->
  (forall cs, length cs = length ls ->
     pod_sys_ok T (cs ++ [bytes ws]) (o (length ls)) /\
     forall cs' r, pod_sys_step A T (cs ++ [bytes ws]) (o (length ls)) cs' r ->
       exists xs, cs' = upd cs i (bytes ws) ++ [xs]) ->
  exists st', with_temporary A T make (fun t => psys_call A T early (o t)) st = Ok tt st' /\
    prep st' (upd ls i ws).
Proof.
  intros (F & K) Hi Hw Hm Ho. destruct st as ([bs k], vs). cbn [fst snd blks] in *.
  pose proof (SmallVectorProofs.Forall2_len _ _ _ (proj1 F)) as HL. rewrite map_length in HL.
  unfold with_temporary. cbn [fst snd].
  destruct (Hm bs k) as (bs1 & k1 & v1 & E1 & H1 & F1).
  pose proof (fam_one A T _ _ _ (length vs) init_pv [] bs1 v1 (bytes ws) (fam_push _ _ _ F) (nth_last vs init_pv)) as G.
  replace (nth_error (map bytes ls ++ [[]]) (length vs)) with (Some (@nil (list N))) in G
    by (rewrite HL, <- (map_length bytes ls); symmetry; apply nth_last).
  specialize (G eq_refl F1 H1). rewrite upd_last in G.
  replace (length vs) with (length (map bytes ls)) in G by now rewrite map_length.
  rewrite upd_last in G.
  erewrite bind_ok by (unfold pod_one; cbn [fst snd]; rewrite nth_last, E1, upd_last; reflexivity).
  destruct (Ho (map bytes ls)) as (Hok & Hst); [apply map_length|].
  rewrite <- HL in Hok, Hst.
  destruct (psys_call_spec A T HT HA early bs1 k1 _ _ _ G Hok) as (r & bs2 & k2 & vs2 & cs2 & E2 & S2 & F2).
  erewrite bind_ok by exact E2. destruct (Hst _ _ S2) as (xs & ->).
  pose proof (proj1 F2) as HH. apply Forall2_app_inv_r in HH. destruct HH as (vs0 & w0 & P1 & P2 & ->).
  inversion P2 as [|w ? wr ? _ Hn]; subst. inversion Hn; subst.
  pose proof (SmallVectorProofs.Forall2_len _ _ _ P1) as HL2. rewrite upd_length, map_length in HL2.
  destruct (fam_drop bs2 k2 vs0 _ w xs F2) as (bs3 & E3 & F3).
  assert (length vs = length vs0) as -> by lia.
  erewrite bind_ok by (unfold pod_one; cbn [fst snd]; rewrite nth_last, E3, upd_last; reflexivity).
  cbn [fst snd]. eexists. split; [reflexivity|]. rewrite firstn_app, firstn_all, Nat.sub_diag, app_nil_r.
  split; cbn [fst snd blks]; [|now apply words_upd]. now rewrite map_upd.
Qed.

Lemma buffers_ok_pod : buffers_ok W B room prep.
Proof.
  constructor.
  - intros st ls l (_ & K) H. eapply Forall_forall in K; eauto.
  - intros st ls i l R E. cbn [f_size pod_buffers]. eapply prep_look; eauto. intros v _ H.
    rewrite (psize_at _ _ _ H). now rewrite map_length.
  - intros st ls i l k w R E K. cbn [f_get pod_buffers].
    erewrite bind_ok.
    2:{ eapply prep_look; eauto. intros v _ H. destruct (fst st) as [bs c] eqn:Q. cbn [blks] in H.
        eapply pat_spec; eauto. apply nth_map. exact K. }
    unfold ret. rewrite of_to_bytes; auto. exact (words_at _ _ _ (proj2 R) E _ (nth_error_In _ _ K)).
  - intros st ls i l k w R E K L. cbn [f_put pod_buffers].
    destruct (nth_in l k K) as (y & Ey). pose proof (words_at _ _ _ (proj2 R) E) as Wl.
    eapply prep_one; eauto.
    + intros x Hx. apply In_nth_error in Hx. destruct Hx as (q & Hq).
      destruct (nth_upd_cases _ _ _ _ _ Hq) as [(_ & -> & _)|(_ & Hq')]; auto. apply Wl. eapply nth_error_In; eauto.
    + intros v _ H. destruct (fst st) as [bs c] eqn:Q. cbn [blks] in *.
      destruct (put_at bs c v (bytes l) k (to_bytes SZ w) (to_bytes SZ y) H) as (bs' & G & H' & Fr).
      * now apply nth_map.
      * apply to_bytes_length.
      * exists bs', c, v. rewrite map_upd. auto.
  - intros st ls i l n R E L. cbn [f_resize pod_buffers].
    pose proof (words_at _ _ _ (proj2 R) E) as Wl.
    destruct (nth_error (snd st) i) as [v0|] eqn:Ev0.
    2:{ destruct (fam_get _ _ _ _ _ (proj1 R) (nth_map bytes _ _ _ E)) as (v & Ev & _). congruence. }
    assert (holds (blks (fst st)) v0 (bytes l)) as H0.
    { destruct (fam_get _ _ _ _ _ (proj1 R) (nth_map bytes _ _ _ E)) as (v & Ev & H). congruence. }
    destruct (fst st) as [bs c] eqn:Q. cbn [blks] in H0.
    destruct (presize_spec A T HT HA bs c v0 (bytes l) n H0 L) as (r & bs' & k' & v' & new & G & Ln & _ & Hz & H' & Fr & _).
    destruct (prep_one (presize A T (N.of_nat n)) st ls i l r (firstn n l ++ repeat 0%N (n - length l)) R E) as (st' & G' & R').
    + intros x Hx. apply in_app_or in Hx. destruct Hx as [Hx|Hx].
      * apply Wl. rewrite <- (firstn_skipn n l). apply in_or_app. now left.
      * apply repeat_spec in Hx. subst x. apply N.neq_0_lt_0, N.pow_nonzero. lia.
    + intros v Ev _. assert (v = v0) as -> by congruence. rewrite Q. cbn [blks].
      exists bs', k', v'. split; auto. split; auto.
      rewrite map_app, <- firstn_map, map_rep, to_bytes_0. rewrite map_length in Hz. rewrite <- (Hz HZ). exact H'.
    + exists st'. split; auto. erewrite bind_ok by exact G'. reflexivity.
  - intros st ls i j l k R D E J NE L. cbn [f_append pod_buffers].
    rewrite (proj2 (Nat.eqb_neq _ _) D).
    pose proof (words_at _ _ _ (proj2 R) E) as Wl.
    pose proof (words_at _ _ _ (proj2 R) J) as Wk.
    erewrite bind_ok.
    2:{ eapply prep_look with (r := bytes k); eauto. intros v _ H. destruct (fst st) as [bs c]. cbn [blks] in H.
        eapply pread_all_spec; eauto. }
    erewrite bind_ok.
    2:{ eapply prep_look with (r := length l); eauto. intros v _ H. rewrite (psize_at _ _ _ H). now rewrite map_length. }
    destruct (prep_one (pinsert_range A T (length l) (bytes k)) st ls i l (length l) (l ++ k) R E) as (st' & G' & R').
    + intros x Hx. apply in_app_or in Hx. destruct Hx; auto.
    + intros v _ H. destruct (fst st) as [bs c] eqn:Q. cbn [blks] in *.
      destruct (pinsert_range_spec A T HT HA bs c v (bytes l) (length l) (bytes k) H) as (bs' & k' & v' & G & H' & Fr).
      * now rewrite map_length.
      * apply elems.
      * now rewrite !map_length.
      * exists bs', k', v'. split; auto. split; auto. unfold insert_at in H'.
        rewrite <- (map_length (to_bytes SZ) l) in H'. rewrite firstn_all, skipn_all, app_nil_r in H'.
        now rewrite map_app.
    + exists st'. split; auto. erewrite bind_ok by exact G'. reflexivity.
  - intros st ls i n w R Hi L S. cbn [f_make pod_buffers].
    apply temporary_ok with (o := fun t => PMoveAssign i t); auto.
    + intros x Hx. apply repeat_spec in Hx. now subst.
    + intros bs c.
      destruct (passign_fill_spec A T HT HA bs c init_pv [] n (to_bytes SZ w)) as (bs' & k' & v' & G & H' & Fr).
      * apply holds_init.
      * apply to_bytes_length.
      * exact L.
      * exists bs', k', v'. rewrite map_rep. auto.
    + intros cs Hc. split.
      * cbn. rewrite app_length. cbn. lia.
      * intros cs' r H. inversion H; subst; [lia|].
        exists []. match goal with Hn : nth_error (cs ++ _) _ = Some ?y |- _ =>
          rewrite <- Hc, nth_last in Hn; injection Hn as <- end.
        rewrite upd_app by lia. rewrite <- Hc. rewrite <- (upd_length cs i (bytes (repeat w n))). apply upd_last.
  - intros st ls i ws R Hi L S. cbn [f_assign pod_buffers].
    apply temporary_ok with (o := fun t => PCopyAssign i t); auto.
    + intros bs c.
      destruct (passign_copy_spec A T HT HA bs c init_pv [] (bytes ws)) as (bs' & k' & v' & G & H' & Fr).
      * apply holds_init.
      * apply elems.
      * now rewrite map_length.
      * exists bs', k', v'. auto.
    + intros cs Hc. split.
      * cbn. split; [rewrite app_length; cbn; lia|]. exists (bytes ws). rewrite <- Hc, nth_last, map_length. auto.
      * intros cs' r H. inversion H; subst.
        exists (bytes ws). match goal with Hn : nth_error (cs ++ _) _ = Some ?y |- _ =>
          rewrite <- Hc, nth_last in Hn; injection Hn as <- end.
        now rewrite upd_app by lia.
  - intros st ls i j k (F & K) D Hi J L. cbn [f_copy pod_buffers]. destruct st as ([bs c], vs). cbn [fst snd blks] in *.
    destruct (psys_call_spec A T HT HA early bs c vs _ (PCopyAssign i j) F) as (r & bs2 & k2 & vs2 & cs2 & E2 & S2 & F2).
    { cbn. rewrite map_length. split; auto. exists (bytes k). split; [now apply nth_map|now rewrite map_length]. }
    exists (mkMem bs2 k2, vs2). split; [erewrite bind_ok by exact E2; reflexivity|].
    inversion S2; subst. match goal with Hn : nth_error (map _ ls) _ = Some ?y |- _ =>
      rewrite (nth_map bytes _ _ _ J) in Hn; injection Hn as <- end.
    split; cbn [fst snd blks]; [now rewrite map_upd|]. apply words_upd; auto. exact (words_at _ _ _ K J).
  - intros st ls i j k (F & K) D Hi J. cbn [f_move pod_buffers]. destruct st as ([bs c], vs). cbn [fst snd blks] in *.
    destruct (psys_call_spec A T HT HA early bs c vs _ (PMoveAssign i j) F) as (r & bs2 & k2 & vs2 & cs2 & E2 & S2 & F2).
    { cbn. rewrite map_length. split; auto. apply nth_error_Some. congruence. }
    exists (mkMem bs2 k2, vs2). split; [erewrite bind_ok by exact E2; reflexivity|].
    inversion S2; subst; [now destruct D|]. match goal with Hn : nth_error (map _ ls) _ = Some ?y |- _ =>
      rewrite (nth_map bytes _ _ _ J) in Hn; injection Hn as <- end.
    split; cbn [fst snd blks]; [now rewrite !map_upd|]. apply words_upd; [apply words_upd; auto; exact (words_at _ _ _ K J)|intros w []].
Qed.

Lemma pod_start n : prep (mkMem [] 0, repeat init_pv n) (repeat [] n).
Proof.
  split; cbn [fst snd blks].
  - rewrite map_rep. apply fam_start.
  - apply Forall_forall. intros l Hl. apply repeat_spec in Hl. subst l. intros w [].
Qed.
End Inst.
