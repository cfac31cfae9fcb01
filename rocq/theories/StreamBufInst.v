(** The containers of this library meet what mem_ostreambuf asks of its container. *)
From Coq Require Import List Arith NArith ZArith Bool Lia.
From Verif Require Import Base SeqSpec VecCommon StreamModel StreamSpec StreamBufModel StreamBufSpec StreamBufProofs.
From Verif Require StaticVectorModel StaticVectorProofs FlatModel.
From Verif Require SmallVectorModel SmallVectorSpec SmallVectorProofs SmallFlatModel SmallFlatProofs.
From Verif Require PodVectorModel PodVectorSpec PodVectorProofs PodBlockProofs BitsetBufModel BitsetBufPodProofs.
Import ListNotations.
Open Scope nat_scope.

(** * static_vector *)
Section Static.
Context {C : Type}.
Variable zero : C.
Variable Capacity : nat.
Hypothesis Hcap : (N.of_nat Capacity < two63)%N.
Import StaticVectorModel StaticVectorProofs.
Notation keep := (fun c : C => c).

Definition sv_rep (v : @sv C) (xs : list C) : Prop := v = repr Capacity xs None /\ length xs <= Capacity.

Lemma sv_read_ok (xs : list C) f : forall n i, i + n <= length xs ->
  sv_read i n (repr Capacity xs f) = Ok (firstn n (skipn i xs)) (repr Capacity xs f).
Proof.
  induction n as [|n IH]; intros i L; [reflexivity|]. cbn [sv_read].
  destruct (nth_error xs i) as [x|] eqn:Ex; [|apply nth_error_None in Ex; lia].
  unfold at_. erewrite bind_ok by (apply read_repr; eassumption).
  erewrite bind_ok by (apply IH; lia). unfold ret. f_equal.
  clear -Ex. revert i Ex. induction xs as [|y xs IHx]; intros [|i] Ex; cbn in *; try discriminate.
  - injection Ex as ->. reflexivity.
  - rewrite IHx by exact Ex. reflexivity.
Qed.

Lemma resize_ok (xs : list C) n : length xs <= Capacity -> n <= Capacity ->
  resize keep zero Capacity n (repr Capacity xs None) = Ok tt (repr Capacity (resize_to xs n zero) None).
Proof. intros H1 H2. unfold resize. apply resize_val_spec; auto. Qed.

Lemma sv_store_ok : store_ok (sv_store zero Capacity) anything (fun n => n <= Capacity) (static_full Capacity) false
  sv_rep (static_released Capacity).
Proof.
  assert (forall xs n, length xs <= n -> n <= Capacity ->
    exists t, resize_to xs n zero = xs ++ t /\ length (xs ++ t) = n) as RT.
  { intros xs n L L'. exists (repeat zero (n - length xs)). unfold resize_to. rewrite firstn_all2 by lia.
    split; auto. rewrite app_length, repeat_length. lia. }
  constructor; unfold sv_rep; cbn [k_size k_cap k_base k_get k_put k_resize k_clear k_take k_destroy sv_store].
  - intros f xs (-> & L). reflexivity.
  - intros f xs (-> & L). eauto.
  - discriminate.
  - discriminate.
  - intros f xs i x (-> & L) E. apply read_repr. exact E.
  - intros f xs i x (-> & L) Hi _. destruct (nth_error xs i) as [y|] eqn:E; [|apply nth_error_None in E; lia].
    exists (repr Capacity (upd xs i x) None). rewrite upd_length. split; [|auto]. unfold FlatModel.sv_put, repr; cbn [data].
    rewrite nth_error_app1 by (rewrite map_length; exact Hi). rewrite nth_error_map, E. cbn [option_map].
    unfold with_data; cbn [data size fuse]. rewrite upd_length.
    rewrite BitsetBufPodProofs.upd_app by (rewrite map_length; exact Hi). now rewrite BitsetBufPodProofs.map_upd.
  - unfold two63, two64 in *. intros n H. lia.
  - intros f xs n (-> & L) L' R _. destruct (RT xs n L' R) as (t & E & Lt).
    exists (repr Capacity (xs ++ t) None), t. rewrite Nat2N.id, resize_ok, E by auto. split; auto. split; auto. split; auto. lia.
  - intros f xs c (-> & L) E. injection E as <-. destruct (RT xs Capacity L (le_n _)) as (t & E & Lt).
    exists (repr Capacity (xs ++ t) None), t. rewrite Nat2N.id, resize_ok, E by auto. split; auto. split; auto. split; auto. lia.
  - intros f xs n e (-> & L) E. unfold static_full in E. destruct (Nat.ltb_spec Capacity n); [|discriminate].
    injection E as <-. split; [lia|]. split; [lia|]. rewrite Nat2N.id. now apply resize_val_full.
  - intros f xs (-> & L). rewrite clear_spec by assumption. eexists. split; [reflexivity|]. split; [reflexivity|cbn; lia].
  - intros take f xs n E (-> & L) Ln. injection E as <-. unfold sv_take.
    replace (@init_sv C Capacity) with (@repr C Capacity [] None)
      by (unfold repr, init_sv; cbn; now rewrite Nat.sub_0_r).
    rewrite swap_spec by (assumption || (cbn; lia)). rewrite Nat2N.id.
    erewrite bind_ok by (apply resize_ok; lia). rewrite bind_get.
    unfold resize_to. replace (n - length xs) with 0 by lia. cbn [repeat]. rewrite app_nil_r.
    erewrite bind_ok by (apply sv_read_ok; rewrite size_repr; lia).
    rewrite size_repr. cbn [skipn]. rewrite firstn_all.
    erewrite bind_ok by (apply clear_spec; [assumption|rewrite firstn_length; lia]).
    eexists. split; [reflexivity|]. split; [split; [reflexivity|cbn; lia]|]. discriminate.
  - intros f xs (-> & L). rewrite clear_spec by assumption. eexists. split; [reflexivity|].
    unfold static_released, repr. cbn. now rewrite Nat.sub_0_r.
Qed.

Lemma sv_rep_init : sv_rep (init_sv Capacity) [].
Proof. split; [|cbn; lia]. unfold repr, init_sv. cbn. now rewrite Nat.sub_0_r. Qed.
End Static.

(** * small_vector *)
Section Small.
Context {C : Type}.
Variable zero : C.
Variable SC RB : nat.
Variable maxn : N.
Hypothesis HSC : 0 < SC.
Hypothesis HRB : RB <= SC + 1.
Hypothesis Hmax : (maxn < two63)%N.
Import SmallVectorModel SmallVectorSpec SmallVectorProofs.
Notation keep := (fun c : C => c).
Notation vec := (@vec C).

Definition small_rep (v : vec) (xs : list C) : Prop := holds SC v xs /\ vfuse v = None.

(** resize within the capacity *)
Lemma resize_within (s : vec) (xs : list C) : holds SC s xs -> vfuse s = None ->
  exists s', resize keep zero SC RB maxn (N.of_nat (vcap s)) s = Ok tt s' /\
    holds SC s' (resize_to xs (vcap s) zero) /\ vfuse s' = None.
Proof.
  intros H Hf. pose proof H as H1. unfold resize, resize_val.
  assert (reserve keep SC RB maxn (N.of_nat (vcap s)) s = Ok tt s) as E.
  { unfold reserve. rewrite bind_get. now rewrite N.leb_refl. }
  erewrite bind_ok by exact E.
  erewrite bind_ok by (apply msize_spec; apply H1). rewrite Nat2N.id.
  apply (holds_owns SC RB maxn HSC HRB Hmax) in H1. destruct H1 as (He & Hc & Hown).
  destruct s as [bs b e c f]. cbn [blocks vb ve vcap vfuse] in *. subst e f.
  pose proof Hown as (Hn & Hl & _). cbn [blocks vb] in Hn.
  pose proof (nth_lt _ _ _ Hn) as L.
  replace (length xs - c) with 0 by lia. cbn [cut_loop]. erewrite bind_ok by reflexivity.
  erewrite bind_ok by (apply msize_spec; reflexivity).
  rewrite (extend_loop_spec SC RB maxn HSC HRB Hmax); [|lia|exact Hn].
  eexists. split; [reflexivity|]. split; [|reflexivity].
  unfold resize_to. rewrite firstn_all2 by lia.
  apply (holds_owns SC RB maxn HSC HRB Hmax). cbn [vb ve vcap]. rewrite !app_length, repeat_length.
  split; [reflexivity|]. split; [lia|].
  eapply owns_upd; [exact Hown|]. unfold buf. rewrite !app_length, !map_length, !app_length, !repeat_length. lia.
Qed.

Lemma small_store_ok : store_ok (small_store zero SC RB maxn) anything (room maxn) never false small_rep (all_released SC).
Proof.
  assert (forall xs n, length xs <= n ->
    exists t, resize_to xs n zero = xs ++ t /\ length (xs ++ t) = n) as RT.
  { intros xs n L. exists (repeat zero (n - length xs)). unfold resize_to. rewrite firstn_all2 by lia.
    split; auto. rewrite app_length, repeat_length. lia. }
  constructor; unfold small_rep; cbn [k_size k_cap k_base k_get k_put k_resize k_clear k_take k_destroy small_store].
  - intros f xs ((H & _) & _). now apply msize_spec.
  - intros f xs ((_ & H & _) & _). unfold capacity. eauto.
  - discriminate.
  - discriminate.
  - intros f xs i x (H & _) E. eapply at_spec; eauto.
  - intros f xs i x (H & Hf) Hi _. destruct (SmallFlatProofs.put_ok SC f xs i x H Hi) as (f' & E & H' & F').
    exists f'. split; [exact E|]. split; [split; congruence|]. unfold SmallFlatModel.small_put in E.
    destruct (slot_at _ _) as [[|]|]; try discriminate. injection E as <-. reflexivity.
  - intros n R. unfold SmallVectorSpec.room, two63, two64 in *. pose proof (Nat.le_0_l (n / 2)). lia.
  - intros f xs n (H & Hf) L R _. destruct (resize_val_spec keep SC RB maxn HSC HRB Hmax f xs n zero H Hf R) as (f' & E & H' & F').
    destruct (RT xs n L) as (t & Et & Lt). rewrite Et in H'. exists f', t. unfold resize. auto.
  - intros f xs c (H & Hf) E. injection E as <-. unfold capacity in *. destruct (resize_within f xs H Hf) as (f' & E & H' & F').
    destruct (RT xs (vcap f)) as (t & Et & Lt); [apply H|]. rewrite Et in H'. exists f', t. auto.
  - discriminate.
  - intros f xs (H & Hf). destruct (clear_spec SC RB maxn HSC HRB Hmax f xs H) as (f' & E & H' & F' & _). exists f'. split; [exact E|]. split; congruence.
  - discriminate.
  - intros f xs (H & Hf). exact (destructor_spec SC RB maxn HSC HRB Hmax f xs H).
Qed.

Lemma small_rep_init : small_rep (init_vec SC) [].
Proof. split; [|reflexivity]. apply (holds_init SC RB maxn HSC HRB Hmax). Qed.
End Small.

(** * pod_vector *)
Section Pod.
Variable A : PodVectorModel.alc.
Variable T : PodVectorModel.ety.
Import PodVectorModel PodVectorSpec PodVectorProofs PodBlockProofs.
Hypothesis HT : ety_ok T.
Hypothesis HA : alc_ok A.
Notation SZ := (esz T).
Notation holds := (pod_holds A T).
Notation room := (PodVectorSpec.room T).

(** The other blocks are given back. *)
Definition alone (bs : list mblk) (v : pv) : Prop :=
  forall j, j < length bs -> owner v <> Some j -> exists a, nth_error bs j = Some (MFreed a).
Lemma alone_frame bs v bs' v' : alone bs v -> frame bs v bs' v' -> alone bs' v'.
Proof.
  intros H (L & K1 & K2) j Hj Ho. destruct (Nat.lt_ge_cases j (length bs)) as [Lt|Ge]; [|apply K2; auto].
  assert ({owner v = Some j} + {owner v <> Some j}) as [e|ne] by (decide equality; apply Nat.eq_dec); [apply K2; auto|].
  destruct (K1 j Lt ne) as (E & _). rewrite E. auto.
Qed.

Definition pod_rep (st : pst) (xs : list (list N)) : Prop :=
  holds (blks (fst st)) (snd st) xs /\ sizables (fst st) /\ alone (blks (fst st)) (snd st).

Lemma cap_sizable st xs : pod_rep st xs -> (N.of_nat (pcap (snd st)) * N.of_nat SZ < two64)%N.
Proof.
  intros (H & S & _). destruct (holds_parts A T HT _ _ _ H) as (rest & Hx & Hb & He & Hc & Hl & Hlen & Hn0 & Hc0).
  destruct (pb (snd st)) as [[b o]|] eqn:E; [|rewrite Hc0 by auto; reflexivity].
  unfold buf in Hb. rewrite E in Hb. destruct Hb as (a & pre & Hn & _).
  unfold sizables in S. rewrite Forall_forall in S. apply nth_error_In in Hn. specialize (S _ Hn). cbn in S.
  rewrite !app_length in *. lia.
Qed.

(** resize within the capacity *)
Lemma presize_within bs k v xs n : holds bs v xs -> (N.of_nat (pcap v) * N.of_nat SZ < two64)%N -> n <= pcap v ->
  exists r bs' v' new,
    presize A T (N.of_nat n) (mkMem bs k, v) = Ok r (mkMem bs' k, v') /\
    length new = n - length xs /\ holds bs' v' (firstn n xs ++ new) /\ frame bs v bs' v'.
Proof.
  intros Hh Hsz Hn. unfold presize.
  assert (preserve A T (N.of_nat n) (mkMem bs k, v) = Ok false (mkMem bs k, v)) as E1.
  { unfold preserve, mcap. unfold bind at 1. cbn [snd].
    destruct (N.leb_spec (N.of_nat n) (N.of_nat (pcap v))); [reflexivity|lia]. }
  erewrite bind_ok by exact E1.
  destruct (holds_parts A T HT _ _ _ Hh) as (rest & Hx & Hb & He & Hc & Hl & Hlen & Hn0 & Hc0).
  pose proof (concat_length_elems T xs Hx) as Hcx.
  erewrite bind_ok by (apply (psize_spec T HT _ _ (length xs)); auto).
  unfold mend at 1. unfold bind at 1. cbn [snd].
  destruct (N.ltb_spec (N.of_nat (length xs)) (N.of_nat n)) as [Hlt|Hge].
  - destruct (spare_elems T xs rest (pcap v) n ltac:(lia) Hl) as (new & rest' & Er & Hnew & Hln & Hl').
    rewrite firstn_all2 by lia.
    cbn [andb]. destruct (a_zero A) eqn:Ez.
    + unfold memset0. rewrite e2b_small by nia.
      replace (N.to_nat ((N.of_nat n - N.of_nat (length xs)) * N.of_nat SZ)) with ((n - length xs) * SZ) by lia.
      rewrite <- concat_repeat_zero.
      assert (Forall (is_elem T) (repeat (repeat 0%N SZ) (n - length xs))) as Hz
        by (apply Forall_repeat', zero_elem).
      rewrite He.
      destruct (write_raw A T bs k v (concat xs) (concat new) rest'
        (concat (repeat (repeat 0%N SZ) (n - length xs))) (length xs * SZ)) as (bs2 & E2 & Hb2 & Hf2).
      * now rewrite <- Er.
      * intros Hp. specialize (Hc0 Hp). lia.
      * exact Hcx.
      * rewrite (concat_length_elems T new Hnew), (concat_length_elems T _ Hz).
        rewrite repeat_length. now rewrite Hln.
      * erewrite bind_ok by exact E2.
        destruct (holds_intro A T HT bs2 k v (xs ++ repeat (repeat 0%N SZ) (n - length xs)) rest' n)
          as (w & E3 & Hh3 & Hf3 & Hcw & _); auto.
        { rewrite app_length, repeat_length. lia. }
        { apply Forall_app; auto. }
        { now rewrite concat_app, <- app_assoc. }
        erewrite bind_ok by exact E3.
        exists false, bs2, w, (repeat (repeat 0%N SZ) (n - length xs)).
        split; [reflexivity|]. split; [apply repeat_length|]. split; [exact Hh3|].
        eapply frame_trans; eauto.
    + unfold bind at 1. unfold ret at 1.
      destruct (holds_intro A T HT bs k v (xs ++ new) rest' n) as (w & E3 & Hh3 & Hf3 & Hcw & _); auto.
      { rewrite app_length. lia. }
      { apply Forall_app; auto. }
      { rewrite concat_app, <- app_assoc. now rewrite <- Er. }
      erewrite bind_ok by exact E3.
      exists false, bs, w, new. auto.
  - cbn [andb]. unfold bind at 1. unfold ret at 1.
    destruct (holds_intro A T HT bs k v (firstn n xs) (concat (skipn n xs) ++ rest) n)
      as (w & E3 & Hh3 & Hf3 & Hcw & _); auto.
    { rewrite firstn_length. lia. }
    { now apply Forall_firstn'. }
    { rewrite app_assoc, <- concat_app, firstn_skipn. exact Hb. }
    { pose proof (concat_length_elems T _ (Forall_skipn' _ _ n Hx)) as Hs.
      rewrite app_length, Hs, skipn_length by lia.
      rewrite Nat.mul_sub_distr_r. assert (n * SZ <= length xs * SZ) by (apply Nat.mul_le_mono_r; lia). lia. }
    erewrite bind_ok by exact E3.
    exists false, bs, w, []. rewrite app_nil_r. split; [reflexivity|]. split; [cbn; lia|]. auto.
Qed.

Lemma pod_store_ok : store_ok (pod_store A T) (is_elem T) room never true pod_rep pod_released.
Proof.
  constructor; cbn [k_size k_cap k_base k_get k_put k_resize k_clear k_take k_destroy pod_store].
  - intros [m v] xs (H & _). now apply (BitsetBufPodProofs.psize_at A T HT).
  - intros [m v] xs (H & _). cbn [fst snd] in H. exists (pcap v). split; [reflexivity|].
    destruct H as (_ & rest & _ & _ & L & _). exact L.
  - intros [m v] xs (H & _) E. cbn [fst snd] in *.
    destruct (holds_parts A T HT _ _ _ H) as (rest & _ & _ & _ & _ & _ & _ & Hn0 & _).
    apply length_zero_iff_nil. auto.
  - discriminate.
  - intros [[bs k] v] xs i x (H & _) E. eapply (pat_spec A T HT); eauto.
  - intros [[bs k] v] xs i x (H & S & Al) Hi Hx. cbn [fst snd blks] in *.
    destruct (nth_error xs i) as [y|] eqn:E; [|apply nth_error_None in E; lia].
    destruct (BitsetBufPodProofs.put_at A T HT bs k v xs i x y H E Hx) as (bs' & E' & H' & F').
    exists (mkMem bs' k, v). split; [exact E'|]. split; [|reflexivity]. split; [exact H'|]. split.
    + assert (sizing (BitsetBufModel.pod_put T i x)) as Z.
      { unfold BitsetBufModel.pod_put. apply sz_bind; [apply sz_mbegin|]. intros b. apply sz_bind; [apply sz_padd|]. intros p. apply sz_write. }
      specialize (Z (mkMem bs k, v) S). now rewrite E' in Z.
    + eapply alone_frame; eauto.
  - intros n R. pose proof (room_small T HT n R) as Q. unfold two64 in *. lia.
  - intros [[bs k] v] xs n (H & S & Al) L R _. cbn [fst snd blks] in *.
    destruct (presize_spec A T HT HA bs k v xs n H R) as (r & bs' & k' & v' & new & E & Ln & _ & _ & H' & F' & _).
    rewrite firstn_all2 in H' by lia.
    exists (mkMem bs' k', v'), new. erewrite bind_ok by exact E. split; [reflexivity|].
    split; [|rewrite app_length; lia]. split; [exact H'|]. split; [|eapply alone_frame; eauto].
    pose proof (sz_resize A T (N.of_nat n) (mkMem bs k, v) S) as Z. now rewrite E in Z.
  - intros [[bs k] v] xs c HR E. pose proof (cap_sizable _ _ HR) as Hs. destruct HR as (H & S & Al). cbn [fst snd blks] in *.
    unfold mcap in E. cbn [snd] in E. injection E as <-.
    pose proof H as (_ & _ & _ & _ & L & _).
    destruct (presize_within bs k v xs (pcap v) H Hs (le_n _)) as (r & bs' & v' & new & E & Ln & H' & F').
    rewrite firstn_all2 in H' by exact L.
    exists (mkMem bs' k, v'), new. erewrite bind_ok by exact E. split; [reflexivity|].
    split; [|rewrite app_length; lia]. split; [exact H'|]. split; [|eapply alone_frame; eauto].
    pose proof (sz_resize A T (N.of_nat (pcap v)) (mkMem bs k, v) S) as Z. now rewrite E in Z.
  - discriminate.
  - intros [[bs k] v] xs (H & S & Al). cbn [fst snd blks] in *.
    destruct (pclear_spec A T HT bs k v xs H) as (v' & E & H' & F' & _).
    exists (mkMem bs k, v'). split; [exact E|]. split; [exact H'|]. split; [exact S|]. eapply alone_frame; eauto.
  - intros take [[bs k] v] xs n E HR L. injection E as <-. pose proof (cap_sizable _ _ HR) as Hs. destruct HR as (H & S & Al). cbn [fst snd blks] in *. unfold pod_take. cbn [fst snd].
    pose proof H as (_ & _ & _ & _ & Lc & _).
    destruct (presize_within bs k v xs n H Hs ltac:(lia)) as (r & bs1 & v1 & new & E1 & Ln & H1 & F1).
    replace (n - length xs) with 0 in Ln by lia. destruct new; [|discriminate]. rewrite app_nil_r in H1.
    pose proof (alone_frame _ _ _ _ Al F1) as Al1.
    pose proof (sz_resize A T (N.of_nat n) (mkMem bs k, v) S) as S1. rewrite E1 in S1. cbn [fst] in S1.
    pose proof H1 as (_ & rest & Hb & _).
    destruct (a_free_spec A T bs1 k v1 _ Hb) as (bs2 & E2 & HL & HK & HF).
    exists (mkMem bs2 k, init_pv). split; [|split; [|reflexivity]].
    + erewrite bind_ok by apply pswap_spec. erewrite bind_ok by (apply on_a_ok; exact E1).
      erewrite bind_ok by (apply on_a_ok; apply (pread_all_spec A T HT); exact H1).
      erewrite bind_ok by (apply on_a_ok; exact E2). reflexivity.
    + split; [apply holds_init|]. cbn [fst snd blks]. split.
      * unfold sizables in *. cbn [blks] in *. rewrite Forall_forall in *. intros b Ib. apply In_nth_error in Ib. destruct Ib as (j & Ej).
        assert (j < length bs1) as Lj by (rewrite <- HL; apply nth_error_Some; congruence).
        assert ({owner v1 = Some j} + {owner v1 <> Some j}) as [e|ne] by (decide equality; apply Nat.eq_dec).
        { destruct (HF j e) as (a & Ea). rewrite Ea in Ej. injection Ej as <-. exact Logic.I. }
        rewrite HK in Ej by exact ne. apply S1. eapply nth_error_In; eauto.
      * intros j Hj _. rewrite HL in Hj.
        assert ({owner v1 = Some j} + {owner v1 <> Some j}) as [e|ne] by (decide equality; apply Nat.eq_dec); [auto|].
        rewrite HK by exact ne. auto.
  - intros [[bs k] v] xs (H & S & Al). cbn [fst snd blks] in *. pose proof H as (_ & rest & Hb & _).
    destruct (a_free_spec A T bs k v _ Hb) as (bs1 & E & HL & HK & HF).
    exists (mkMem bs1 k, v). split; [exact E|]. intros j Hj. cbn [fst blks] in *. rewrite HL in Hj.
    assert ({owner v = Some j} + {owner v <> Some j}) as [e|ne] by (decide equality; apply Nat.eq_dec); [auto|].
    rewrite HK by exact ne. auto.
Qed.

Lemma pod_rep_init k : pod_rep (mkMem [] k, init_pv) [].
Proof. split; [apply holds_init|]. split; [constructor|]. intros j Hj. cbn in Hj. lia. Qed.
End Pod.
