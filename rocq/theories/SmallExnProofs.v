(** Proofs about exceptions in the middle of calls of small_vector. *)
From Coq Require Import List Arith NArith ZArith Bool Lia.
From Verif Require Import Base SeqSpec VecCommon SmallVectorModel SmallVectorSpec SmallVectorProofs
  SmallMoveAllProofs SmallExnSpec.
From Verif Require CtorProofs.
Import ListNotations.

Section Proofs.
Context {V : Type}.
Variable moved : V -> V.
Variable dflt : V.
Variable SC RB : nat.
Variable maxn : N.
Notation vec := (@vec V).
Notation blind := (@blind V).

(** ** Programs which do not look at the fuse *)
Lemma blind_get {A} (K : vec -> M vec A) :
  (forall f s, K (with_fuse f s) = K s) -> (forall s, blind (K s)) -> blind (bind get K).
Proof. intros H1 H2 f s. rewrite !bind_get, H1. apply H2. Qed.
Lemma blind_ret {A} (a : A) : blind (ret a). Proof. intros f s. reflexivity. Qed.
Lemma blind_ub {A} : blind (@ub vec A). Proof. intros f s. reflexivity. Qed.
Lemma blind_move_range db sb k : forall di si, blind (move_range moved db di sb si k).
Proof.
  induction k as [|k IH]; intros di si; cbn [move_range]; [apply blind_ret|].
  apply blind_bind; [apply quiet_move_to|intros _; apply IH].
Qed.
Lemma blind_relocate db sb k : forall di si, blind (relocate_range moved db di sb si k).
Proof.
  induction k as [|k IH]; intros di si; cbn [relocate_range]; [apply blind_ret|].
  apply blind_bind; [apply quiet_move_to|intros _].
  apply blind_bind; [apply quiet_destroy|intros _; apply IH].
Qed.
Lemma blind_transfer sb k : forall si, blind (shrink_transfer moved sb si k).
Proof.
  induction k as [|k IH]; intros si; cbn [shrink_transfer]; [apply blind_ret|].
  apply blind_get; [reflexivity|]. intros s.
  apply blind_bind; [apply quiet_move_to|intros _].
  apply blind_bind; [apply quiet_set_end|intros _].
  apply blind_bind; [apply quiet_destroy|intros _; apply IH].
Qed.
Lemma blind_grow_loop b pos num k : blind (grow_loop moved b pos num k).
Proof.
  induction k as [|k IH]; cbn [grow_loop]; [apply blind_ret|].
  apply blind_bind; [apply quiet_move_to|intros _].
  apply blind_bind; [apply quiet_destroy|intros _; apply IH].
Qed.
Lemma blind_shrink_loop b k : forall p np, blind (shrink_loop moved b p np k).
Proof.
  induction k as [|k IH]; intros p np; cbn [shrink_loop]; [apply blind_ret|].
  apply blind_bind; [apply quiet_destroy|intros _].
  apply blind_bind; [apply quiet_move_to|intros _; apply IH].
Qed.
Lemma blind_cut_loop k : blind (cut_loop k).
Proof.
  induction k as [|k IH]; cbn [cut_loop]; [apply blind_ret|].
  apply blind_get; [reflexivity|]. intros s.
  apply blind_bind; [apply quiet_set_end|intros _].
  apply blind_bind; [apply quiet_destroy|intros _; apply IH].
Qed.

Ltac blinds := repeat first
  [ apply blind_ret | apply blind_ub | apply blind_msize | apply blind_throw_if | apply blind_alloc
  | apply blind_choose | apply quiet_dealloc | apply quiet_set_end | apply quiet_set_buf
  | apply quiet_destroy_from | apply blind_move_range | apply blind_relocate | apply blind_transfer
  | apply blind_grow_loop | apply blind_shrink_loop | apply blind_cut_loop
  | match goal with
    | |- blind (bind get _) => apply blind_get; [reflexivity|intros]
    | |- blind (bind _ _) => apply blind_bind; [|intros]
    | |- blind (if ?c then _ else _) => destruct c
    end ].

Lemma blind_destroy_all : blind destroy_all.
Proof. unfold destroy_all. blinds. Qed.
Lemma blind_clear : blind (clear SC RB).
Proof. unfold clear. apply blind_bind; [apply blind_destroy_all|intros]. blinds. Qed.
Lemma blind_grow_at p n : blind (grow_at moved SC RB maxn p n).
Proof. unfold grow_at. blinds. Qed.
Lemma blind_shrink_at p n : blind (shrink_at moved SC RB maxn p n).
Proof.
  unfold shrink_at. blinds.
  apply blind_clear.
Qed.
Lemma blind_reserve n : blind (reserve moved SC RB maxn n).
Proof. unfold reserve. blinds. Qed.
Lemma blind_shrink_to_fit : blind (shrink_to_fit moved SC maxn).
Proof. unfold shrink_to_fit. blinds. Qed.
Lemma blind_revert : blind (revert_to_static moved SC maxn).
Proof. unfold revert_to_static. blinds. apply blind_shrink_to_fit. Qed.

Lemma same_fuse f (s : vec) : vfuse s = f -> s = with_fuse f s.
Proof. destruct s. cbn. now intros ->. Qed.

(** ** Calls with enough fuse *)

(** With [n] more successful constructions ahead, [m] does what it does without a fuse. *)
Definition lasts (s : vec) (n : nat) {A} (m : M vec A) : Prop :=
  forall a s' d, m (with_fuse None s) = Ok a s' ->
    m (with_fuse (Some (n + d)) s) = Ok a (with_fuse (Some d) s').

Lemma lasts_blind {A} (m : M vec A) s : blind m -> lasts s 0 m.
Proof.
  intros H a s' d E. rewrite H in *. destruct (m s); try discriminate. cbn [refuse] in *.
  injection E as <- <-. reflexivity.
Qed.

Lemma lasts_after {A B} (Z : M vec A) (K : A -> M vec B) s n :
  blind Z -> (forall a s1, Z s = Ok a s1 -> lasts s1 n (K a)) -> lasts s n (bind Z K).
Proof.
  intros HZ HK a s' d E. unfold bind in *. rewrite HZ in *.
  destruct (Z s) as [a1 s1|e s1| |] eqn:E1; try discriminate. cbn [refuse] in *.
  exact (HK _ _ eq_refl _ _ _ E).
Qed.

Lemma lasts_get {A} (K : vec -> M vec A) s n :
  (forall f s1, K (with_fuse f s1) = K s1) -> lasts s n (K s) -> lasts s n (bind get K).
Proof. intros H1 H2 a s' d. rewrite !bind_get, !H1. apply H2. Qed.

Lemma lasts_then {A B} (m : M vec A) (K : A -> M vec B) s n1 n2 n :
  n = n1 + n2 -> lasts s n1 m ->
  (forall a s1, m (with_fuse None s) = Ok a s1 -> vfuse s1 = None) ->
  (forall a s1, lasts s1 n2 (K a)) -> lasts s n (bind m K).
Proof.
  intros -> Hm Hf HK a s' d E. unfold bind in *.
  destruct (m (with_fuse None s)) as [a1 s1|e s1| |] eqn:E1; try discriminate.
  rewrite <- Nat.add_assoc, (Hm _ _ _ E1). apply HK.
  specialize (Hf _ _ eq_refl). destruct s1. cbn in Hf. subst. exact E.
Qed.

Lemma construct_ok p (v : V) s a s1 :
  construct p (CopyOf v) (with_fuse None s) = Ok a s1 ->
  vfuse s1 = None /\ forall d, construct p (CopyOf v) (with_fuse (Some (S d)) s) = Ok a (with_fuse (Some d) s1).
Proof.
  cbn [construct]. unfold tick, bind, begin_life. cbn [vfuse with_fuse blocks].
  destruct (slot_at p (blocks s)) as [[|w]|]; try discriminate. intros E. injection E as <- <-.
  split; [reflexivity|]. intros d. reflexivity.
Qed.

Lemma lasts_construct p (v : V) s : lasts s 1 (construct p (CopyOf v)).
Proof. intros a s' d E. apply construct_ok in E. destruct E as [_ E]. apply E. Qed.

Lemma lasts_copy b (l : list V) : forall i s, lasts s (length l) (copy_loop b i l).
Proof.
  induction l as [|v l IH]; intros i s; cbn [copy_loop length]; [apply lasts_blind, blind_ret|].
  apply (lasts_then _ _ s 1 (length l)); [reflexivity|apply lasts_construct| |intros; apply IH].
  intros a s1 E. apply construct_ok in E. tauto.
Qed.

Lemma lasts_append (l : list V) : forall s, lasts s (length l) (append_loop l).
Proof.
  induction l as [|v l IH]; intros s; cbn [append_loop length]; [apply lasts_blind, blind_ret|].
  apply lasts_get; [reflexivity|].
  apply (lasts_then _ _ s 1 (length l)); [reflexivity|apply lasts_construct| |].
  - intros a s1 E. apply construct_ok in E. tauto.
  - intros _ s1. apply lasts_get; [reflexivity|].
    apply lasts_after; [apply quiet_set_end|intros; apply IH].
Qed.

Lemma lasts_extend (v : V) n : forall s, lasts s n (extend_loop n (CopyOf v)).
Proof.
  induction n as [|n IH]; intros s; cbn [extend_loop]; [apply lasts_blind, blind_ret|].
  apply lasts_get; [reflexivity|].
  apply lasts_after; [apply quiet_set_end|intros _ s1 _].
  apply (lasts_then _ _ s1 1 n); [reflexivity|apply lasts_construct| |intros; apply IH].
  intros a s2 E. apply construct_ok in E. tauto.
Qed.

Lemma fuse_append (l : list V) : forall s a s', vfuse s = None -> append_loop l s = Ok a s' -> vfuse s' = None.
Proof.
  induction l as [|v l IH]; intros s a s' Hf E; cbn [append_loop] in E.
  - injection E as _ <-. exact Hf.
  - rewrite bind_get in E. unfold bind at 1 in E.
    destruct (construct (ve s) (CopyOf v) s) as [a1 s1|e s1| |] eqn:E1; try discriminate.
    assert (F : vfuse s1 = None).
    { pose proof (same_fuse _ _ Hf) as Es.
      rewrite Es in E1 at 2. apply construct_ok in E1. tauto. }
    rewrite bind_get in E. unfold set_end, bind in E. eapply IH; [|exact E]. exact F.
Qed.

Lemma fuse_copy b (l : list V) : forall i s a s', vfuse s = None -> copy_loop b i l s = Ok a s' -> vfuse s' = None.
Proof.
  induction l as [|v l IH]; intros i s a s' Hf E; cbn [copy_loop] in E.
  - injection E as _ <-. exact Hf.
  - unfold bind in E.
    destruct (construct (b, i) (CopyOf v) s) as [a1 s1|e s1| |] eqn:E1; try discriminate.
    eapply IH; [|exact E].
    pose proof (same_fuse _ _ Hf) as Es.
    rewrite Es in E1. apply construct_ok in E1. tauto.
Qed.

Lemma lasts_ret {A B} (m : M vec A) (b : B) s n :
  lasts s n m -> lasts s n (m ;;; ret b).
Proof.
  intros H a s' d E. unfold bind in *. destruct (m (with_fuse None s)) as [a1 s1|e s1| |] eqn:E1; try discriminate.
  rewrite (H _ _ d E1). cbn [ret] in *. injection E as <- <-. reflexivity.
Qed.

Lemma lasts_map {A B} (m : M vec A) (g : A -> B) s n :
  lasts s n m -> lasts s n (let* x := m in ret (g x)).
Proof.
  intros H a s' d E. unfold bind in *. destruct (m (with_fuse None s)) as [a1 s1|e s1| |] eqn:E1; try discriminate.
  rewrite (H _ _ d E1). cbn [ret] in *. injection E as <- <-. reflexivity.
Qed.

Lemma lasts_ext {A} (m m' : M vec A) s n : (forall s, m s = m' s) -> lasts s n m -> lasts s n m'.
Proof. intros H L a s' d E. rewrite <- H in *. now apply L. Qed.

Lemma lasts_fill b i (v : V) k s : lasts s k (fill_loop b i (CopyOf v) k).
Proof.
  eapply lasts_ext; [intros; symmetry; apply fill_loop_copies|].
  pose proof (lasts_copy b (repeat v k) i s) as L. rewrite repeat_length in L. exact L.
Qed.

Lemma lasts_assign (l : list V) s : lasts s (length l) (assign_range SC RB maxn l).
Proof.
  unfold assign_range. apply lasts_after; [apply blind_destroy_all|intros _ s1 _].
  unfold assign_copy. apply lasts_after; [apply blind_choose|intros cdr s2 _].
  apply lasts_after; [apply quiet_set_end|intros _ s3 _].
  apply (lasts_then _ _ s3 (length l) 0); [lia|apply lasts_append| |].
  - intros a s4. apply fuse_append. reflexivity.
  - intros _ s4. apply lasts_blind. blinds.
Qed.

Hypothesis HSC : 0 < SC.
Hypothesis HRB : RB <= SC + 1.
Hypothesis Hmax : (maxn < two63)%N.
Notation howns := (@holds_owns V SC RB maxn HSC HRB Hmax).

Lemma lasts_resize (s : vec) (xs : list V) n v :
  holds SC s xs -> room maxn n ->
  lasts s (n - length xs) (resize_val moved SC RB maxn (N.of_nat n) (CopyOf v)).
Proof.
  intros H Hr. unfold resize_val. apply lasts_after; [apply blind_reserve|].
  destruct (reserve_spec moved SC RB maxn HSC HRB Hmax s xs n H Hr) as (s1 & E & H1 & F1 & C1 & _).
  intros u s1'. rewrite E. intros X. injection X as <- <-.
  apply lasts_after; [apply blind_msize|]. intros m s2.
  rewrite (msize_spec _ (length xs)) by apply H1. intros X. injection X as <- <-. rewrite Nat2N.id.
  apply lasts_after; [apply blind_cut_loop|]. intros w s3 E3.
  apply lasts_after; [apply blind_msize|]. intros m s4 E4.
  replace (n - length xs) with (n - m); [apply lasts_extend|].
  apply howns in H1. destruct H1 as (He & Hc & Hown).
  destruct s1 as [bs b e c f]. cbn [blocks vb ve vcap vfuse] in *. subst e.
  pose proof Hown as (Hn & Hl & _). cbn [blocks vb] in Hn.
  assert (E2 : cut_loop (length xs - n) (mkVec bs b (b, length xs) c f) =
    Ok tt (mkVec (upd bs b (Blk (buf c (firstn n xs)))) b (b, length (firstn n xs)) c f)).
  { replace (length xs) with (length (firstn n xs) + (length xs - n)) at 2
      by (rewrite firstn_length; lia).
    apply (cut_loop_spec SC RB maxn HSC HRB Hmax) with (zs := skipn n xs).
    - rewrite skipn_length. lia.
    - rewrite firstn_skipn. exact Hn.
    - rewrite firstn_skipn. exact Hc. }
  rewrite E2 in E3. injection E3 as _ <-.
  rewrite (msize_spec _ (length (firstn n xs))) in E4 by reflexivity. injection E4 as <- _.
  rewrite firstn_length. lia.
Qed.

Lemma call_lasts (s : vec) (xs : list V) o :
  holds SC s xs -> small_ok maxn xs o -> lasts s (built xs o) (call moved dflt SC RB maxn o).
Proof.
  intros H Hok. destruct o as [o|n| |].
  - destruct o as [v| |pos v|pos n v|pos l|pos|first last|n|n v| |n v|l];
      cbn [call built small_ok] in *; unfold no_answer, position_answer; try apply lasts_map; try apply lasts_ret.
    + unfold push_back. apply lasts_after; [apply blind_msize|intros m s1 _].
      apply lasts_after; [apply blind_grow_at|intros p s2 _].
      apply lasts_get; [reflexivity|]. apply lasts_construct.
    + apply lasts_blind. unfold pop_back. blinds. apply blind_shrink_at.
    + unfold insert1. apply lasts_after; [apply blind_grow_at|intros p s2 _].
      apply lasts_get; [reflexivity|]. apply lasts_ret, lasts_construct.
    + unfold insert_n. apply lasts_after; [apply blind_grow_at|intros p s2 _].
      apply lasts_get; [reflexivity|]. apply lasts_ret. rewrite Nat2N.id. apply lasts_fill.
    + unfold insert_range. apply lasts_after; [apply blind_grow_at|intros p s2 _].
      apply lasts_get; [reflexivity|]. apply lasts_ret. apply lasts_copy.
    + apply lasts_blind. unfold erase. apply blind_shrink_at.
    + apply lasts_blind. unfold erase_range. blinds. apply blind_shrink_at.
    + unfold resize. now apply lasts_resize.
    + now apply lasts_resize.
    + apply lasts_blind, blind_clear.
    + pose proof (lasts_assign (repeat v n) s) as L. rewrite repeat_length in L. exact L.
    + apply lasts_assign.
  - cbn [call built]. unfold no_answer. apply lasts_ret, lasts_blind, blind_reserve.
  - cbn [call built]. unfold no_answer. apply lasts_ret, lasts_blind, blind_shrink_to_fit.
  - cbn [call built]. unfold no_answer. apply lasts_ret, lasts_blind, blind_revert.
Qed.

Lemma call_enough (s : vec) (xs : list V) o k :
  holds SC s xs -> small_ok maxn xs o -> succeeds dflt xs o -> vfuse s = Some k -> built xs o <= k ->
  exists s',
    observe (call moved dflt SC RB maxn o s) = Some (s', snd (small_step dflt xs o)) /\
    holds SC s' (fst (small_step dflt xs o)) /\ vfuse s' = Some (k - built xs o).
Proof.
  intros H Hok Hs Hf Hk.
  destruct (call_spec moved dflt SC RB maxn HSC HRB Hmax (with_fuse None s) xs o H eq_refl Hok)
    as (s1 & E & H1 & F1).
  pose proof (call_lasts s xs o H Hok) as L.
  destruct (call moved dflt SC RB maxn o (with_fuse None s)) as [a s2|e s2| |] eqn:Ec;
    cbn [observe] in E; try discriminate.
  - assert (s2 = s1) by (destruct a; congruence). subst s2.
    specialize (L _ _ (k - built xs o) Ec).
    replace (built xs o + (k - built xs o)) with k in L by lia.
    pose proof (same_fuse _ _ Hf) as Es.
    exists (with_fuse (Some (k - built xs o)) s1). rewrite Es, L. cbn [observe].
    split; [|split; [exact H1|reflexivity]].
    destruct a as [p|]; injection E as <-; reflexivity.
  - exfalso. apply (Hs e). injection E as _ E. congruence.
Qed.

(** ** A constructor which throws *)
Lemma copy_loop_throw (l : list V) : forall bs vb0 e c db di (A B : list (slot V)) k,
  nth_error bs db = Some (Blk (A ++ repeat Raw (length l) ++ B)) -> di = length A ->
  k < length l ->
  copy_loop db di l (mkVec bs vb0 e c (Some k)) =
  Throw ElemThrow (mkVec (upd bs db (Blk (A ++ map Live (firstn k l) ++ repeat Raw (length l - k) ++ B)))
    vb0 e c None).
Proof.
  induction l as [|x l IH]; intros bs vb0 e c db di A B k H -> Hk; [cbn in Hk; lia|].
  cbn [copy_loop length]. cbn [length repeat app] in H.
  pose proof (nth_lt _ _ _ H) as L. destruct k as [|k].
  - cbn [firstn map app]. rewrite Nat.sub_0_r. cbn [repeat app].
    rewrite (upd_nth_id bs db) by exact H.
    apply bind_throw. unfold construct. apply bind_throw. reflexivity.
  - erewrite bind_ok.
    2:{ unfold construct. erewrite bind_ok by reflexivity. unfold with_fuse; cbn [blocks vb ve vcap].
        eapply begin_life_mid; eauto. }
    erewrite (IH _ _ _ _ _ _ (A ++ [Live x]) B k).
    + rewrite upd_upd_same, <- app_assoc. cbn [map app firstn]. reflexivity.
    + rewrite nth_error_upd_eq by exact L. rewrite <- app_assoc. reflexivity.
    + rewrite app_length. cbn. lia.
    + cbn in Hk. lia.
Qed.

Lemma insert_range_throw (s : vec) (xs : list V) pos l k :
  holds SC s xs -> vfuse s = Some k -> pos <= length xs -> room maxn (length xs + length l) ->
  k < length l ->
  exists s', insert_range moved SC RB maxn (Z.of_nat pos) l s = Throw ElemThrow s' /\ destructor s' = UB.
Proof.
  intros H Hf Hp Hr Hk.
  destruct (grow_at_spec moved SC RB maxn HSC HRB Hmax s xs pos (length l) H Hp Hr ltac:(lia))
    as (s1 & E & G1 & G2 & G3 & G4 & G5 & G6).
  unfold insert_range. erewrite bind_ok by exact E. rewrite bind_get.
  destruct s1 as [bs b e c f]. cbn [blocks vb ve vcap vfuse] in *. subst e f. rewrite Hf.
  pose proof G3 as (Hn & _). cbn [blocks vb] in Hn. unfold gapped in Hn.
  eexists. split.
  - apply bind_throw. eapply copy_loop_throw; [exact Hn| |exact Hk].
    rewrite map_length, firstn_length. lia.
  - unfold destructor. apply bind_ub. unfold destroy_all. rewrite bind_get. cbn [ve vb fst snd].
    rewrite Nat.eqb_refl.
    destruct (length l - k) as [|d] eqn:Ed; [lia|].
    eapply (destroy_from_raw SC RB maxn HSC HRB Hmax) with (A := []) (xs := firstn pos xs ++ firstn k l).
    + rewrite nth_error_upd_eq by (apply nth_error_Some; congruence).
      cbn [app]. rewrite map_app, <- app_assoc. cbn [repeat app]. reflexivity.
    + reflexivity.
    + rewrite app_length, !firstn_length. lia.
Qed.

Lemma insert_n_range pos n (v : V) s :
  insert_n moved SC RB maxn (Z.of_nat pos) (N.of_nat n) (CopyOf v) s =
  insert_range moved SC RB maxn (Z.of_nat pos) (repeat v n) s.
Proof.
  unfold insert_n, insert_range. rewrite repeat_length, Nat2N.id. unfold bind.
  destruct (grow_at moved SC RB maxn (Z.of_nat pos) (N.of_nat n) s) as [p s1| | |]; auto.
  cbn [get]. rewrite fill_loop_copies. reflexivity.
Qed.

Lemma resize_throw (s : vec) (xs : list V) n v k :
  holds SC s xs -> vfuse s = Some k -> room maxn n -> k < n - length xs ->
  exists s', resize_val moved SC RB maxn (N.of_nat n) (CopyOf v) s = Throw ElemThrow s' /\ destructor s' = UB.
Proof.
  intros H Hf Hr Hk.
  destruct (reserve_spec moved SC RB maxn HSC HRB Hmax s xs n H Hr) as (s1 & E & H1 & F1 & C1 & _).
  unfold resize_val. erewrite bind_ok by exact E.
  erewrite bind_ok by (apply msize_spec; apply H1). rewrite Nat2N.id.
  replace (length xs - n) with 0 by lia. cbn [cut_loop]. erewrite bind_ok by reflexivity.
  erewrite bind_ok by (apply msize_spec; apply H1).
  apply howns in H1. destruct H1 as (He & Hc & Hown).
  destruct s1 as [bs b e c f]. cbn [blocks vb ve vcap vfuse] in *. subst e. rewrite Hf in F1. subst f.
  pose proof Hown as (Hn & _). cbn [blocks vb] in Hn.
  eexists. split.
  - apply (CtorProofs.Sm.extend_throws SC RB maxn HSC HRB Hmax); [lia|exact Hk|exact Hn].
  - unfold destructor. apply bind_ub. unfold destroy_all. rewrite bind_get. cbn [ve vb fst snd].
    rewrite Nat.eqb_refl.
    destruct (c - (length xs + k)) as [|d] eqn:Ed; [lia|].
    eapply (destroy_from_raw SC RB maxn HSC HRB Hmax) with (A := []) (xs := xs ++ repeat v k).
    + rewrite nth_error_upd_eq by (apply nth_error_Some; congruence). unfold buf. cbn [app].
      rewrite app_length, repeat_length, Ed. cbn [repeat]. reflexivity.
    + reflexivity.
    + rewrite app_length, repeat_length. lia.
Qed.

Lemma in_place_dec (s : vec) n : in_place RB s n \/ (vcap s < n \/ (vb s <> 0 /\ n < RB)).
Proof. clear. unfold in_place. lia. Qed.

Lemma assign_throw (s : vec) (xs : list V) l k :
  holds SC s xs -> vfuse s = Some k -> room maxn (length l) -> k < length l ->
  exists s', assign_range SC RB maxn l s = Throw ElemThrow s' /\
    (in_place RB s (length l) -> holds SC s' (firstn k l)) /\
    (~ in_place RB s (length l) -> destructor s' = UB).
Proof.
  clear moved dflt. intros H Hf Hr Hk. destruct (in_place_dec s (length l)) as [Hi|Hi].
  - pose proof Hi as [Hc Hst].
    destruct (assign_throw_stay SC RB maxn HSC HRB Hmax s xs l k H Hf Hk Hc Hst) as (s' & E & H').
    exists s'. split; [exact E|]. split; [auto|tauto].
  - destruct (assign_throw_move SC RB maxn HSC HRB Hmax s xs l k H Hf Hk Hr Hi) as (s' & E & H').
    exists s'. split; [exact E|]. split; [unfold in_place; intros; exfalso; lia|auto].
Qed.

Lemma call_throws (s : vec) (xs : list V) o k :
  holds SC s xs -> small_ok maxn xs o -> succeeds dflt xs o -> vfuse s = Some k -> k < built xs o ->
  exists s', call moved dflt SC RB maxn o s = Throw ElemThrow s' /\ left_by SC RB s o k s'.
Proof.
  intros H Hok Hs Hf Hk. unfold left_by. destruct o as [o|n| |]; try (cbn in Hk; lia).
  assert (Hp : valid_pos xs o = true).
  { destruct (valid_pos xs o) eqn:E; [reflexivity|]. exfalso. apply (Hs OutOfRange).
    unfold small_step. now rewrite E. }
  destruct o as [v| |pos v|pos n v|pos l|pos|first last|n|n v| |n v|l];
    cbn [call built small_ok assigned valid_pos] in *; try lia; unfold no_answer, position_answer.
  - assert (k = 0) by lia. subst k.
    destruct (push_back_throw_ub moved SC RB maxn HSC HRB Hmax s xs v H Hf Hok) as (s' & E & U).
    exists s'. split; [now apply bind_throw|exact U].
  - assert (k = 0) by lia. subst k. apply Nat.leb_le in Hp.
    destruct (insert_throw_ub moved SC RB maxn HSC HRB Hmax s xs pos v H Hf Hp Hok) as (s' & E & U).
    exists s'. split; [now apply bind_throw|exact U].
  - apply Nat.leb_le in Hp. destruct Hok as [Hr _].
    destruct (insert_range_throw s xs pos (repeat v n) k H Hf Hp) as (s' & E & U);
      [now rewrite repeat_length|now rewrite repeat_length|].
    exists s'. split; [|exact U]. apply bind_throw. now rewrite insert_n_range.
  - apply Nat.leb_le in Hp. destruct Hok as [Hr _].
    destruct (insert_range_throw s xs pos l k H Hf Hp Hr Hk) as (s' & E & U).
    exists s'. split; [now apply bind_throw|exact U].
  - destruct (resize_throw s xs n dflt k H Hf Hok Hk) as (s' & E & U).
    exists s'. split; [now apply bind_throw|exact U].
  - destruct (resize_throw s xs n v k H Hf Hok Hk) as (s' & E & U).
    exists s'. split; [now apply bind_throw|exact U].
  - destruct (assign_throw s xs (repeat v n) k H Hf) as (s' & E & U);
      [now rewrite repeat_length|now rewrite repeat_length|].
    exists s'. split; [now apply bind_throw|exact U].
  - destruct (assign_throw s xs l k H Hf Hok Hk) as (s' & E & U).
    exists s'. split; [now apply bind_throw|exact U].
Qed.

(** ** Copy assignment *)
Lemma copy_assign_throw (a b : vec) xs ys k :
  holds SC a xs -> holds SC b ys -> vfuse a = Some k -> room maxn (length ys) -> k < length ys ->
  exists a', copy_assign SC RB maxn (a, b) = Throw ElemThrow (a', b) /\
    (in_place RB a (length ys) -> holds SC a' (firstn k ys)) /\
    (~ in_place RB a (length ys) -> destructor a' = UB).
Proof.
  clear moved dflt. intros Ha Hb Hf Hr Hk.
  destruct (assign_throw a xs ys k Ha Hf Hr Hk) as (a' & E & U).
  exists a'. split; [|exact U].
  destruct (destroy_all_spec SC RB maxn HSC HRB Hmax a xs Ha) as (a1 & E1 & _).
  unfold copy_assign. erewrite bind_ok by (apply onL_ok; exact E1).
  erewrite bind_ok by (apply onR_ok; exact (read_all_spec SC RB maxn HSC HRB Hmax b ys Hb)).
  unfold assign_range in E. erewrite bind_ok in E by exact E1. unfold onL. cbn [fst snd]. now rewrite E.
Qed.

End Proofs.

(** ** Exceptions other than those of constructors *)
Section Memory.
Context {V : Type}.
Variable moved : V -> V.
Variable dflt : V.
Variable SC RB : nat.
Variable maxn : N.
Notation vec := (@vec V).

(** [m] throws only before it has changed anything, or because a constructor threw. *)
Definition early {A} (m : M vec A) : Prop := forall s e s', m s = Throw e s' -> e <> ElemThrow -> s' = s.
(** [m] throws only because a constructor threw. *)
Definition late {A} (m : M vec A) : Prop := forall s e s', m s = Throw e s' -> e = ElemThrow.

Lemma late_bind {A B} (m : M vec A) (K : A -> M vec B) : late m -> (forall a, late (K a)) -> late (bind m K).
Proof.
  intros H1 H2 s e s' E. unfold bind in E. destruct (m s) as [a s1|e1 s1| |] eqn:E1; try discriminate.
  - exact (H2 _ _ _ _ E).
  - injection E as <- <-. exact (H1 _ _ _ E1).
Qed.
Lemma late_nothrow {A} (m : M vec A) : nothrow m -> late m.
Proof. intros H s e s' E. exfalso. exact (H _ _ _ E). Qed.
Lemma late_construct p x : late (@construct V p x).
Proof. intros s e s' E. eapply construct_throw. exact E. Qed.
Lemma late_copy b (l : list V) : forall i, late (copy_loop b i l).
Proof.
  induction l as [|v l IH]; intros i; cbn [copy_loop]; [apply late_nothrow, nothrow_ret|].
  apply late_bind; [apply late_construct|intros; apply IH].
Qed.
Lemma late_fill b x k : forall i, late (@fill_loop V b i x k).
Proof.
  induction k as [|k IH]; intros i; cbn [fill_loop]; [apply late_nothrow, nothrow_ret|].
  apply late_bind; [apply late_construct|intros; apply IH].
Qed.
Lemma late_extend x k : late (@extend_loop V k x).
Proof.
  induction k as [|k IH]; cbn [extend_loop]; [apply late_nothrow, nothrow_ret|].
  apply late_bind; [apply late_nothrow, nothrow_get|intros].
  apply late_bind; [apply late_nothrow, nothrow_set_end|intros].
  apply late_bind; [apply late_construct|intros; apply IH].
Qed.

Lemma early_bind {A B} (m : M vec A) (K : A -> M vec B) :
  early m -> (forall a, late (K a)) -> early (bind m K).
Proof.
  intros H1 H2 s e s' E Ne. unfold bind in E. destruct (m s) as [a s1|e1 s1| |] eqn:E1; try discriminate.
  - exfalso. apply Ne. exact (H2 _ _ _ _ E).
  - injection E as <- <-. exact (H1 _ _ _ E1 Ne).
Qed.
Lemma early_read {A B} (m : M vec A) (K : A -> M vec B) :
  early m -> (forall s a s1, m s = Ok a s1 -> s1 = s) -> (forall a, early (K a)) -> early (bind m K).
Proof.
  intros H1 H0 H2 s e s' E Ne. unfold bind in E. destruct (m s) as [a s1|e1 s1| |] eqn:E1; try discriminate.
  - rewrite (H0 _ _ _ E1) in *. exact (H2 _ _ _ _ E Ne).
  - injection E as <- <-. exact (H1 _ _ _ E1 Ne).
Qed.
Lemma early_late {A} (m : M vec A) : late m -> early m.
Proof. intros H s e s' E Ne. exfalso. exact (Ne (H _ _ _ E)). Qed.
Lemma late_msize : late (@msize V).
Proof. intros s e s'. unfold msize. destruct (_ =? _); discriminate. Qed.
Lemma msize_same (s : vec) a s1 : msize s = Ok a s1 -> s1 = s.
Proof. unfold msize. destruct (_ =? _); [|discriminate]. intros E. now injection E. Qed.
Lemma early_grow p n : early (grow_at moved SC RB maxn p n).
Proof. intros s e s' E _. now apply grow_at_throw in E. Qed.
Lemma early_choose d : early (@choose_data V SC RB maxn d).
Proof. intros s e s' E _. now apply choose_data_throw in E. Qed.
Lemma early_throw_if c e : early (@throw_if vec c e).
Proof. intros s e1 s'. unfold throw_if. destruct c; [|discriminate]. intros E _. now injection E. Qed.
Lemma throw_if_same c e (s : vec) a s1 : throw_if c e s = Ok a s1 -> s1 = s.
Proof. unfold throw_if. destruct c; [discriminate|]. intros E. now injection E. Qed.

Lemma nothrow_relocate db sb k : forall di si, nothrow (relocate_range moved db di sb si k).
Proof.
  induction k as [|k IH]; intros di si; cbn [relocate_range]; [apply nothrow_ret|].
  apply nothrow_bind; [apply nothrow_move_to|intros _].
  apply nothrow_bind; [apply nothrow_destroy|auto].
Qed.
Lemma nothrow_shrink_loop b k : forall p np, nothrow (shrink_loop moved b p np k).
Proof.
  induction k as [|k IH]; intros p np; cbn [shrink_loop]; [apply nothrow_ret|].
  apply nothrow_bind; [apply nothrow_destroy|intros _].
  apply nothrow_bind; [apply nothrow_move_to|auto].
Qed.
Lemma nothrow_transfer sb k : forall si, nothrow (shrink_transfer moved sb si k).
Proof.
  induction k as [|k IH]; intros si; cbn [shrink_transfer]; [apply nothrow_ret|].
  apply nothrow_bind; [apply nothrow_get|intros s].
  apply nothrow_bind; [apply nothrow_move_to|intros _].
  apply nothrow_bind; [apply nothrow_set_end|intros _].
  apply nothrow_bind; [apply nothrow_destroy|auto].
Qed.
Lemma nothrow_cut k : nothrow (@cut_loop V k).
Proof.
  induction k as [|k IH]; cbn [cut_loop]; [apply nothrow_ret|].
  apply nothrow_bind; [apply nothrow_get|intros s].
  apply nothrow_bind; [apply nothrow_set_end|intros _].
  apply nothrow_bind; [apply nothrow_destroy|auto].
Qed.
Lemma nothrow_ub {A} : nothrow (@ub vec A). Proof. intros s e s'. discriminate. Qed.
Ltac quietly :=
  repeat first
    [ apply nothrow_ret | apply nothrow_ub | apply nothrow_get | apply nothrow_set_end | apply nothrow_set_buf
    | apply nothrow_destroy_from | apply nothrow_move_range | apply nothrow_grow_loop
    | apply nothrow_relocate | apply nothrow_shrink_loop | apply nothrow_transfer | apply nothrow_cut
    | apply nothrow_dealloc
    | match goal with |- nothrow (bind _ _) => apply nothrow_bind; [|intros] end
    | match goal with |- nothrow (if ?c then _ else _) => destruct c end ].
Lemma nothrow_destroy_all : nothrow (@destroy_all V).
Proof. unfold destroy_all. quietly. Qed.
Lemma nothrow_clear : nothrow (@clear V SC RB).
Proof. unfold clear. apply nothrow_bind; [apply nothrow_destroy_all|intros]. quietly. Qed.

Lemma early_shrink p n : early (shrink_at moved SC RB maxn p n).
Proof.
  unfold shrink_at. apply early_read; [apply early_late, late_msize|apply msize_same|intros m].
  apply early_read; [apply early_throw_if|apply throw_if_same|intros _].
  apply early_read; [apply early_late, late_nothrow, nothrow_get|intros s a s1 E; now injection E|intros s].
  destruct (_ =? 0); [apply early_late, late_nothrow, nothrow_bind; [apply nothrow_clear|intros; apply nothrow_ret]|].
  apply early_bind; [apply early_choose|]. intros cdr. apply late_nothrow.
  destruct (fst cdr =? vb s); quietly.
Qed.
Lemma early_reserve n : early (reserve moved SC RB maxn n).
Proof. intros s e s' E _. eapply reserve_alloc_strong. exact E. Qed.
Lemma early_shrink_to_fit : early (shrink_to_fit moved SC maxn).
Proof.
  unfold shrink_to_fit. apply early_read; [apply early_late, late_msize|apply msize_same|intros m].
  apply early_read; [apply early_late, late_nothrow, nothrow_get|intros s a s1 E; now injection E|intros s].
  destruct (m =? vcap s); [apply early_late, late_nothrow, nothrow_ret|].
  destruct (is_static s); [apply early_late, late_nothrow, nothrow_ret|].
  apply early_bind; [|intros; apply late_nothrow; quietly].
  destruct (m <? SC); [apply early_late, late_nothrow, nothrow_set_buf|].
  apply early_bind; [|intros; apply late_nothrow; quietly].
  intros s1 e s' E _. unfold allocate in E. destruct (_ <? _)%N; [|discriminate]. now injection E.
Qed.
Lemma early_revert : early (revert_to_static moved SC maxn).
Proof.
  unfold revert_to_static. apply early_read; [apply early_late, late_msize|apply msize_same|intros m].
  apply early_read; [apply early_late, late_nothrow, nothrow_get|intros s a s1 E; now injection E|intros s].
  destruct (is_static s); [apply early_late, late_nothrow, nothrow_ret|].
  destruct (SC <? m); [apply early_late, late_nothrow, nothrow_ret|].
  apply early_bind; [apply early_shrink_to_fit|intros; apply late_nothrow, nothrow_ret].
Qed.

Lemma early_resize n x : early (resize_val moved SC RB maxn n x).
Proof.
  unfold resize_val. apply early_bind; [apply early_reserve|intros _].
  apply late_bind; [apply late_msize|intros m].
  apply late_bind; [apply late_nothrow, nothrow_cut|intros _].
  apply late_bind; [apply late_msize|intros m'; apply late_extend].
Qed.

Lemma call_early o : assigned o = None -> early (call moved dflt SC RB maxn o).
Proof.
  intros Ha. destruct o as [o|n| |].
  - destruct o as [v| |pos v|pos n v|pos l|pos|first last|n|n v| |n v|l];
      cbn [call assigned] in *; try discriminate; unfold no_answer, position_answer;
      (apply early_bind; [|intros; apply late_nothrow, nothrow_ret]).
    + intros s e s' E Ne. exact (push_back_alloc_strong moved SC RB maxn _ _ _ _ E Ne).
    + unfold pop_back. apply early_read; [apply early_late, late_msize|apply msize_same|intros m].
      apply early_bind; [apply early_shrink|intros; apply late_nothrow, nothrow_ret].
    + intros s e s' E Ne. exact (insert_alloc_strong moved SC RB maxn _ _ _ _ _ E Ne).
    + unfold insert_n. apply early_bind; [apply early_grow|intros p].
      apply late_bind; [apply late_nothrow, nothrow_get|intros s].
      apply late_bind; [apply late_fill|intros; apply late_nothrow, nothrow_ret].
    + unfold insert_range. apply early_bind; [apply early_grow|intros p].
      apply late_bind; [apply late_nothrow, nothrow_get|intros s].
      apply late_bind; [apply late_copy|intros; apply late_nothrow, nothrow_ret].
    + apply early_shrink.
    + unfold erase_range. apply early_read; [apply early_throw_if|apply throw_if_same|intros _]. apply early_shrink.
    + apply early_resize.
    + apply early_resize.
    + apply early_late, late_nothrow, nothrow_clear.
  - cbn [call]. apply early_bind; [apply early_reserve|intros; apply late_nothrow, nothrow_ret].
  - cbn [call]. apply early_bind; [apply early_shrink_to_fit|intros; apply late_nothrow, nothrow_ret].
  - cbn [call]. apply early_bind; [apply early_revert|intros; apply late_nothrow, nothrow_ret].
Qed.

Lemma nothrow_tick_free p (v : V) : late (construct p (CopyOf v)).
Proof. apply late_construct. Qed.

Lemma late_append (l : list V) : late (append_loop l).
Proof.
  induction l as [|v l IH]; cbn [append_loop]; [apply late_nothrow, nothrow_ret|].
  apply late_bind; [apply late_nothrow, nothrow_get|intros s].
  apply late_bind; [apply late_construct|intros _].
  apply late_bind; [apply late_nothrow, nothrow_get|intros s'].
  apply late_bind; [apply late_nothrow, nothrow_set_end|intros _; apply IH].
Qed.

Lemma assign_copy_early (l : list V) : early (assign_copy SC RB maxn l).
Proof.
  unfold assign_copy. apply early_bind; [apply early_choose|intros cdr].
  apply late_bind; [apply late_nothrow, nothrow_set_end|intros _].
  apply late_bind; [apply late_append|intros _].
  apply late_nothrow. quietly.
Qed.

Hypothesis HSC : 0 < SC.
Hypothesis HRB : RB <= SC + 1.
Hypothesis Hmax : (maxn < two63)%N.

Lemma assign_no_memory (s : vec) (xs : list V) l e s' :
  holds SC s xs -> assign_range SC RB maxn l s = Throw e s' -> e <> ElemThrow ->
  (xs = [] -> s' = s) /\ (xs <> [] -> destructor s' = UB).
Proof.
  intros H E Ne. pose proof H as (He & Hc & _).
  destruct (destroy_all_spec SC RB maxn HSC HRB Hmax s xs H) as (s1 & E1 & O & B1 & B2 & B3 & B4).
  unfold assign_range in E. erewrite bind_ok in E by exact E1.
  pose proof (assign_copy_early l s1 e s' E Ne) as ->. split.
  - intros ->. unfold destroy_all in E1. rewrite bind_get, He in E1. cbn [fst snd length] in E1.
    rewrite Nat.eqb_refl in E1. cbn [destroy_from] in E1. now injection E1.
  - intros Hx. unfold destructor. apply bind_ub. unfold destroy_all. rewrite bind_get.
    rewrite B2, He, B1. cbn [fst snd]. rewrite Nat.eqb_refl.
    destruct s1 as [bs b e1 c f]. cbn [blocks vb ve vcap vfuse] in *.
    destruct O as (Hn & _). cbn [blocks vb] in Hn.
    assert (Hl : 0 < length xs) by (destruct xs; [congruence|cbn; lia]).
    destruct (vcap s) as [|vc] eqn:Ev; [lia|].
    eapply (destroy_from_raw SC RB maxn HSC HRB Hmax) with (A := []) (xs := []) (B := repeat Raw vc).
    + rewrite <- B1. exact Hn.
    + reflexivity.
    + exact Hl.
Qed.

Lemma call_no_memory (s : vec) (xs : list V) o e s' :
  holds SC s xs -> call moved dflt SC RB maxn o s = Throw e s' -> e <> ElemThrow ->
  (assigned o = None \/ xs = [] -> s' = s) /\
  (assigned o <> None -> xs <> [] -> destructor s' = UB).
Proof.
  intros H E Ne. destruct (assigned o) as [l|] eqn:Ea.
  - assert (E' : assign_range SC RB maxn l s = Throw e s').
    { destruct o as [o| | |]; try discriminate. destruct o; try discriminate;
        cbn [assigned] in Ea; injection Ea as <-; cbn [call] in E; unfold no_answer, bind at 1 in E.
      - unfold assign_n in E. unfold assign_range.
        destruct ((destroy_all;;; assign_copy SC RB maxn (repeat v n)) s); try discriminate. injection E as <- <-. reflexivity.
      - destruct (assign_range SC RB maxn l0 s); try discriminate. injection E as <- <-. reflexivity. }
    destruct (assign_no_memory s xs l e s' H E' Ne) as [H1 H2].
    split; [intros [?|?]; [discriminate|auto]|auto].
  - split; [|congruence]. intros _. exact (call_early o Ea s e s' E Ne).
Qed.
End Memory.
