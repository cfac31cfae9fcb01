(** Proofs about PodMoreSpec. *)
From Coq Require Import List Arith NArith ZArith Bool Lia.
From Verif Require Import Base SeqSpec VecCommon SmallVectorModel SmallVectorProofs
  PodVectorModel PodVectorSpec PodVectorProofs PodMoreSpec.
Import ListNotations.

(** ** Blocks stay where they are *)
Definition addr_at (m : mem) (b : nat) : option N :=
  match nth_error (blks m) b with
  | Some (MBlk a _) | Some (MFreed a) => Some a
  | None => None
  end.
Definition steady {R} (f : M pst R) : Prop := forall s r s', f s = Ok r s' ->
  forall b a, addr_at (fst s) b = Some a -> addr_at (fst s') b = Some a.

Lemma steady_bind {R Q} (f : M pst R) (g : R -> M pst Q) :
  steady f -> (forall r, steady (g r)) -> steady (bind f g).
Proof.
  intros Hf Hg s q s' H b a Ha. unfold bind in H. destruct (f s) as [r s1| | |] eqn:E; try discriminate.
  eapply Hg; [exact H|]. eapply Hf; eauto.
Qed.
Lemma steady_same {R} (f : M pst R) : (forall s r s', f s = Ok r s' -> fst s' = fst s) -> steady f.
Proof. intros H s r s' E b a Ha. now rewrite (H _ _ _ E). Qed.
Lemma steady_ret {R} (r : R) : steady (ret r).
Proof. apply steady_same. now intros s r' s' [= _ <-]. Qed.
Lemma steady_ub {R} : steady (@ub pst R).
Proof. now intros s r s'. Qed.
Lemma steady_diverge {R} : steady (@diverge pst R).
Proof. now intros s r s'. Qed.
Lemma steady_get : steady get.
Proof. apply steady_same. now intros s r' s' [= _ <-]. Qed.
Lemma steady_mbegin : steady mbegin.
Proof. apply steady_same. unfold mbegin. intros s r' s' E. injection E. now intros <-. Qed.
Lemma steady_mend : steady mend.
Proof. apply steady_same. unfold mend. intros s r' s' E. injection E. now intros <-. Qed.
Lemma steady_mcap : steady mcap.
Proof. apply steady_same. unfold mcap. intros s r' s' E. injection E. now intros <-. Qed.
Lemma steady_set_begin p : steady (set_begin p).
Proof. apply steady_same. unfold set_begin. intros s r' s' E. injection E. now intros <-. Qed.
Lemma steady_set_pend p : steady (set_pend p).
Proof. apply steady_same. unfold set_pend. intros s r' s' E. injection E. now intros <-. Qed.
Lemma steady_set_cap p : steady (set_cap p).
Proof. apply steady_same. unfold set_cap. intros s r' s' E. injection E. now intros <-. Qed.
Lemma steady_read p n : steady (read_bytes p n).
Proof.
  apply steady_same. intros st r st'. unfold read_bytes. destruct p as [[b o]|]; [|discriminate].
  destruct (nth_error _ _) as [[]|]; try discriminate. destruct (_ <=? _); [|discriminate]. now intros [= _ <-].
Qed.
Lemma steady_padd p n : steady (padd p n).
Proof.
  apply steady_same. intros st r st'. unfold padd. destruct p as [[b o]|].
  - destruct (nth_error _ _) as [[]|]; try discriminate. destruct (_ <=? _)%N; [|discriminate]. now intros [= _ <-].
  - destruct (_ =? _)%N; [|discriminate]. now intros [= _ <-].
Qed.
Lemma steady_psize T : steady (psize T).
Proof.
  apply steady_same. intros st r st'. unfold psize.
  destruct (pb (snd st)) as [[b o]|] eqn:E, (pe (snd st)) as [[b' o']|]; try discriminate.
  - destruct ((b =? b') && (o <=? o'))%bool; [|discriminate]. now intros [= _ <-].
  - now intros [= _ <-].
Qed.
Lemma addr_at_upd bs k b x a : nth_error bs b <> None ->
  match x with MBlk a' _ | MFreed a' => addr_at (mkMem bs k) b = Some a' end ->
  forall k' b' , addr_at (mkMem bs k) b' = Some a -> addr_at (mkMem (upd bs b x) k') b' = Some a.
Proof.
  intros Hn Hx k' b' Ha. unfold addr_at in *. cbn [blks] in *.
  destruct (Nat.eq_dec b' b) as [->|Hne].
  - rewrite nth_error_upd_eq by (apply nth_error_Some; exact Hn).
    destruct x; congruence.
  - rewrite nth_error_upd_neq by auto. exact Ha.
Qed.
Lemma addr_at_app bs k l a k' b : addr_at (mkMem bs k) b = Some a -> addr_at (mkMem (bs ++ l) k') b = Some a.
Proof.
  unfold addr_at. cbn [blks]. intros H. rewrite nth_error_app1; [exact H|].
  apply nth_error_Some. intros E. now rewrite E in H.
Qed.
Lemma steady_write p l : steady (write_bytes p l).
Proof.
  intros [[bs k] v] r st'. unfold write_bytes. destruct p as [[b o]|]; [|discriminate]. cbn [fst blks].
  destruct (nth_error bs b) as [[a bytes|]|] eqn:E; try discriminate. destruct (_ <=? _); [|discriminate].
  intros [= _ <-] b' a' Ha. cbn [fst]. eapply addr_at_upd; [congruence| |exact Ha].
  unfold addr_at. cbn [blks]. now rewrite E.
Qed.
Lemma steady_malloc A n : steady (alloc_malloc A n).
Proof.
  intros [[bs k] v] r st'. unfold alloc_malloc. cbn [fst blks ncall].
  destruct (a_addr A k n); intros [= _ <-] b' a' Ha; cbn [fst]; [|exact Ha]. eapply addr_at_app, Ha.
Qed.
Lemma steady_free p : steady (alloc_free p).
Proof.
  intros [[bs k] v] r st'. unfold alloc_free. destruct p as [[b o]|]; [|now intros [= _ <-]]. cbn [fst blks].
  destruct o; [|discriminate].
  destruct (nth_error bs b) as [[a bytes|]|] eqn:E; try discriminate.
  intros [= _ <-] b' a' Ha. cbn [fst]. eapply addr_at_upd; [congruence| |exact Ha].
  unfold addr_at. cbn [blks]. now rewrite E.
Qed.
Lemma steady_realloc A p n : steady (alloc_realloc A p n).
Proof.
  destruct p as [[b o]|]; [|apply steady_malloc].
  intros [[bs k] v] r st'. unfold alloc_realloc. cbn [fst blks ncall]. destruct o; [|discriminate].
  destruct (nth_error bs b) as [[a bytes|]|] eqn:E; try discriminate.
  destruct (a_addr A k n); intros [= _ <-] b' a' Ha; cbn [fst]; [|exact Ha].
  eapply (addr_at_app _ k). eapply addr_at_upd; [congruence| |exact Ha].
  unfold addr_at. cbn [blks]. now rewrite E.
Qed.
Lemma steady_expand A p n : steady (alloc_expand A p n).
Proof.
  destruct p as [[b o]|]; [|apply steady_ub].
  intros [[bs k] v] r st'. unfold alloc_expand. cbn [fst blks ncall]. destruct o; [|discriminate].
  destruct (nth_error bs b) as [[a bytes|]|] eqn:E; try discriminate.
  destruct (a_grant A k); intros [= _ <-] b' a' Ha; cbn [fst]; [|exact Ha].
  eapply addr_at_upd; [congruence| |exact Ha]. unfold addr_at. cbn [blks]. now rewrite E.
Qed.

Ltac steady_step := first
  [ simple apply steady_ret | simple apply steady_ub | simple apply steady_diverge | simple apply steady_get
  | simple apply steady_mbegin | simple apply steady_mend | simple apply steady_mcap
  | simple apply steady_set_begin | simple apply steady_set_pend | simple apply steady_set_cap
  | simple apply steady_read | simple apply steady_padd | simple apply steady_psize | simple apply steady_write
  | simple apply steady_malloc | simple apply steady_free | simple apply steady_realloc | simple apply steady_expand
  | simple apply steady_bind; [|intros ?]
  | match goal with |- steady (match ?x with _ => _ end) => destruct x end ].
Ltac steady_all := repeat steady_step.

Section Steady.
Variable A : alc.
Variable T : ety.
Lemma steady_memmove d s n : steady (memmove d s n).
Proof. unfold memmove. steady_all. Qed.
Lemma steady_memcpy d s n : steady (memcpy d s n).
Proof. unfold memcpy, memmove. steady_all. Qed.
Lemma steady_real_addr p : steady (real_addr A T p).
Proof. unfold real_addr. steady_all. Qed.
Lemma steady_a_malloc n : steady (a_malloc A T n).
Proof. unfold a_malloc, align_ptr. steady_all. Qed.
Lemma steady_a_free : steady (a_free_begin A T).
Proof. unfold a_free_begin. steady_all. apply steady_real_addr. Qed.
Lemma steady_a_realloc n : steady (a_realloc_begin A T n).
Proof. unfold a_realloc_begin. steady_all; first [apply steady_a_malloc|apply steady_memcpy|apply steady_a_free]. Qed.
Lemma steady_a_expand n : steady (a_expand_begin A T n).
Proof. unfold a_expand_begin. steady_all. apply steady_real_addr. Qed.
Lemma steady_new_capacity n : steady (get_new_capacity n).
Proof. unfold get_new_capacity. steady_all. Qed.
Lemma steady_malloc_copy n s : steady (malloc_copy A T n s).
Proof. unfold malloc_copy. steady_all; first [apply steady_a_malloc|apply steady_memcpy|apply steady_a_free]. Qed.
Lemma steady_end_at n : steady (end_at T n).
Proof. unfold end_at. steady_all. Qed.
Lemma steady_pfill k : forall p x, steady (pfill T p k x).
Proof. induction k as [|k IH]; intros p x; cbn [pfill]; unfold value_of; steady_all; apply IH. Qed.
End Steady.

Lemma addr_steady {R} (f : M pst R) m v r m' v' b o : steady f -> f (m, v) = Ok r (m', v') ->
  b < length (blks m) -> addr_of (Some (b, o)) m' = addr_of (Some (b, o)) m.
Proof.
  intros Hf E Hb. destruct (nth_error (blks m) b) as [x|] eqn:En; [|apply nth_error_None in En; lia].
  assert (exists a, addr_at m b = Some a) as (a & Ha).
  { unfold addr_at. rewrite En. destruct x; eauto. }
  pose proof (Hf _ _ _ E b a Ha) as Ha'. cbn [fst] in Ha'. unfold addr_at, addr_of in *.
  destruct (nth_error (blks m) b) as [[]|], (nth_error (blks m') b) as [[]|]; congruence.
Qed.

Lemma moved_iff old m v :
  forall r s, begin_changed old (m, v) = Ok r s -> s = (m, v) /\ (r = true <-> addr_of (pb v) m <> addr_of old m).
Proof.
  intros r s [= <- <-]. split; [reflexivity|].
  destruct (N.eqb_spec (addr_of old m) (addr_of (pb v) m)) as [e|ne]; cbn; split; congruence.
Qed.

Section Facts.
Variable A : alc.
Variable T : ety.
Hypothesis HT : ety_ok T.
Notation holds := (pod_holds A T).

Lemma holds_begin_in bs v xs b o : holds bs v xs -> pb v = Some (b, o) -> b < length bs.
Proof.
  intros (_ & rest & Hb & _) E. unfold PodVectorSpec.buf in Hb. rewrite E in Hb.
  destruct Hb as (a & pre & Hn & _). apply nth_error_Some. congruence.
Qed.
Lemma begin_steady {R} (f : M pst R) bs k v xs r m' v' : steady f -> holds bs v xs ->
  f (mkMem bs k, v) = Ok r (m', v') -> addr_of (pb v) m' = addr_of (pb v) (mkMem bs k).
Proof.
  intros Hf Hh E. destruct (pb v) as [[b o]|] eqn:Ep; [|reflexivity].
  eapply addr_steady; eauto. eapply holds_begin_in; eauto.
Qed.

Lemma preserve_moves bs k v xs n r m' v' : holds bs v xs ->
  preserve A T n (mkMem bs k, v) = Ok r (m', v') ->
  (r = true <-> addr_of (pb v') m' <> addr_of (pb v) (mkMem bs k)).
Proof.
  intros Hh E.
  assert (steady (preserve A T n)) as St.
  { unfold preserve, begin_changed.
    steady_all; first [apply steady_new_capacity|apply steady_a_malloc|apply steady_a_expand
      |apply steady_malloc_copy|apply steady_a_realloc|apply steady_end_at]. }
  rewrite <- (begin_steady _ _ _ _ _ _ _ _ St Hh E).
  unfold preserve in E. unfold mcap at 1 in E. unfold bind at 1 in E. cbn [snd] in E.
  destruct (_ <=? _)%N.
  { injection E as <- <- <-. split; congruence. }
  unfold mbegin at 1 in E. unfold bind at 1 in E. cbn [snd] in E.
  apply bind_inv in E. destruct E as (c & s1 & _ & E).
  apply bind_inv in E. destruct E as (s & s2 & _ & E).
  apply bind_inv in E. destruct E as (u & s3 & _ & E).
  apply bind_inv in E. destruct E as (u' & [m4 v4] & _ & E).
  destruct (moved_iff _ _ _ _ _ E) as ([= -> ->] & K). exact K.
Qed.

Lemma shrink_moves bs k v xs r m' v' : holds bs v xs ->
  (pb v <> None -> addr_of (pb v) (mkMem bs k) <> 0%N) ->
  pshrink_to_fit A T (mkMem bs k, v) = Ok r (m', v') ->
  (r = true <-> addr_of (pb v') m' <> addr_of (pb v) (mkMem bs k)).
Proof.
  intros Hh Hnn E.
  assert (steady (pshrink_to_fit A T)) as St.
  { unfold pshrink_to_fit, begin_changed.
    steady_all; first [apply steady_new_capacity|apply steady_a_malloc|apply steady_a_expand
      |apply steady_malloc_copy|apply steady_a_realloc|apply steady_end_at|apply steady_a_free|apply steady_memcpy]. }
  rewrite <- (begin_steady _ _ _ _ _ _ _ _ St Hh E) in *. 
  destruct (holds_parts A T HT _ _ _ Hh) as (rest & Hx & Hb & He & Hc & Hl & Hlen & Hn0 & Hc0).
  unfold pshrink_to_fit in E. erewrite bind_ok in E by (apply (psize_spec T HT _ _ (length xs)); auto).
  unfold mcap at 1 in E. unfold bind at 1 in E. cbn [snd] in E.
  destruct (Nat.eqb_spec (length xs) (pcap v)) as [e|ne].
  { injection E as <- <- <-. split; congruence. }
  destruct (Nat.eqb_spec (length xs) 0) as [e0|ne0].
  { apply bind_inv in E. destruct E as (u & [m1 v1] & _ & E).
    injection E as <- <- <-. cbn [pb addr_of fst].
    assert (pb v <> None) as Hp by (intros Ep; apply ne; rewrite Hc0; auto). specialize (Hnn Hp).
    split; auto. }
  unfold mbegin at 1 in E. unfold bind at 1 in E. cbn [snd] in E.
  apply bind_inv in E. destruct E as (u & s3 & _ & E).
  apply bind_inv in E. destruct E as (u' & [m4 v4] & _ & E).
  destruct (moved_iff _ _ _ _ _ E) as ([= -> ->] & K). exact K.
Qed.
End Facts.

Section Moves.
Variable A : alc.
Variable T : ety.
Hypothesis HT : ety_ok T.
Hypothesis HA : alc_ok A.
Notation holds := (pod_holds A T).

Lemma reserve_tells bs k v xs n : holds bs v xs -> room T n ->
  tells_moves (preserve A T (N.of_nat n)) (mkMem bs k) v.
Proof.
  intros Hh Hr. destruct (preserve_spec A T HT HA bs k v xs n Hh Hr) as (r & bs' & k' & v' & E & _).
  exists r, (mkMem bs' k'), v'. split; [exact E|]. eapply preserve_moves; eauto.
Qed.
Lemma shrink_tells bs k v xs : holds bs v xs -> room T (length xs) ->
  (pb v <> None -> addr_of (pb v) (mkMem bs k) <> 0%N) ->
  tells_moves (pshrink_to_fit A T) (mkMem bs k) v.
Proof.
  intros Hh Hr Hn. destruct (pshrink_to_fit_spec A T HT HA bs k v xs Hh Hr) as (r & bs' & k' & v' & E & _).
  exists r, (mkMem bs' k'), v'. split; [exact E|]. eapply shrink_moves; eauto.
Qed.

(** After preserve, the rest of resize neither moves m_begin nor any block. *)
Lemma tail_tells (g : bool -> M pst bool) bs k v xs n r0 m1 v1 r m' v' :
  holds bs v xs -> preserve A T n (mkMem bs k, v) = Ok r0 (m1, v1) ->
  steady (g r0) -> keeps_begin (g r0) -> (forall s q s', g r0 s = Ok q s' -> q = r0) ->
  (forall b o, pb v1 = Some (b, o) -> b < length (blks m1)) ->
  g r0 (m1, v1) = Ok r (m', v') ->
  (r = true <-> addr_of (pb v') m' <> addr_of (pb v) (mkMem bs k)).
Proof.
  intros Hh E Hst Hk Hq Hin Eg. pose proof (preserve_moves A T bs k v xs n r0 m1 v1 Hh E) as K.
  pose proof (Hk _ _ _ Eg) as Kb. cbn [snd] in Kb. pose proof (Hq _ _ _ Eg) as ->. rewrite Kb.
  replace (addr_of (pb v1) m') with (addr_of (pb v1) m1); [exact K|].
  destruct (pb v1) as [[b o]|] eqn:Ep; [|reflexivity]. symmetry. eapply addr_steady; eauto.
Qed.
Lemma keeps_pfill x k : forall p, keeps_begin (pfill T p k x).
Proof.
  induction k as [|k IH]; intros p; cbn [pfill]; [apply keeps_ret|].
  apply keeps_bind; [unfold value_of; destruct x; [apply keeps_ret|apply keeps_read]|intros ?].
  apply keeps_bind; [apply keeps_write|intros ?]. apply keeps_bind; [apply keeps_padd|intros ?]. apply IH.
Qed.
Lemma keeps_end_at n : keeps_begin (end_at T n).
Proof. unfold end_at. apply keeps_bind; [apply keeps_mbegin|intros ?]. apply keeps_bind; [apply keeps_padd|intros ?]. apply keeps_set_pend. Qed.
Lemma bind_ret_last {R} (f : M pst R) (r0 : bool) s q s' : (f ;;; ret r0) s = Ok q s' -> q = r0.
Proof. intros H. apply bind_inv in H. destruct H as (u & s1 & _ & [= <- _]). reflexivity. Qed.

Lemma resize_tells bs k v xs n : holds bs v xs -> room T n ->
  tells_moves (presize A T (N.of_nat n)) (mkMem bs k) v.
Proof.
  intros Hh Hr. destruct (presize_spec A T HT HA bs k v xs n Hh Hr) as (r & bs' & k' & v' & new & E & _).
  exists r, (mkMem bs' k'), v'. split; [exact E|].
  destruct (preserve_spec A T HT HA bs k v xs n Hh Hr) as (r0 & bs1 & k1 & v1 & E1 & Hh1 & _).
  unfold presize in E. erewrite bind_ok in E by exact E1.
  eapply (tail_tells (fun r0 => let* s := psize T in let* e := mend in
    (if (N.of_nat s <? N.of_nat n)%N && a_zero A then memset0 e (e2b T (N.of_nat n - N.of_nat s)) else ret tt) ;;;
    end_at T (N.of_nat n) ;;; ret r0)); [exact Hh|exact E1| | | | |exact E].
  - unfold memset0. steady_all. apply steady_end_at.
  - apply keeps_bind; [apply keeps_psize|intros ?]. apply keeps_bind; [apply keeps_mend|intros ?].
    apply keeps_bind; [destruct (_ && _); [apply keeps_write|apply keeps_ret]|intros ?].
    apply keeps_bind; [apply keeps_end_at|intros ?]. apply keeps_ret.
  - intros s q s' H. apply bind_inv in H. destruct H as (? & ? & _ & H).
    apply bind_inv in H. destruct H as (? & ? & _ & H). apply bind_inv in H. destruct H as (? & ? & _ & H).
    eapply bind_ret_last, H.
  - intros b o Hb. eapply holds_begin_in; eauto.
Qed.
Lemma resize_val_tells bs k v x n : holds bs v [] -> is_elem T x -> room T n ->
  exists r m' v', presize_val A T (N.of_nat n) (Val x) (mkMem bs k, v) = Ok r (m', v').
Proof.
  intros Hh Hx Hr. destruct (presize_val_spec A T HT HA bs k v [] n x Hh Hx Hr) as (r0 & bs1 & k1 & v1 & E1 & K).
  destruct (preserve_spec A T HT HA bs k v [] n Hh Hr) as (r1 & bs2 & k2 & v2 & E2 & Hh2 & _ & Hcap & _).
  rewrite E1 in E2. injection E2 as <- <- <- <-.
  destruct (K Hcap) as (bs' & v' & E & _). eauto.
Qed.
End Moves.

(** ** Calls which need no memory *)
Definition quiet {R} (f : M pst R) : Prop := forall s r s', f s = Ok r s' ->
  ncall (fst s') = ncall (fst s) /\ pcap (snd s') = pcap (snd s) /\ pb (snd s') = pb (snd s).
(** Where [f] and [g] do the same, without the allocator. *)
Definition alike {R} (f g : M pst R) (s : pst) : Prop :=
  f s = g s /\ forall r s', f s = Ok r s' ->
    ncall (fst s') = ncall (fst s) /\ pcap (snd s') = pcap (snd s) /\ pb (snd s') = pb (snd s).

Lemma alike_quiet {R} (f : M pst R) s : quiet f -> alike f f s.
Proof. intros H. split; [reflexivity|]. intros. eapply H; eauto. Qed.
Lemma alike_bind {R Q} (f f' : M pst R) (g g' : R -> M pst Q) s :
  alike f f' s -> (forall r s', f s = Ok r s' -> alike (g r) (g' r) s') -> alike (bind f g) (bind f' g') s.
Proof.
  intros (E & Hq) Hg. unfold bind. split.
  - rewrite <- E. destruct (f s) as [r s1| | |] eqn:Ef; auto. apply (Hg r s1 eq_refl).
  - intros q s' H. destruct (f s) as [r s1| | |] eqn:Ef; try discriminate.
    destruct (Hq _ _ eq_refl) as (a & b & c). destruct (Hg r s1 eq_refl) as (_ & K).
    destruct (K _ _ H) as (a' & b' & c'). repeat split; congruence.
Qed.
Lemma quiet_bind {R Q} (f : M pst R) (g : R -> M pst Q) : quiet f -> (forall r, quiet (g r)) -> quiet (bind f g).
Proof.
  intros Hf Hg s q s' H. apply bind_inv in H. destruct H as (r & s1 & E & E2).
  destruct (Hf _ _ _ E) as (a & b & c), (Hg _ _ _ _ E2) as (a' & b' & c'). repeat split; congruence.
Qed.
Lemma quiet_same {R} (f : M pst R) : (forall s r s', f s = Ok r s' -> s' = s) -> quiet f.
Proof. intros H s r s' E. now rewrite (H _ _ _ E). Qed.
Lemma quiet_ret {R} (r : R) : quiet (ret r).
Proof. apply quiet_same. now intros s r' s' [= _ <-]. Qed.
Lemma quiet_ub {R} : quiet (@ub pst R).
Proof. now intros s r s'. Qed.
Lemma quiet_mbegin : quiet mbegin.
Proof. apply quiet_same. unfold mbegin. intros s r' s' E. injection E. now intros <-. Qed.
Lemma quiet_mend : quiet mend.
Proof. apply quiet_same. unfold mend. intros s r' s' E. injection E. now intros <-. Qed.
Lemma quiet_mcap : quiet mcap.
Proof. apply quiet_same. unfold mcap. intros s r' s' E. injection E. now intros <-. Qed.
Lemma quiet_set_pend p : quiet (set_pend p).
Proof. unfold set_pend. intros s r' s' E. injection E. now intros <-. Qed.
Lemma quiet_read p n : quiet (read_bytes p n).
Proof.
  apply quiet_same. intros st r st'. unfold read_bytes. destruct p as [[b o]|]; [|discriminate].
  destruct (nth_error _ _) as [[]|]; try discriminate. destruct (_ <=? _); [|discriminate]. now intros [= _ <-].
Qed.
Lemma quiet_padd p n : quiet (padd p n).
Proof.
  apply quiet_same. intros st r st'. unfold padd. destruct p as [[b o]|].
  - destruct (nth_error _ _) as [[]|]; try discriminate. destruct (_ <=? _)%N; [|discriminate]. now intros [= _ <-].
  - destruct (_ =? _)%N; [|discriminate]. now intros [= _ <-].
Qed.
Lemma quiet_psize T : quiet (psize T).
Proof.
  apply quiet_same. intros st r st'. unfold psize.
  destruct (pb (snd st)) as [[b o]|] eqn:E, (pe (snd st)) as [[b' o']|]; try discriminate.
  - destruct ((b =? b') && (o <=? o'))%bool; [|discriminate]. now intros [= _ <-].
  - now intros [= _ <-].
Qed.
Lemma quiet_write p l : quiet (write_bytes p l).
Proof.
  intros st r st'. unfold write_bytes. destruct p as [[b o]|]; [|discriminate].
  destruct (nth_error _ b) as [[a bytes|]|] eqn:E; try discriminate. destruct (_ <=? _); [|discriminate].
  intros [= _ <-]. auto.
Qed.
Ltac quiet_step := first
  [ simple apply quiet_ret | simple apply quiet_ub | simple apply quiet_mbegin | simple apply quiet_mend | simple apply quiet_mcap
  | simple apply quiet_set_pend | simple apply quiet_read | simple apply quiet_padd | simple apply quiet_psize | simple apply quiet_write
  | simple apply quiet_bind; [|intros ?]
  | match goal with |- quiet (match ?x with _ => _ end) => destruct x end ].
Ltac quiet_all := repeat quiet_step.
Lemma quiet_pfill T k : forall p x, quiet (pfill T p k x).
Proof. induction k as [|k IH]; intros p x; cbn [pfill]; unfold value_of; quiet_all; apply IH. Qed.
Lemma quiet_end_at T n : quiet (end_at T n).
Proof. unfold end_at. quiet_all. Qed.
Lemma quiet_pclear : quiet pclear.
Proof. unfold pclear. quiet_all. Qed.
Lemma quiet_copy p l : quiet (copy_not_aliased p l).
Proof. unfold copy_not_aliased. quiet_all. Qed.
Lemma quiet_memmove d s n : quiet (memmove d s n).
Proof. unfold memmove. quiet_all. Qed.
Lemma quiet_shrink_at T o n : quiet (pshrink_at T o n).
Proof. unfold pshrink_at, pclear. quiet_all; [apply quiet_memmove|apply quiet_end_at]. Qed.

(** An allocator like [A] which always has memory. *)
Definition generous (A : alc) : alc :=
  mkAlc (a_align A) (a_has_expand A) (a_wasteful A) (a_zero A) (fun _ _ => Some 0%N) (a_junk A) (a_grant A).
Lemma generous_ok A : (exists k, a_align A = 2 ^ k) -> alc_ok (generous A).
Proof.
  intros Hp. split; [exact Hp|]. intros call size _. exists 0%N. split; [reflexivity|].
  apply N.mod_0_l. cbn [a_align generous]. destruct Hp as (k & ->). pose proof (Nat.pow_nonzero 2 k). lia.
Qed.

Section Within.
Variable A : alc.
Variable T : ety.
Hypothesis HT : ety_ok T.
Notation A1 := (generous A).
Notation holds := (pod_holds A T).

Lemma alike_preserve n m v : (n <= N.of_nat (pcap v))%N -> alike (preserve A T n) (preserve A1 T n) (m, v).
Proof.
  intros H. assert (forall B, preserve B T n (m, v) = Ok false (m, v)) as K.
  { intros B. unfold preserve. unfold mcap at 1. unfold bind at 1. cbn [snd]. now rewrite (proj2 (N.leb_le _ _)) by exact H. }
  split; [now rewrite !K|]. rewrite K. now intros r s' [= _ <-].
Qed.
Lemma alike_safe_grow n m v : (n <= N.of_nat (pcap v))%N -> alike (safe_grow A T n) (safe_grow A1 T n) (m, v).
Proof.
  intros H. assert (forall B, safe_grow B T n (m, v) = Ok tt (m, v)) as K.
  { intros B. unfold safe_grow. unfold mcap at 1. unfold bind at 1. cbn [snd]. now rewrite (proj2 (N.leb_le _ _)) by exact H. }
  split; [now rewrite !K|]. rewrite K. now intros r s' [= _ <-].
Qed.
Lemma alike_presize n m v : (n <= N.of_nat (pcap v))%N -> alike (presize A T n) (presize A1 T n) (m, v).
Proof.
  intros H. unfold presize. apply alike_bind; [now apply alike_preserve|]. intros r s _. apply alike_quiet.
  unfold memset0. quiet_all. apply quiet_end_at.
Qed.
Lemma alike_presize_val n x m v : (n <= N.of_nat (pcap v))%N -> alike (presize_val A T n x) (presize_val A1 T n x) (m, v).
Proof.
  intros H. unfold presize_val. apply alike_bind; [now apply alike_preserve|]. intros r s _. apply alike_quiet.
  quiet_all; [apply quiet_pfill|apply quiet_end_at].
Qed.
Lemma small_sum n c : n <= c -> (N.of_nat c < two64)%N -> (N.of_nat n mod two64 <= N.of_nat c)%N.
Proof. intros. rewrite N.mod_small; lia. Qed.

Lemma alike_grow_at off num bs k v xs : holds bs v xs ->
  length xs + num <= pcap v -> (N.of_nat (length xs + num) < two64)%N ->
  alike (pgrow_at A T off (N.of_nat num)) (pgrow_at A1 T off (N.of_nat num)) (mkMem bs k, v).
Proof.
  intros Hh Hc H64. destruct (holds_parts A T HT _ _ _ Hh) as (rest & Hx & Hb & He & Hcc & Hl & Hlen & Hn0 & Hc0).
  assert ((N.of_nat (length xs) + N.of_nat num) mod two64 <= N.of_nat (pcap v))%N as Hle.
  { rewrite N.mod_small by lia. lia. }
  unfold pgrow_at. apply alike_bind; [apply alike_quiet, quiet_psize|]. intros r s Er.
  rewrite (psize_spec T HT (mkMem bs k) v (length xs) He Hn0) in Er. injection Er as <- <-.
  apply alike_bind.
  - destruct (off =? length xs).
    + apply alike_bind; [now apply alike_presize|]. intros. apply alike_quiet, quiet_ret.
    + apply alike_bind; [apply alike_quiet, quiet_mcap|]. intros c s Ec. unfold mcap in Ec. cbn [snd] in Ec.
      injection Ec as <- <-. rewrite (proj2 (N.ltb_ge _ _)) by exact Hle. apply alike_quiet.
      quiet_all. apply quiet_memmove.
  - intros u s _. apply alike_quiet. quiet_all. apply quiet_end_at.
Qed.

Lemma alike_emplace bs k v xs : holds bs v xs ->
  length xs + 1 <= pcap v -> (N.of_nat (length xs + 1) < two64)%N ->
  alike (pemplace_back A T) (pemplace_back A1 T) (mkMem bs k, v).
Proof.
  intros Hh Hc H64. destruct (holds_parts A T HT _ _ _ Hh) as (rest & Hx & Hb & He & Hcc & Hl & Hlen & Hn0 & Hc0).
  unfold pemplace_back. apply alike_bind; [apply alike_quiet, quiet_psize|]. intros r s Er.
  rewrite (psize_spec T HT (mkMem bs k) v (length xs) He Hn0) in Er. injection Er as <- <-.
  apply alike_bind; [apply alike_preserve; rewrite N.mod_small by lia; lia|]. intros. apply alike_quiet. quiet_all.
Qed.

Lemma alike_answer {R} (f g : M pst R) s : alike f g s -> alike (no_answer f) (no_answer g) s.
Proof. intros H. unfold no_answer. apply alike_bind; [exact H|]. intros. apply alike_quiet, quiet_ret. Qed.
Lemma alike_position (f g : M pst nat) s : alike f g s -> alike (position_answer f) (position_answer g) s.
Proof. intros H. unfold position_answer. apply alike_bind; [exact H|]. intros. apply alike_quiet, quiet_ret. Qed.

Lemma room_64 n : room T n -> (N.of_nat n < two64)%N.
Proof.
  unfold room. intros H. destruct HT as (H1 & _). pose proof (N.le_0_l (N.of_nat n / 2)).
  assert (N.of_nat n <= (N.of_nat n + N.of_nat n / 2) * N.of_nat (esz T))%N by nia.
  unfold two63, two64 in *. lia.
Qed.

Lemma alike_call early o bs k v xs : holds bs v xs -> pod_ok T xs o -> within (pcap v) xs o ->
  alike (pcall A T early o) (pcall A1 T early o) (mkMem bs k, v).
Proof.
  intros Hh Hok Hw.
  destruct o as [[x| |pos x|pos n x|pos l|pos|first last|n|n x| |n x|l]| |n|]; cbn [pod_ok within] in Hok, Hw; cbn [pcall].
  - destruct Hok as (_ & Hr). apply room_64 in Hr.
    pose proof (alike_emplace bs k v xs Hh Hw Hr) as Ha. apply alike_answer. unfold ppush_back, value_of.
    destruct early.
    + apply alike_bind; [apply alike_quiet, quiet_ret|]. intros r s [= _ <-].
      apply alike_bind; [exact Ha|]. intros. apply alike_quiet, quiet_write.
    + apply alike_bind; [exact Ha|]. intros. apply alike_quiet. quiet_all.
  - apply alike_answer, alike_quiet. unfold ppop_back. quiet_all. apply quiet_shrink_at.
  - destruct Hok as (_ & _ & Hr). apply room_64 in Hr. apply alike_position. unfold pinsert1, value_of.
    apply alike_bind; [apply (alike_grow_at pos 1 bs k v xs); auto|]. intros. apply alike_quiet. quiet_all.
  - destruct Hok as (_ & _ & Hr). apply room_64 in Hr. apply alike_position. unfold pinsert_n.
    apply alike_bind; [apply (alike_grow_at pos n bs k v xs); auto|]. intros. apply alike_quiet. quiet_all. apply quiet_pfill.
  - destruct Hok as (_ & _ & Hr). apply room_64 in Hr. apply alike_position. unfold pinsert_range.
    apply alike_bind; [apply (alike_grow_at pos (length l) bs k v xs); auto|]. intros. apply alike_quiet. quiet_all. apply quiet_copy.
  - apply alike_position, alike_quiet, quiet_shrink_at.
  - apply alike_position, alike_quiet, quiet_shrink_at.
  - apply alike_answer, alike_presize. lia.
  - apply alike_answer, alike_presize_val. lia.
  - apply alike_answer, alike_quiet, quiet_pclear.
  - apply alike_answer. unfold passign_fill. apply alike_bind; [apply alike_safe_grow; lia|]. intros.
    apply alike_quiet. quiet_all; [apply quiet_pfill|apply quiet_end_at].
  - apply alike_answer. unfold passign_copy. apply alike_bind; [apply alike_safe_grow; lia|]. intros.
    apply alike_quiet. quiet_all; [apply quiet_copy|apply quiet_end_at].
  - apply room_64 in Hok. apply alike_answer. eapply alike_emplace; eauto.
  - apply alike_answer, alike_preserve. lia.
  - apply alike_answer. unfold pshrink_to_fit.
    destruct (holds_parts A T HT _ _ _ Hh) as (rest & Hx & Hb & He & Hcc & Hl & Hlen & Hn0 & Hc0).
    apply alike_bind; [apply alike_quiet, quiet_psize|]. intros r s Er.
    rewrite (psize_spec T HT (mkMem bs k) v (length xs) He Hn0) in Er. injection Er as <- <-.
    apply alike_bind; [apply alike_quiet, quiet_mcap|]. intros c s Ec. unfold mcap in Ec. cbn [snd] in Ec.
    injection Ec as <- <-. rewrite Hw, Nat.eqb_refl. apply alike_quiet, quiet_ret.
Qed.

Hypothesis Hpow : exists k, a_align A = 2 ^ k.

Lemma step_generous xs o xs' r : pod_step A1 T xs o xs' r -> pod_step A T xs o xs' r.
Proof.
  intros H. destruct H as [o dflt Hn|n new Hl Hf Hz|x Hx|n|].
  - now apply step_seq.
  - apply step_resize; auto.
  - now apply step_emplace_back.
  - apply step_reserve.
  - apply step_shrink.
Qed.

Lemma within_call early o bs k v xs : holds bs v xs -> pod_ok T xs o -> within (pcap v) xs o ->
  exists r bs' v' xs', pcall A T early o (mkMem bs k, v) = Ok r (mkMem bs' k, v') /\
    pod_step A T xs o xs' (answer r) /\ holds bs' v' xs' /\ pcap v' = pcap v /\ pb v' = pb v.
Proof.
  intros Hh Hok Hw. destruct (alike_call early o bs k v xs Hh Hok Hw) as (E & K).
  destruct (pcall_spec A1 T HT (generous_ok A Hpow) early o bs k v xs Hh Hok)
    as (r & bs' & k' & v' & xs' & E1 & S1 & H1 & _).
  rewrite E1 in E. destruct (K _ _ E) as (Hk & Hc & Hp). cbn [fst snd ncall] in *. subst k'.
  exists r, bs', v', xs'. split; [exact E|]. split; [now apply step_generous|]. auto.
Qed.

Lemma within_history early os : forall bs k v xs, holds bs v xs -> within_along A T (pcap v) xs os ->
  exists bs' v' xs' rs, run_calls (pcall A T early) (mkMem bs k, v) os = Some ((mkMem bs' k, v'), rs) /\
    one_history A T xs os xs' rs /\ holds bs' v' xs' /\ pcap v' = pcap v /\ pb v' = pb v.
Proof.
  induction os as [|o os IH]; intros bs k v xs Hh Al.
  - exists bs, v, xs, []. split; [reflexivity|]. split; [constructor|]. auto.
  - destruct Al as ((Hok & Hw) & Al).
    destruct (within_call early o bs k v xs Hh Hok Hw) as (r & bs1 & v1 & xs1 & E & S1 & H1 & Hc & Hp).
    specialize (Al _ _ S1). rewrite <- Hc in Al.
    destruct (IH bs1 k v1 xs1 H1 Al) as (bs2 & v2 & xs2 & rs & E2 & S2 & H2 & Hc2 & Hp2).
    exists bs2, v2, xs2, (answer r :: rs). split; [|split; [|split; [exact H2|split; congruence]]].
    + cbn [run_calls]. rewrite E. destruct r; cbn; now rewrite E2.
    + econstructor; eauto.
Qed.
End Within.

(** ** No memory, or not enough *)
Section Fail.
Variable A : alc.
Variable T : ety.
Hypothesis HT : ety_ok T.
Notation holds := (pod_holds A T).

Lemma memcpy_null src n s : memcpy None src n s = UB.
Proof.
  unfold memcpy. cbn [overlap]. unfold memmove, bind, read_bytes.
  destruct src as [[b o]|]; [|reflexivity]. destruct (nth_error _ _) as [[]|]; try reflexivity.
  destruct (_ <=? _); reflexivity.
Qed.
Lemma malloc_denied c bs k v : a_addr A k (request A T c) = None ->
  a_malloc A T c (mkMem bs k, v) = Ok None (mkMem bs (S k), v).
Proof.
  unfold request, a_malloc, alloc_malloc. destruct (allocator_aligned A T); intros E.
  - cbn [fst snd blks ncall]. now rewrite E.
  - unfold bind at 1. cbn [fst snd blks ncall]. now rewrite E.
Qed.
Lemma end_at_null n m v : pb v = None -> (0 < n)%N -> end_at T n (m, v) = UB.
Proof.
  intros E Hn. unfold end_at, mbegin, bind. cbn [snd]. rewrite E. unfold padd.
  destruct HT as (H1 & _). destruct (N.eqb_spec (n * N.of_nat (esz T)) 0) as [e|ne]; [nia|reflexivity].
Qed.

Lemma fresh_reserve n m : (0 < n)%N ->
  preserve A T n (m, init_pv) =
  ((let* p := a_malloc A T n in set_begin p ;;; set_cap (N.to_nat n)) ;;; end_at T 0 ;;; begin_changed None) (m, init_pv).
Proof.
  intros Hn. unfold preserve. unfold mcap at 1. unfold bind at 1. cbn [snd init_pv pcap].
  rewrite (proj2 (N.leb_gt n (N.of_nat 0))) by lia.
  unfold mbegin at 1. unfold bind at 1. cbn [snd init_pv pb].
  unfold get_new_capacity. unfold mcap at 1. unfold bind at 2. unfold bind at 1. cbn [snd init_pv pcap Nat.eqb]. unfold ret at 1.
  unfold psize. unfold bind at 1. cbn [snd init_pv pb pe].
  replace (a_wasteful A <? e2b T (N.of_nat (0 - 0)))%N with false.
  2:{ symmetry. apply N.ltb_ge. unfold e2b. cbn [Nat.sub N.of_nat]. rewrite N.mul_0_l, N.mod_0_l by discriminate. lia. }
  destruct (a_has_expand A); [reflexivity|].
  unfold a_realloc_begin, mbegin. 
  unfold bind at 1. unfold bind at 1. symmetry. unfold bind at 1. unfold bind at 1. symmetry.
  unfold bind at 1. cbn [snd init_pv pb alloc_realloc].
  unfold a_malloc. destruct (allocator_aligned A T).
  - unfold bind. change (mkPv None None 0) with init_pv. destruct (alloc_malloc A (e2b T n) (m, init_pv)) as [p [m' v']| | |]; reflexivity.
  - unfold bind. change (mkPv None None 0) with init_pv.
    destruct (alloc_malloc A _ (m, init_pv)) as [p [m' v']| | |]; [|reflexivity..].
    destruct (align_ptr T p (m', v')) as [p' [m2 v2]| | |]; reflexivity.
Qed.

Lemma reserve_denied n bs k : (0 < n)%N -> a_addr A k (request A T n) = None ->
  preserve A T n (mkMem bs k, init_pv) = Ok false (mkMem bs (S k), mkPv None None (N.to_nat n)).
Proof.
  intros Hn E. rewrite fresh_reserve by exact Hn.
  unfold bind. rewrite (malloc_denied n bs k init_pv E). reflexivity.
Qed.
Lemma push_denied early x m c : 0 < c -> ppush_back A T early (Val x) (m, mkPv None None c) = UB.
Proof.
  intros Hc. assert (pemplace_back A T (m, mkPv None None c) = UB) as K.
  { unfold pemplace_back. unfold psize. unfold bind at 1. cbn [snd pb pe].
    unfold preserve. unfold mcap at 1. unfold bind at 2. unfold bind at 1. cbn [snd pcap].
    rewrite N.mod_small by reflexivity. rewrite (proj2 (N.leb_le _ _)) by lia. unfold ret at 1.
    unfold mend. unfold bind at 1. cbn [snd pe]. unfold bind, padd. destruct HT as (H1 & _).
    destruct (N.eqb_spec (N.of_nat (esz T)) 0); [lia|reflexivity]. }
  unfold ppush_back, value_of. destruct early.
  - unfold bind at 1, ret. unfold bind. now rewrite K.
  - unfold bind. now rewrite K.
Qed.

Hypothesis Hno : forall call size, a_addr A call size = None.
Hypothesis Hnx : forall call, a_grant A call = false.

Lemma expand_denied n m v ok s : a_expand_begin A T n (m, v) = Ok ok s -> ok = false /\ snd s = v /\ blks (fst s) = blks m.
Proof.
  unfold a_expand_begin. intros E. apply bind_inv in E. destruct E as (b & s1 & E1 & E).
  unfold mbegin in E1. cbn [snd] in E1. injection E1 as <- <-.
  apply bind_inv in E. destruct E as (ok1 & s2 & E1 & E).
  assert (forall p z s ok s', alloc_expand A p z s = Ok ok s' -> ok = false /\ snd s' = snd s /\ blks (fst s') = blks (fst s)) as K.
  { intros [[b o]|] z s0 ok0 s0'; [|discriminate]. unfold alloc_expand. destruct o; [|discriminate].
    destruct (nth_error _ _) as [[]|]; try discriminate. rewrite Hnx. intros [= <- <-]. auto. }
  assert (ok1 = false /\ snd s2 = v /\ blks (fst s2) = blks m) as (-> & Hs & Hm).
  { destruct (allocator_aligned A T).
    - now apply K in E1.
    - apply bind_inv in E1. destruct E1 as (p & s3 & E3 & E1). apply K in E1.
      assert (s3 = (m, v)) as ->; [|exact E1].
      unfold real_addr in E3. destruct (allocator_aligned A T); [now injection E3 as _ <-|].
      destruct (pb v) as [[b [|o]]|]; [discriminate| |now injection E3 as _ <-].
      apply bind_inv in E3. destruct E3 as (l & s4 & E4 & E3).
      assert (s4 = (m, v)) as ->.
      { unfold read_bytes in E4. destruct (nth_error _ _) as [[]|]; try discriminate.
        destruct (_ <=? _); [|discriminate]. now injection E4 as _ <-. }
      destruct l as [|off [|]]; try discriminate. destruct (_ <=? _); [|discriminate]. now injection E3 as _ <-. }
  injection E as <- <-. auto.
Qed.

Lemma grow_denied bs k v xs n : holds bs v xs -> xs <> [] -> pcap v < n -> room T n ->
  preserve A T (N.of_nat n) (mkMem bs k, v) = UB.
Proof.
  intros Hh Hne Hlt Hr.
  destruct (holds_parts A T HT _ _ _ Hh) as (rest & Hx & Hb & He & Hcc & Hl & Hlen & Hn0 & Hc0).
  assert (0 < length xs) as Hpos by (destruct xs; [congruence|cbn; lia]).
  unfold preserve. unfold mcap at 1. unfold bind at 1. cbn [snd].
  rewrite (proj2 (N.leb_gt _ _)) by lia. unfold mbegin at 1. unfold bind at 1. cbn [snd].
  destruct (get_new_capacity_spec T HT (mkMem bs k) v n Hlt Hr) as (c & Eg & Hc1 & Hc2).
  erewrite bind_ok by exact Eg.
  erewrite bind_ok by (apply (psize_spec T HT _ _ (length xs)); auto).
  assert (forall m, malloc_copy A T c (length xs) (m, v) = UB) as Kcopy.
  { intros [bs1 k1]. unfold malloc_copy.
    erewrite bind_ok by (apply malloc_denied; apply Hno).
    unfold mbegin at 1. unfold bind at 1. cbn [snd].
    rewrite (proj2 (Nat.eqb_neq (length xs) 0)) by lia.
    unfold bind at 1. erewrite bind_ok by (apply (psize_spec T HT _ _ (length xs)); auto).
    now rewrite memcpy_null. }
  destruct (a_has_expand A) eqn:Ex.
  - destruct (pb v) as [p|] eqn:Ep.
    + pose proof (room_lt T n c Hr Hc2) as Hfit.
      destruct (expand_spec A T bs k v (concat xs ++ rest) (length xs) c)
        as (ok & bs' & k' & v' & E & Hok); auto; try lia; [congruence|].
      destruct (expand_denied _ _ _ _ _ E) as (-> & _). destruct Hok as (-> & ->).
      unfold bind at 1. erewrite bind_ok by exact E. now rewrite Kcopy.
    + specialize (Hn0 eq_refl). lia.
  - destruct (_ <? _)%N; [unfold bind at 1; now rewrite Kcopy|].
    unfold a_realloc_begin. rewrite bind_assoc. unfold mbegin at 1. unfold bind at 1. cbn [snd]. rewrite bind_assoc.
    destruct (allocator_aligned A T) eqn:Eal.
    + rewrite bind_assoc. unfold alloc_realloc. destruct (pb v) as [[b o]|] eqn:Ep; [|specialize (Hn0 eq_refl); lia].
      unfold bind at 1. cbn [fst snd blks ncall]. destruct o; [|reflexivity].
      destruct (nth_error bs b) as [[a bytes|]|]; try reflexivity. rewrite Hno.
      unfold set_begin, set_cap. unfold bind at 1. unfold bind at 1. cbn [fst snd pb pe pcap].
      unfold bind. rewrite end_at_null; [reflexivity|reflexivity|lia].
    + rewrite bind_assoc. erewrite bind_ok by (apply malloc_denied; apply Hno).
      destruct (pb v) as [p|] eqn:Ep; [|specialize (Hn0 eq_refl); lia]. rewrite !bind_assoc.
      erewrite bind_ok by (apply (psize_spec T HT _ _ (length xs)); rewrite ?Ep; auto).
      unfold bind at 1. unfold bind at 1. now rewrite memcpy_null.
Qed.

(** A vector without elements but with a buffer. *)
Lemma leak_denied bs k v b o n : holds bs v [] -> pb v = Some (b, o) -> pcap v < n -> room T n ->
  a_has_expand A = false -> allocator_aligned A T = true -> (e2b T (N.of_nat (pcap v)) <= a_wasteful A)%N ->
  exists r k' v' a bytes,
    preserve A T (N.of_nat n) (mkMem bs k, v) = Ok r (mkMem bs k', v') /\
    owner v' = None /\ pdestructor A T (mkMem bs k', v') = Ok tt (mkMem bs k', v') /\
    nth_error bs b = Some (MBlk a bytes).
Proof.
  intros Hh Ep Hlt Hr Hx Hal Hw.
  destruct (holds_parts A T HT _ _ _ Hh) as (rest & _ & Hb & He & Hcc & Hl & Hlen & Hn0 & Hc0).
  pose proof Hb as Hb'. unfold PodVectorSpec.buf in Hb'. rewrite Ep in Hb'.
  destruct Hb' as (a & pre & Hnth & -> & Hhd). unfold header in Hhd. rewrite Hal in Hhd.
  destruct Hhd as ((-> & _) & _). cbn [length app] in *.
  destruct (get_new_capacity_spec T HT (mkMem bs k) v n Hlt Hr) as (c & Eg & Hc1 & Hc2).
  exists (negb (a =? 0)%N), (S k), (mkPv None None (N.to_nat c)). do 2 eexists.
  split; [|split; [reflexivity|split; [|exact Hnth]]].
  - unfold preserve. unfold mcap at 1. unfold bind at 1. cbn [snd].
    rewrite (proj2 (N.leb_gt _ _)) by lia. unfold mbegin at 1. unfold bind at 1. cbn [snd].
    erewrite bind_ok by exact Eg.
    erewrite bind_ok by (apply (psize_spec T HT _ _ 0); auto).
    rewrite Hx, Nat.sub_0_r, (proj2 (N.ltb_ge _ _)) by exact Hw.
    unfold a_realloc_begin. rewrite bind_assoc. unfold mbegin at 1. unfold bind at 1. cbn [snd]. rewrite bind_assoc.
    rewrite Hal, Ep, bind_assoc. unfold alloc_realloc. unfold bind at 1. cbn [fst snd blks ncall]. rewrite Hnth, Hno.
    unfold set_begin, set_cap. unfold bind at 1. unfold bind at 1. cbn [fst snd pb pe pcap].
    unfold end_at, mbegin, padd, set_pend. unfold bind at 2. unfold bind at 2. unfold bind at 1. cbn [fst snd pb pe pcap N.of_nat N.mul N.eqb].
    unfold begin_changed, get, bind, ret. cbn [fst snd addr_of blks pb]. rewrite Hnth. now rewrite N.add_0_r.
  - unfold pdestructor, a_free_begin, mbegin, bind. cbn [snd pb]. rewrite Hal. reflexivity.
Qed.
End Fail.

(** ** Byte counts beyond 64 bits *)
Section Wrap.
Variable A : alc.
Variable T : ety.
Hypothesis HT : ety_ok T.
Hypothesis HA : alc_ok A.
Notation SZ := (esz T).
Notation AL := (eal T).

(** a_malloc knows the number of elements only as a number of bytes. *)
Definition bytes_of : ety := mkEty 1 AL.
Lemma bytes_ok : ety_ok bytes_of.
Proof. destruct HT as (_ & H). split; [cbn; lia|exact H]. Qed.
Lemma e2b_lt n : (e2b T n < two64)%N.
Proof. unfold e2b. apply N.mod_lt. discriminate. Qed.
Lemma malloc_bytes n s : a_malloc A T n s = a_malloc A bytes_of (e2b T n) s.
Proof.
  unfold a_malloc, allocator_aligned. cbn [eal bytes_of].
  replace (e2b bytes_of (e2b T n)) with (e2b T n); [reflexivity|].
  unfold e2b at 2. cbn [esz bytes_of]. rewrite N.mul_1_r. symmetry. apply N.mod_small, e2b_lt.
Qed.

Section Big.
Variable n : N.
Hypothesis Hbig : (two64 <= n * N.of_nat SZ)%N.
Hypothesis Hwrap : (e2b T n + N.of_nat AL < two63)%N.

Lemma big_pos : (0 < n)%N.
Proof. unfold two64 in Hbig. destruct n; lia. Qed.

Lemma malloc_small bs k v : exists a pre bytes k',
  a_malloc A T n (mkMem bs k, v) = Ok (Some (length bs, length pre)) (mkMem (bs ++ [MBlk a (pre ++ bytes)]) k', v) /\
  header A T a pre /\ (N.of_nat (length (pre ++ bytes)) < two63)%N.
Proof.
  destruct (a_malloc_spec A bytes_of bytes_ok HA bs k v (e2b T n)) as (a & pre & bytes & k' & E & Hh & Hb).
  { cbn [esz eal bytes_of]. now rewrite N.mul_1_r. }
  exists a, pre, bytes, k'. rewrite malloc_bytes. split; [exact E|]. split; [exact Hh|].
  pose proof (a_malloc_len A bytes_of bs k v (e2b T n) _ _ _ _ _ ltac:(cbn [esz eal bytes_of]; now rewrite N.mul_1_r) E) as L.
  cbn [esz eal bytes_of] in L. rewrite L. destruct (allocator_aligned A bytes_of); lia.
Qed.

Lemma reserve_wraps bs k : exists r m' v',
  preserve A T n (mkMem bs k, init_pv) = Ok r (m', v') /\ N.of_nat (pcap v') = n /\ ~ storage_ok A T m' v'.
Proof.
  destruct (malloc_small bs k init_pv) as (a & pre & bytes & k' & E & Hh & Hl).
  eexists _, _, (mkPv (Some (length bs, length pre)) (Some (length bs, length pre)) (N.to_nat n)). split; [|split].
  - rewrite fresh_reserve by apply big_pos. rewrite bind_assoc. erewrite bind_ok by exact E.
    unfold set_begin, set_cap. rewrite bind_assoc. unfold bind at 1. unfold bind at 1. cbn [fst snd init_pv pb pe pcap].
    unfold end_at, mbegin. rewrite bind_assoc. unfold bind at 1. cbn [snd pb]. rewrite bind_assoc.
    unfold padd. unfold bind at 1. cbn [fst blks]. rewrite nth_error_app_mid by reflexivity.
    rewrite (proj2 (N.leb_le _ _)) by (rewrite app_length; lia). cbn [N.mul N.to_nat]. rewrite Nat.add_0_r.
    unfold set_pend. unfold bind at 1. cbn [fst snd pb pe pcap]. reflexivity.
  - cbn [pcap]. apply N2Nat.id.
  - unfold storage_ok. cbn [pb pcap blks]. rewrite nth_error_app_mid by reflexivity.
    intros (a' & b' & [= <- <-] & _ & K & _). unfold two63, two64 in *. lia.
Qed.

Lemma assign_wraps bs k x : is_elem T x -> passign_fill A T n (Val x) (mkMem bs k, init_pv) = UB.
Proof.
  intros Hx. pose proof big_pos as Hpos.
  destruct (malloc_small bs k (mkPv None None (N.to_nat n))) as (a & pre & nb & k' & E & Hh & Hl).
  unfold passign_fill, safe_grow. rewrite bind_assoc.
  unfold mcap at 1. unfold bind at 1. cbn [snd init_pv pcap].
  rewrite (proj2 (N.leb_gt _ _)) by lia. rewrite bind_assoc.
  erewrite bind_ok by (apply free_init). rewrite bind_assoc.
  unfold get_new_capacity. unfold mcap at 1. unfold bind at 2. unfold bind at 1. cbn [snd init_pv pcap Nat.eqb].
  unfold ret at 1. rewrite bind_assoc. unfold set_cap at 1. unfold bind at 1. cbn [fst snd].
  rewrite bind_assoc. erewrite bind_ok by exact E.
  unfold set_begin, set_pend. unfold bind at 2. unfold bind at 1. cbn [fst snd pcap pb pe].
  unfold mbegin at 1. unfold bind at 1. cbn [snd pb].
  set (v1 := mkPv (Some (length bs, length pre)) (Some (length bs, length pre)) (N.to_nat n)).
  replace (Some (length bs, length pre)) with (after_begin v1 0) by (unfold after_begin; cbn; now rewrite Nat.add_0_r).
  unfold bind. rewrite (pfill_over A T HT v1 x (N.to_nat n) Hx _ k' [] nb 0); auto.
  - exists a, pre. cbn [app]. split; [apply nth_error_app_mid; reflexivity|]. auto.
  - discriminate.
  - rewrite app_length in Hl. unfold two63, two64 in *. lia.
Qed.
End Big.
End Wrap.

(** ** Equality *)
Section Equal.
Variable A : alc.
Variable T : ety.
Hypothesis HT : ety_ok T.

Lemma pnequal_negb s : pnequal T s = (let* r := pequal T in ret (negb r)) s.
Proof.
  unfold pnequal, pequal, bind.
  destruct (on_a (psize T) s) as [n s1| | |]; try reflexivity.
  destruct (on_b (psize T) s1) as [k s2| | |]; try reflexivity.
  destruct (negb (n =? k)); [reflexivity|]. destruct (n =? 0); [reflexivity|].
  destruct (on_a mbegin s2) as [a s3| | |]; try reflexivity.
  destruct (on_b mbegin s3) as [b s4| | |]; try reflexivity.
  destruct (on_a (read_bytes a _) s4) as [x s5| | |]; try reflexivity.
  destruct (on_b (read_bytes b _) s5) as [y s6| | |]; try reflexivity.
  now destruct (list_eq_dec N.eq_dec x y).
Qed.

Lemma both_equal bs k a b xs ys : pod_holds A T bs a xs -> pod_holds A T bs b ys -> room T (length xs) ->
  exists r, pequal T (mkMem bs k, (a, b)) = Ok r (mkMem bs k, (a, b)) /\
    pnequal T (mkMem bs k, (a, b)) = Ok (negb r) (mkMem bs k, (a, b)) /\ (r = true <-> xs = ys).
Proof.
  intros Ha Hb Hr. destruct (pequal_spec A T HT bs k a b xs ys Ha Hb Hr) as (r & E & K).
  exists r. split; [exact E|]. split; [|exact K]. rewrite pnequal_negb. now erewrite bind_ok by exact E.
Qed.

Lemma std_equal_eq (eqT : list N -> list N -> bool) xs : Forall (is_elem T) xs -> forall ys, Forall (is_elem T) ys ->
  (forall x y, is_elem T x -> is_elem T y -> (eqT x y = true <-> x = y)) ->
  (std_equal eqT xs ys = true <-> xs = ys).
Proof.
  intros Hx. induction Hx as [|x xs H _ IH]; intros ys Hy He; destruct Hy as [|y ys H' Hy]; cbn [std_equal]; try (split; congruence).
  rewrite andb_true_iff, (He x y H H'), (IH ys Hy He). split; [now intros (-> & ->)|intros [= -> ->]; auto].
Qed.
End Equal.

Lemma resize_val_moves A T (HT : ety_ok T) (HA : alc_ok A) bs k v xs x n r m' v' :
  pod_holds A T bs v xs -> room T n ->
  presize_val A T (N.of_nat n) (Val x) (mkMem bs k, v) = Ok r (m', v') ->
  (r = true <-> addr_of (pb v') m' <> addr_of (pb v) (mkMem bs k)).
Proof.
  intros Hh Hr E.
  destruct (preserve_spec A T HT HA bs k v xs n Hh Hr) as (r0 & bs1 & k1 & v1 & E1 & Hh1 & _).
  unfold presize_val in E. erewrite bind_ok in E by exact E1.
  eapply (tail_tells A T (fun r0 => let* e := mend in pfill T e (N.to_nat (N.of_nat n)) (Val x) ;;; end_at T (N.of_nat n) ;;; ret r0));
    [exact Hh|exact E1| | | | |exact E].
  - steady_all; [apply steady_pfill|apply steady_end_at].
  - apply keeps_bind; [apply keeps_mend|intros ?]. apply keeps_bind; [apply keeps_pfill|intros ?].
    apply keeps_bind; [apply keeps_end_at|intros ?]. apply keeps_ret.
  - intros s q s' H. apply bind_inv in H. destruct H as (? & ? & _ & H).
    apply bind_inv in H. destruct H as (? & ? & _ & H). eapply bind_ret_last, H.
  - intros b o Hb. eapply holds_begin_in; eauto.
Qed.
