(** itlib::small_vector as the buffer of dynamic_bitset. *)
From Coq Require Import List Arith NArith ZArith Bool Lia.
From Verif Require Import Base SeqSpec VecCommon SmallVectorModel SmallVectorSpec SmallVectorProofs
  SmallFlatModel SmallFlatProofs BitsetModel BitsetSpec BitsetBufModel BitsetBufSpec.
From Verif Require FlatProofs.
Import ListNotations.
Open Scope nat_scope.
Local Notation vholds := SmallVectorSpec.holds.
Local Notation vec := (@SmallVectorModel.vec N).

Section Inst.
Variable W SC RB : nat.
Variable maxn : N.
Hypothesis HSC : 0 < SC.
Hypothesis HRB : RB <= SC + 1.
Hypothesis Hmax : (maxn < two63)%N.

Notation B := (small_buffers SC RB maxn).
Notation sroom := (SmallVectorSpec.room maxn).
Notation keep := (fun w : N => w).

Definition srel (v : vec) (l : list N) : Prop := vholds SC v l /\ vfuse v = None /\ words_ok W l.
Definition srep (st : list vec) (ls : list (list N)) : Prop := Forall2 srel st ls.

Lemma srep_get st ls i l : srep st ls -> nth_error ls i = Some l -> exists v, nth_error st i = Some v /\ srel v l.
Proof. intros H. revert i. induction H as [|v k st ls R H IH]; intros [|i] E; cbn in *; try discriminate; [injection E as <-; eauto|eauto]. Qed.
Lemma srep_upd st ls i v l : srep st ls -> srel v l -> srep (upd st i v) (upd ls i l).
Proof. intros H R. revert i. induction H as [|x k st ls Q H IH]; intros [|i]; cbn; constructor; auto. apply IH. Qed.

Lemma one_look {R} (m : M vec R) st ls i l r : srep st ls -> nth_error ls i = Some l ->
  (forall v, srel v l -> m v = Ok r v) -> on_one m i st = Ok r st.
Proof.
  intros H E K. destruct (srep_get _ _ _ _ H E) as (v & Ev & Hv).
  unfold on_one. rewrite Ev, (K v Hv). now rewrite upd_nth_id.
Qed.
Lemma one_call {R} (m : M vec R) st ls i l r k : srep st ls -> nth_error ls i = Some l ->
  (forall v, srel v l -> exists v', m v = Ok r v' /\ srel v' k) ->
  exists st', on_one m i st = Ok r st' /\ srep st' (upd ls i k).
Proof.
  intros H E K. destruct (srep_get _ _ _ _ H E) as (v & Ev & Hv). destruct (K v Hv) as (v' & G & Hv').
  unfold on_one. rewrite Ev, G. eexists. split; [reflexivity|]. now apply srep_upd.
Qed.
Lemma no_answer_inv (m : M vec unit) s s' r : observe (no_answer m s) = Some (s', RNone) -> r = tt -> m s = Ok r s'.
Proof.
  intros H ->. unfold no_answer, bind in H. destruct (m s) as [[] s1|e s1| |]; cbn in H; try discriminate.
  injection H as ->. reflexivity.
Qed.
Lemma temporary (make : M vec unit) (use : M (vec * vec) unit) st ls i l k :
  srep st ls -> nth_error ls i = Some l -> words_ok W k ->
  (exists t, make (init_vec SC) = Ok tt t /\ vholds SC t k) ->
  (forall a t, srel a l -> vholds SC t k -> exists a' t' x, use (a, t) = Ok tt (a', t') /\ vholds SC a' k /\ vfuse a' = None /\ vholds SC t' x) ->
  exists st', small_temporary SC make use i st = Ok tt st' /\ srep st' (upd ls i k).
Proof.
  intros H E Hk (t & M1 & Ht) Hu. destruct (srep_get _ _ _ _ H E) as (v & Ev & Hv).
  destruct (Hu v t Hv Ht) as (a' & t' & x & U & Ha & Fa & Ht'). destruct (destructor_spec SC RB maxn HSC HRB Hmax t' x Ht') as (t2 & D & _).
  unfold small_temporary. rewrite Ev. erewrite bind_ok by (apply onR_ok; exact M1).
  erewrite bind_ok by exact U. erewrite onR_ok by exact D.
  eexists. split; [reflexivity|]. apply srep_upd; auto. split; auto.
Qed.
Lemma upd_kept {X} (l : list X) i j x y : i <> j -> nth_error l j = Some y -> upd (upd l i x) j y = upd l i x.
Proof. intros D E. apply upd_nth_id. now rewrite nth_error_upd_neq. Qed.

Lemma buffers_ok_small : buffers_ok W B sroom srep.
Proof.
  constructor.
  - intros st ls l H K. apply In_nth_error in K. destruct K as (i & K).
    destruct (srep_get _ _ _ _ H K) as (v & _ & _ & _ & Q). exact Q.
  - intros st ls i l H E. cbn [f_size small_buffers]. eapply one_look; eauto. intros v (Hv & _).
    apply msize_spec. apply Hv.
  - intros st ls i l k w H E K. cbn [f_get small_buffers]. eapply one_look; eauto. intros v (Hv & _).
    eapply at_spec; eauto.
  - intros st ls i l k w H E K L. cbn [f_put small_buffers]. eapply one_call; eauto. intros v (Hv & Fv & Wv).
    destruct (put_ok SC v l k w Hv K) as (v' & G & H' & F'). exists v'. split; auto. split; auto. split; [congruence|].
    intros x Hx. apply In_nth_error in Hx. destruct Hx as (q & Hq). destruct (Nat.eq_dec k q) as [<-|D].
    + rewrite nth_error_upd_eq in Hq by auto. injection Hq as <-. exact L.
    + rewrite nth_error_upd_neq in Hq by auto. apply Wv. eapply nth_error_In; eauto.
  - intros st ls i l n H E L. cbn [f_resize small_buffers]. eapply one_call; eauto. intros v (Hv & Fv & Wv).
    destruct (call_spec keep 0%N SC RB maxn HSC HRB Hmax v l (Seq (Resize n)) Hv Fv L) as (v' & G & H' & F').
    cbn [call small_step valid_pos spec_step fits fst snd] in G, H'.
    apply no_answer_inv with (r := tt) in G; auto. exists v'. split; auto. split; auto. split; auto.
    intros x Hx. apply in_app_or in Hx. destruct Hx as [Hx|Hx].
    + apply Wv. rewrite <- (firstn_skipn n l). apply in_or_app. now left.
    + apply repeat_spec in Hx. subst x. apply N.neq_0_lt_0, N.pow_nonzero. lia.
  - intros st ls i j l k H D E J NE L. cbn [f_append small_buffers]. rewrite (proj2 (Nat.eqb_neq _ _) D).
    erewrite bind_ok by (eapply one_look with (r := k); eauto; intros v (Hv & _); now apply (read_all_spec SC RB maxn HSC HRB Hmax)).
    erewrite bind_ok by (eapply one_look with (r := length l); eauto; intros v (Hv & _); apply msize_spec; apply Hv).
    destruct (srep_get _ _ _ _ H J) as (u & _ & _ & _ & Wk).
    destruct (one_call (SmallVectorModel.insert_range keep SC RB maxn (Z.of_nat (length l)) k) st ls i l (length l) (l ++ k) H E) as (st' & G & R').
    { intros v (Hv & Fv & Wv).
      destruct (insert_range_spec keep SC RB maxn HSC HRB Hmax v l (length l) k Hv Fv (le_n _) L) as (v' & G & H' & F' & _); [auto|].
      exists v'. split; auto. unfold insert_at in H'. rewrite firstn_all, skipn_all, app_nil_r in H'.
      split; auto. split; auto. intros x Hx. apply in_app_or in Hx. destruct Hx; auto. }
    exists st'. split; auto. erewrite bind_ok by exact G. reflexivity.
  - intros st ls i n w H Hi L S. cbn [f_make small_buffers].
    destruct (FlatProofs.nth_get _ _ Hi) as (l & E). eapply temporary; eauto.
    + intros x Hx. apply repeat_spec in Hx. now subst.
    + destruct (call_spec keep 0%N SC RB maxn HSC HRB Hmax (init_vec SC) [] (Seq (AssignN n w)) (holds_init SC RB maxn HSC HRB Hmax) eq_refl L) as (v' & G & H' & F').
      cbn [call small_step valid_pos spec_step fits fst snd] in G, H'.
      apply no_answer_inv with (r := tt) in G; auto. eauto.
    + intros a t (Ha & Fa & _) Ht. destruct (move_assign_spec keep SC RB maxn HSC HRB Hmax a t _ _ Ha Ht) as (a' & t' & G & H1 & H2 & F1 & F2).
      exists a', t', []. split; auto. split; auto. split; [congruence|auto].
  - intros st ls i ws H Hi L S. cbn [f_assign small_buffers].
    destruct (FlatProofs.nth_get _ _ Hi) as (l & E). eapply temporary; eauto.
    + destruct (assign_range_spec SC RB maxn HSC HRB Hmax (init_vec SC) [] ws (holds_init SC RB maxn HSC HRB Hmax) eq_refl L) as (v' & G & H' & F'). eauto.
    + intros a t (Ha & Fa & _) Ht.
      destruct (copy_assign_spec SC RB maxn HSC HRB Hmax a t _ _ Ha Fa Ht L) as (a' & G & H1 & F1).
      exists a', t, ws. auto.
  - intros st ls i j k H D Hi J L. cbn [f_copy small_buffers].
    destruct (FlatProofs.nth_get _ _ Hi) as (l & E).
    destruct (srep_get _ _ _ _ H E) as (a & Ea & Ha & Fa & Wa). destruct (srep_get _ _ _ _ H J) as (b & Eb & Hb & Fb & Wb).
    destruct (copy_assign_spec SC RB maxn HSC HRB Hmax a b _ _ Ha Fa Hb L) as (a' & G & H1 & F1).
    exists (upd st i a'). split.
    + erewrite bind_ok by (unfold on_two; rewrite Ea, Eb, G; reflexivity). unfold ret. now rewrite upd_kept.
    + apply srep_upd; auto. split; auto.
  - intros st ls i j k H D Hi J. cbn [f_move small_buffers].
    destruct (FlatProofs.nth_get _ _ Hi) as (l & E).
    destruct (srep_get _ _ _ _ H E) as (a & Ea & Ha & Fa & Wa). destruct (srep_get _ _ _ _ H J) as (b & Eb & Hb & Fb & Wb).
    destruct (move_assign_spec keep SC RB maxn HSC HRB Hmax a b _ _ Ha Hb) as (a' & b' & G & H1 & H2 & F1 & F2).
    eexists. split.
    + erewrite bind_ok by (unfold on_two; rewrite Ea, Eb, G; reflexivity). reflexivity.
    + apply srep_upd; [apply srep_upd; auto|]; (split; [assumption|split; [congruence|]]); auto. intros w [].
Qed.

Lemma small_start n : srep (repeat (init_vec SC) n) (repeat [] n).
Proof.
  induction n as [|n IH]; cbn; constructor; auto. split; [apply (holds_init SC RB maxn HSC HRB Hmax)|]. split; auto. intros w [].
Qed.
End Inst.
