(** Proofs about small_vector calls all of whose moves succeed. *)
From Coq Require Import List Arith NArith ZArith Bool Lia.
From Verif Require Import Base SeqSpec VecCommon SmallVectorModel SmallVectorSpec SmallVectorProofs
  SmallMoveModel SmallMoveSpec.
Import ListNotations.

Section Proofs.
Context {V : Type}.
Variable moved : V -> V.
Variable dflt : V.
Variable SC RB : nat.
Variable maxn : N.
Notation vec := (@vec V).

(** Programs which do not look at the fuse. *)
Definition refuse {A} (f : option nat) (r : res vec A) : res vec A :=
  match r with
  | Ok a s => Ok a (with_fuse f s)
  | Throw e s => Throw e (with_fuse f s)
  | UB => UB
  | Diverge => Diverge
  end.
Definition blind {A} (P : M vec A) : Prop := forall f s, P (with_fuse f s) = refuse f (P s).
Definition quiet {A} (P : M vec A) : Prop := blind P /\ forall s e s', P s <> Throw e s'.

Lemma blind_bind {A B} (P : M vec A) (Q : A -> M vec B) :
  blind P -> (forall a, blind (Q a)) -> blind (bind P Q).
Proof. intros HP HQ f s. unfold bind. rewrite HP. destruct (P s); cbn [refuse]; auto. apply HQ. Qed.
Lemma quiet_bind {A B} (P : M vec A) (Q : A -> M vec B) :
  quiet P -> (forall a, quiet (Q a)) -> quiet (bind P Q).
Proof.
  intros [HP NP] HQ. split; [apply blind_bind; [exact HP|intros a; apply HQ]|].
  intros s e s'. unfold bind. destruct (P s) eqn:E; try discriminate; [apply HQ|].
  exfalso. exact (NP _ _ _ E).
Qed.
Lemma quiet_ret {A} (a : A) : quiet (ret a).
Proof. split; [intros f s; reflexivity|discriminate]. Qed.
Lemma quiet_destroy p : quiet (destroy p).
Proof.
  split; unfold destroy; [intros f s; cbn [blocks with_fuse]|intros s e s'];
    destruct (slot_at p (blocks s)) as [[|]|]; try reflexivity; discriminate.
Qed.
Lemma quiet_move_to q p : quiet (move_to moved q p).
Proof.
  apply quiet_bind.
  - split; unfold move_from; [intros f s; cbn [blocks with_fuse]|intros s e s'];
      destruct (slot_at p (blocks s)) as [[|]|]; try reflexivity; discriminate.
  - intros v. cbn [construct]. split; unfold begin_life; [intros f s; cbn [blocks with_fuse]|intros s e s'];
      destruct (slot_at q (blocks s)) as [[|]|]; try reflexivity; discriminate.
Qed.
Lemma quiet_dealloc b n : quiet (deallocate (V:=V) b n).
Proof.
  split; unfold deallocate; [intros f s; cbn [blocks with_fuse]|intros s e s'];
    destruct b; try reflexivity; try discriminate;
    destruct (nth_error (blocks s) (S b)) as [[l|]|]; try reflexivity; try discriminate;
    destruct (_ && _); try reflexivity; discriminate.
Qed.
Lemma quiet_set_end p : quiet (set_end (V:=V) p).
Proof. split; [intros f s; reflexivity|discriminate]. Qed.
Lemma quiet_set_buf b p c : quiet (set_buf (V:=V) b p c).
Proof. split; [intros f s; reflexivity|discriminate]. Qed.
Lemma quiet_destroy_from b k : forall i, quiet (destroy_from (V:=V) b i k).
Proof.
  induction k as [|k IH]; intros i; cbn [destroy_from]; [apply quiet_ret|].
  apply quiet_bind; [apply quiet_destroy|intros _; apply IH].
Qed.

(** [P] is [Q] with [n] moves counted. *)
Definition burns_at {A} (s : vec) (n : nat) (P Q : M vec A) : Prop :=
  forall j, P (with_fuse (Some (n + j)) s) = Q (with_fuse (Some j) s).
Definition burns {A} (n : nat) (P Q : M vec A) : Prop := forall s, burns_at s n P Q.

Lemma burns_bind {A B} n m (P Q : M vec A) (P' Q' : A -> M vec B) :
  burns n P Q -> quiet Q -> (forall a, burns m (P' a) (Q' a)) -> burns (n + m) (bind P P') (bind Q Q').
Proof.
  intros H [HQ NQ] H' s j. unfold bind. rewrite <- Nat.add_assoc, H, !HQ.
  destruct (Q s) eqn:E; cbn [refuse]; auto; [apply H'|]. exfalso. exact (NQ _ _ _ E).
Qed.
Lemma burns_refl {A} (P : M vec A) : burns 0 P P.
Proof. intros s j. reflexivity. Qed.
Lemma burns_then {A B} s n (P Q : M vec A) (K : A -> M vec B) :
  burns_at s n P Q -> burns_at s n (bind P K) (bind Q K).
Proof. intros H j. unfold bind. now rewrite H. Qed.
Lemma burns_after {A B} s n (Z : M vec A) (P Q : A -> M vec B) a s1 :
  blind Z -> Z s = Ok a s1 -> burns_at s1 n (P a) (Q a) -> burns_at s n (bind Z P) (bind Z Q).
Proof. intros HZ E H j. unfold bind. rewrite !HZ, E. cbn [refuse]. apply H. Qed.
Lemma burns_get {A} s n (P Q : vec -> M vec A) :
  (forall f g, burns_at s n (P (with_fuse f s)) (Q (with_fuse g s))) ->
  burns_at s n (bind get P) (bind get Q).
Proof. intros H j. rewrite !bind_get. apply H. Qed.

Lemma burns_move_to q p : burns 1 (xmove_to moved q p) (move_to moved q p).
Proof.
  intros s j. unfold xmove_to, read. unfold bind at 1. cbn [blocks with_fuse].
  unfold move_to, bind, move_from. cbn [blocks with_fuse Nat.add].
  destruct (slot_at p (blocks s)) as [[|v]|] eqn:E; try reflexivity.
  cbn [tick vfuse with_fuse blocks]. rewrite E. reflexivity.
Qed.
Lemma burns_move_range db sb k : forall di si,
  burns k (xmove_range moved db di sb si k) (move_range moved db di sb si k).
Proof.
  induction k as [|k IH]; intros; cbn [xmove_range move_range]; [apply burns_refl|].
  apply (burns_bind 1 k); [apply burns_move_to|apply quiet_move_to|intros _; apply IH].
Qed.
Lemma quiet_move_range db sb k : forall di si, quiet (move_range moved db di sb si k).
Proof.
  induction k as [|k IH]; intros; cbn [move_range]; [apply quiet_ret|].
  apply quiet_bind; [apply quiet_move_to|intros _; apply IH].
Qed.
Lemma burns_relocate db sb k : forall di si,
  burns k (xrelocate_range moved db di sb si k) (relocate_range moved db di sb si k).
Proof.
  induction k as [|k IH]; intros; cbn [xrelocate_range relocate_range]; [apply burns_refl|].
  apply (burns_bind 1 k); [apply burns_move_to|apply quiet_move_to|intros _].
  apply (burns_bind 0 k); [apply burns_refl|apply quiet_destroy|intros _; apply IH].
Qed.
Lemma quiet_relocate db sb k : forall di si, quiet (relocate_range moved db di sb si k).
Proof.
  induction k as [|k IH]; intros; cbn [relocate_range]; [apply quiet_ret|].
  apply quiet_bind; [apply quiet_move_to|intros _].
  apply quiet_bind; [apply quiet_destroy|intros _; apply IH].
Qed.
Lemma burns_grow_loop b p num k : burns k (xgrow_loop moved b p num k) (grow_loop moved b p num k).
Proof.
  induction k as [|k IH]; intros; cbn [xgrow_loop grow_loop]; [apply burns_refl|].
  apply (burns_bind 1 k); [apply burns_move_to|apply quiet_move_to|intros _].
  apply (burns_bind 0 k); [apply burns_refl|apply quiet_destroy|intros _; apply IH].
Qed.
Lemma burns_shrink_loop b k : forall p np,
  burns k (xshrink_loop moved b p np k) (shrink_loop moved b p np k).
Proof.
  induction k as [|k IH]; intros; cbn [xshrink_loop shrink_loop]; [apply burns_refl|].
  apply (burns_bind 0 (S k)); [apply burns_refl|apply quiet_destroy|intros _].
  apply (burns_bind 1 k); [apply burns_move_to|apply quiet_move_to|intros _; apply IH].
Qed.
Lemma burns_transfer sb k : forall si,
  burns k (xshrink_transfer moved sb si k) (shrink_transfer moved sb si k).
Proof.
  induction k as [|k IH]; intros si; cbn [xshrink_transfer shrink_transfer]; [apply burns_refl|].
  intros s. apply burns_get. intros f g. cbn [ve with_fuse]. revert s.
  change (forall s, ?P s) with (forall s, P s).
  intros s.
  apply (burns_bind 1 k); [apply burns_move_to|apply quiet_move_to|intros _].
  apply (burns_bind 0 k); [apply burns_refl|apply quiet_set_end|intros _].
  apply (burns_bind 0 k); [apply burns_refl|apply quiet_destroy|intros _; apply IH].
Qed.

(** ** The members *)
Lemma blind_msize : blind (msize (V:=V)).
Proof. intros f s. unfold msize. cbn [ve vb with_fuse]. destruct (_ =? _); reflexivity. Qed.
Lemma blind_throw_if c e : blind (throw_if c e).
Proof. intros f s. unfold throw_if. destruct c; reflexivity. Qed.
Lemma blind_alloc n : blind (allocate maxn n).
Proof. intros f s. unfold allocate. destruct (_ <? _)%N; reflexivity. Qed.
Lemma blind_choose d : blind (choose_data SC RB maxn d).
Proof.
  intros f s. unfold choose_data. rewrite !bind_get. unfold is_static. cbn [vb vcap with_fuse].
  destruct (negb _); [destruct (_ <? _)%N|destruct (_ <? _)%N]; try reflexivity.
  - destruct (grow_cap _ _ _); [|reflexivity].
    apply blind_bind; [apply blind_alloc|intros b f' s'; reflexivity].
  - destruct (_ <? _)%N; reflexivity.
  - apply (blind_bind (allocate maxn d)); [apply blind_alloc|intros b f' s'; reflexivity].
Qed.

Hypothesis HSC : 0 < SC.
Hypothesis HRB : RB <= SC + 1.
Hypothesis Hmax : (maxn < two63)%N.
Notation cds := (@choose_data_spec V SC RB maxn HSC HRB Hmax).
Notation howns := (@holds_owns V SC RB maxn HSC HRB Hmax).
Notation rbounds := (room_bounds SC RB maxn HSC HRB Hmax).

Lemma grow_all (s : vec) (xs : list V) pos num m :
  holds SC s xs -> pos <= length xs -> room maxn (length xs + num) ->
  (elsewhere RB s (length xs + num) -> m = length xs) ->
  (~ elsewhere RB s (length xs + num) -> m = length xs - pos) ->
  burns_at s m (xgrow_at moved SC RB maxn (Z.of_nat pos) (N.of_nat num))
    (grow_at moved SC RB maxn (Z.of_nat pos) (N.of_nat num)).
Proof.
  intros H Hp Hroom He1 He2. apply howns in H. destruct H as (Hend & Hc & Hown).
  unfold xgrow_at, grow_at. eapply burns_after; [apply blind_msize|apply msize_spec; exact Hend|].
  replace ((Z.of_nat pos <? 0) || (Z.of_nat (length xs) <? Z.of_nat pos))%Z with false
    by (symmetry; apply orb_false_iff; split; apply Z.ltb_ge; lia).
  eapply burns_after; [apply blind_throw_if|reflexivity|]. apply burns_get. intros f g.
  cbn [vb vcap with_fuse]. unfold is_static. cbn [vb with_fuse]. rewrite Nat2Z.id.
  assert (Hm : ((N.of_nat (length xs) + N.of_nat num) mod two64 = N.of_nat (length xs + num))%N).
  { destruct (rbounds _ Hroom) as [Hr _]. rewrite <- Nat2N.inj_add.
    apply N.mod_small. unfold two64 in *. lia. }
  rewrite Hm. rewrite Nat2N.id.
  destruct (cds s _ (length xs + num) Hown ltac:(auto))
    as [(Hd & Hstay & E)|(db & c' & bs' & E & Hd & HT & Hsame & Hcase)];
    (eapply burns_after; [apply blind_choose|exact E|]; cbn [fst snd]).
  - rewrite Nat.eqb_refl. rewrite He2 by (unfold elsewhere; lia).
    apply (burns_bind 0 (length xs - pos)); [apply burns_refl|apply quiet_set_end|intros _ s'].
    apply burns_then. apply burns_grow_loop.
  - pose proof HT as (T1 & _).
    replace (db =? vb s) with false by (symmetry; now apply Nat.eqb_neq).
    rewrite He1.
    2:{ unfold elsewhere. destruct Hcase as [(_ & ? & ? & _)|(_ & ?)]; lia. }
    replace (length xs) with (pos + (length xs - pos)) at 1 by lia.
    apply burns_bind; [apply burns_move_range|apply quiet_move_range|intros _ s'].
    apply burns_then. apply burns_move_range.
Qed.

Lemma reserve_all (s : vec) (xs : list V) n :
  holds SC s xs -> room maxn n -> vcap s < n ->
  burns_at s (length xs) (xreserve moved SC RB maxn (N.of_nat n)) (reserve moved SC RB maxn (N.of_nat n)).
Proof.
  intros H Hroom Hlt. apply howns in H. destruct H as (Hend & Hc & Hown).
  unfold xreserve, reserve. apply burns_get. intros f g. unfold is_static. cbn [vb vcap with_fuse].
  replace (N.of_nat n <=? N.of_nat (vcap s))%N with false by (symmetry; apply N.leb_gt; lia).
  destruct (cds s _ n Hown ltac:(auto))
    as [(Hd & Hstay & E)|(db & c' & bs' & E & Hd & HT & Hsame & Hcase)]; [lia|].
  eapply burns_after; [apply blind_choose|exact E|]. cbn [fst snd].
  eapply burns_after; [apply blind_msize|apply msize_spec; exact Hend|].
  apply burns_then. apply burns_move_range.
Qed.

Lemma shrink_all (s : vec) (xs : list V) pos num m :
  holds SC s xs -> pos + num <= length xs -> num < length xs ->
  (stays RB s (length xs - num) /\ m = length xs - (pos + num)) \/
  (~ stays RB s (length xs - num) /\ m = length xs - num) ->
  burns_at s m (xshrink_at moved SC RB maxn (Z.of_nat pos) (N.of_nat num))
    (shrink_at moved SC RB maxn (Z.of_nat pos) (N.of_nat num)).
Proof.
  intros H Hp Hn Hm. apply howns in H. destruct H as (Hend & Hc & Hown).
  unfold xshrink_at, shrink_at. eapply burns_after; [apply blind_msize|apply msize_spec; exact Hend|].
  replace ((Z.of_nat pos <? 0) || (Z.of_nat (length xs) <? Z.of_nat pos)
             || (Z.of_nat (length xs) <? Z.of_nat pos + Z.of_N (N.of_nat num)))%Z with false
      by (symmetry; rewrite !orb_false_iff, !Z.ltb_ge; lia).
  eapply burns_after; [apply blind_throw_if|reflexivity|]. apply burns_get. intros f g.
  cbn [vb vcap with_fuse]. rewrite Nat2Z.id, Nat2N.id.
  replace (length xs - num =? 0) with false by (symmetry; apply Nat.eqb_neq; lia).
  destruct (cds s _ (length xs - num) Hown ltac:(lia))
    as [(Hd & Hstay & E)|(db & c' & bs' & E & Hd & HT & Hsame & Hcase)];
    (eapply burns_after; [apply blind_choose|exact E|]; cbn [fst snd]).
  - rewrite Nat.eqb_refl. destruct Hm as [[_ ->]|[Hs _]]; [|exfalso; apply Hs; unfold stays; tauto].
    apply burns_then. apply burns_shrink_loop.
  - pose proof HT as (T1 & _).
    replace (db =? vb s) with false by (symmetry; now apply Nat.eqb_neq).
    destruct Hm as [[Hs _]|[_ ->]].
    { exfalso. unfold stays in Hs. destruct Hcase as [(_ & ? & ? & _)|(_ & ?)]; lia. }
    replace (length xs - num) with (pos + (0 + (length xs - num - pos))) at 1 by lia.
    apply burns_bind; [apply burns_relocate|apply quiet_relocate|intros _].
    apply burns_bind; [apply burns_refl|apply quiet_destroy_from|intros _ s'].
    apply burns_then. apply burns_relocate.
Qed.

Lemma shrink_to_fit_all (s : vec) (xs : list V) :
  holds SC s xs -> room maxn (length xs) -> vb s <> 0 -> length xs <> vcap s ->
  burns_at s (length xs) (xshrink_to_fit moved SC maxn) (shrink_to_fit moved SC maxn).
Proof.
  intros H Hroom Hb Hfit. apply howns in H. destruct H as (Hend & Hc & Hown).
  unfold xshrink_to_fit, shrink_to_fit.
  eapply burns_after; [apply blind_msize|apply msize_spec; exact Hend|]. apply burns_get. intros f g.
  unfold is_static. cbn [vb vcap with_fuse].
  replace (length xs =? vcap s) with false by (symmetry; now apply Nat.eqb_neq).
  replace (vb s =? 0) with false by (symmetry; now apply Nat.eqb_neq).
  destruct (rbounds _ Hroom) as [_ Hm].
  destruct (length xs <? SC).
  - eapply burns_after; [apply quiet_set_buf|reflexivity|]. apply burns_then. apply burns_transfer.
  - eapply burns_after.
    + apply blind_bind; [apply blind_alloc|intros b; apply quiet_set_buf].
    + erewrite bind_ok; [reflexivity|]. unfold allocate.
      replace (maxn <? N.of_nat (length xs))%N with false by (symmetry; apply N.ltb_ge; lia). reflexivity.
    + apply burns_then. apply burns_transfer.
Qed.

(** ** The calls *)
Lemma burns_size {B} (s : vec) (xs : list V) n (P Q : nat -> M vec B) :
  holds SC s xs -> burns_at s n (P (length xs)) (Q (length xs)) ->
  burns_at s n (bind msize P) (bind msize Q).
Proof. intros H. eapply burns_after; [apply blind_msize|apply msize_spec, H]. Qed.

Lemma all_moves o (s : vec) (xs : list V) m j :
  holds SC s xs -> moves SC RB s xs o m -> small_ok maxn xs o ->
  vfuse s = Some (m + j) ->
  xcall moved dflt SC RB maxn o s = call moved dflt SC RB maxn o (with_fuse (Some j) s).
Proof.
  intros H R Hr Hf.
  assert (W : burns_at s m (xcall moved dflt SC RB maxn o) (call moved dflt SC RB maxn o)).
  2:{ rewrite <- W. f_equal. destruct s; cbn in *. now subst. }
  clear j Hf. destruct R as [(n & R & ->)|[R|[(pos & num & R & Hlt & Hm)|((R & Hb & Hfit) & ->)]]].
  - destruct o as [[]| | |]; cbn [relocates small_ok] in R, Hr; try contradiction; cbn [xcall call];
      unfold no_answer, position_answer, xpush_back, push_back, xinsert1, insert1, xinsert_n, insert_n,
        xinsert_range, insert_range, resize, xresize_val, resize_val.
    + destruct R as [-> R]. apply burns_then. apply burns_size with xs; [exact H|].
      apply burns_then. apply (grow_all s xs (length xs) 1); auto. tauto.
    + destruct R as (-> & R & R2). do 2 apply burns_then. apply (grow_all s xs pos 1); auto; tauto.
    + destruct R as (-> & R & R2). do 2 apply burns_then. apply (grow_all s xs pos n0); auto; tauto.
    + destruct R as (-> & R & R2). do 2 apply burns_then. apply (grow_all s xs pos (length l)); auto; tauto.
    + destruct R as [-> R]. do 2 apply burns_then. now apply reserve_all.
    + destruct R as [-> R]. do 2 apply burns_then. now apply reserve_all.
    + destruct R as [-> R]. apply burns_then. now apply reserve_all.
  - destruct o as [[]| | |]; cbn [shifts_up small_ok] in R, Hr; try contradiction; cbn [xcall call];
      unfold position_answer, xinsert1, insert1, xinsert_n, insert_n, xinsert_range, insert_range.
    + destruct R as (R1 & R2 & ->). do 2 apply burns_then. apply (grow_all s xs pos 1); auto; tauto.
    + destruct R as (R0 & R1 & R2 & ->). do 2 apply burns_then. apply (grow_all s xs pos n); auto; tauto.
    + destruct R as (R0 & R1 & R2 & ->). do 2 apply burns_then.
      apply (grow_all s xs pos (length l)); auto; tauto.
  - destruct o as [[]| | |]; cbn [erases small_ok] in R, Hr; try contradiction; cbn [xcall call];
      unfold no_answer, position_answer, xpop_back, pop_back, xerase, erase, xerase_range, erase_range.
    + destruct R as (R & -> & ->). apply burns_then. apply burns_size with xs; [exact H|]. apply burns_then.
      replace (Z.of_nat (length xs) - 1)%Z with (Z.of_nat (length xs - 1)) by lia.
      apply (shrink_all s xs (length xs - 1) 1); auto. lia.
    + destruct R as (R & -> & ->). apply burns_then. apply (shrink_all s xs pos0 1); auto. lia.
    + destruct R as (R1 & R2 & -> & ->). apply burns_then.
      replace (Z.of_nat last <? Z.of_nat first)%Z with false by (symmetry; apply Z.ltb_ge; lia).
      replace (Z.to_N (Z.of_nat last - Z.of_nat first)) with (N.of_nat (last - first)) by lia.
      eapply burns_after; [apply blind_throw_if|reflexivity|].
      apply (shrink_all s xs first (last - first)); auto. lia.
  - destruct R as [->|(-> & Hle)]; cbn [xcall call small_ok] in *; apply burns_then.
    + now apply shrink_to_fit_all.
    + unfold xrevert_to_static, revert_to_static. apply burns_size with xs; [exact H|].
      apply burns_get. intros f g. unfold is_static. cbn [vb with_fuse].
      replace (vb s =? 0) with false by (symmetry; now apply Nat.eqb_neq).
      replace (SC <? length xs) with false by (symmetry; apply Nat.ltb_ge; lia).
      apply burns_then. now apply shrink_to_fit_all.
Qed.
End Proofs.
