(** Proofs about small_vector and allocators. *)
From Coq Require Import List Arith NArith ZArith Bool Lia.
From Verif Require Import Base SeqSpec VecCommon SmallVectorModel SmallVectorSpec SmallVectorProofs SmallBufProofs
  SmallAllocModel SmallAllocSpec.
Import ListNotations.

(** * Blocks only come, and what is given back stays so *)
Section Ages.
Context {V : Type}.
Variable moved : V -> V.
Variable dflt : V.
Variable SC RB : nat.
Variable maxn : N.

Definition later (s s' : @vec V) : Prop :=
  length (blocks s) <= length (blocks s') /\
  forall k, nth_error (blocks s) k = Some Freed -> nth_error (blocks s') k = Some Freed.
Definition ages {R} (m : M (@vec V) R) : Prop := forall s,
  match m s with Ok _ s' => later s s' | Throw _ s' => later s s' | _ => True end.

Lemma later_refl s : later s s. Proof. split; auto. Qed.
Lemma later_trans s1 s2 s3 : later s1 s2 -> later s2 s3 -> later s1 s3.
Proof. intros (L1 & F1) (L2 & F2). split; [lia|auto]. Qed.
Lemma later_blocks s s' : blocks s' = blocks s -> later s s'.
Proof. intros E. split; rewrite E; auto. Qed.

Lemma ages_bind {R T} (m : M vec R) (k : R -> M vec T) : ages m -> (forall a, ages (k a)) -> ages (bind m k).
Proof.
  intros Hm Hk s. unfold bind. specialize (Hm s). destruct (m s) as [a s1|e s1| |]; auto.
  specialize (Hk a s1). destruct (k a s1) as [b s2|e s2| |]; auto; eapply later_trans; eauto.
Qed.
Lemma ages_ret {R} (a : R) : ages (ret a). Proof. intros s. apply later_refl. Qed.
Lemma ages_get : ages get. Proof. intros s. apply later_refl. Qed.
Lemma ages_throw_if c e : ages (throw_if c e). Proof. intros s. unfold throw_if. destruct c; apply later_refl. Qed.
Lemma ages_ub {R} : ages (@ub vec R). Proof. intros s. exact Logic.I. Qed.
Lemma ages_diverge {R} : ages (@diverge vec R). Proof. intros s. exact Logic.I. Qed.
Lemma ages_if {R} (c : bool) (m k : M vec R) : ages m -> ages k -> ages (if c then m else k).
Proof. now destruct c. Qed.
Lemma later_put p x (s : @vec V) : later s (with_blocks (put_slot p x (blocks s)) s).
Proof.
  split; cbn [with_blocks blocks]; [rewrite put_slot_length; lia|]. intros k E. unfold put_slot.
  destruct (nth_error (blocks s) (fst p)) as [[l|]|] eqn:Eb; auto.
  destruct (Nat.eq_dec (fst p) k) as [e|ne]; [subst k; congruence|]. now rewrite nth_error_upd_neq.
Qed.
Lemma ages_destroy p : ages (destroy p).
Proof. intros s. unfold destroy. destruct (slot_at p (blocks s)) as [[|v]|]; auto. apply later_put. Qed.
Lemma ages_read p : ages (read p).
Proof. intros s. unfold read. destruct (slot_at p (blocks s)) as [[|v]|]; auto. apply later_refl. Qed.
Lemma ages_move_from p : ages (move_from moved p).
Proof. intros s. unfold move_from. destruct (slot_at p (blocks s)) as [[|v]|]; auto. apply later_put. Qed.
Lemma ages_tick : ages tick.
Proof. intros s. unfold tick. destruct (vfuse s) as [[|k]|]; now apply later_blocks. Qed.
Lemma ages_begin_life p v : ages (begin_life p v).
Proof. intros s. unfold begin_life. destruct (slot_at p (blocks s)) as [[|w]|]; auto. apply later_put. Qed.
Lemma ages_construct p x : ages (construct p x).
Proof.
  destruct x; cbn [construct]; repeat (apply ages_bind; [|intros]);
    first [apply ages_tick|apply ages_begin_life|apply ages_read].
Qed.
Lemma ages_move_to p q : ages (move_to moved p q).
Proof. apply ages_bind; [apply ages_move_from|intros; apply ages_construct]. Qed.
Lemma ages_set_end e : ages (set_end e). Proof. intros s. now apply later_blocks. Qed.
Lemma ages_set_buf b e c : ages (set_buf b e c). Proof. intros s. now apply later_blocks. Qed.
Lemma ages_msize : ages msize.
Proof. intros s. unfold msize. destruct (fst (ve s) =? vb s); auto. apply later_refl. Qed.
Lemma ages_allocate n : ages (allocate maxn n).
Proof.
  intros s. unfold allocate. destruct (maxn <? n)%N; [apply later_refl|]. split; cbn [with_blocks blocks].
  - rewrite app_length. lia.
  - intros k E. rewrite nth_error_app1; [exact E|]. now apply nth_lt in E.
Qed.
Lemma ages_deallocate b n : ages (deallocate b n).
Proof.
  intros s. unfold deallocate. destruct b; auto. destruct (nth_error (blocks s) (S b)) as [[l|]|] eqn:E; auto.
  destruct ((length l =? n) && forallb is_raw l); auto. split; cbn [with_blocks blocks]; [rewrite upd_length; lia|].
  intros k Ek. destruct (Nat.eq_dec (S b) k) as [e|ne]; [subst k; congruence|]. now rewrite nth_error_upd_neq.
Qed.
Lemma ages_match_pair {R} {X Y : Type} (c : X * Y) (f : X * Y -> M vec R) : ages (f c) -> ages (f c).
Proof. auto. Qed.

Ltac age1 :=
  first [apply ages_ret | apply ages_get | apply ages_destroy | apply ages_read | apply ages_move_from
        | apply ages_construct | apply ages_move_to | apply ages_set_end | apply ages_set_buf | apply ages_deallocate
        | apply ages_allocate | apply ages_msize | apply ages_throw_if | apply ages_ub | apply ages_diverge | simple apply ages_if
        | simple apply ages_bind; [|intros] | assumption].
Ltac age := repeat age1.

Lemma ages_destroy_from b k : forall i, ages (destroy_from b i k).
Proof. induction k; intros i; cbn [destroy_from]; age. apply IHk. Qed.
Lemma ages_destroy_all : ages destroy_all.
Proof. unfold destroy_all. age. apply ages_destroy_from. Qed.
Lemma ages_move_range db sb k : forall di si, ages (move_range moved db di sb si k).
Proof. induction k; intros; cbn [move_range]; age. apply IHk. Qed.
Lemma ages_relocate_range db sb k : forall di si, ages (relocate_range moved db di sb si k).
Proof. induction k; intros; cbn [relocate_range]; age. apply IHk. Qed.
Lemma ages_shrink_transfer sb k : forall si, ages (shrink_transfer moved sb si k).
Proof. induction k; intros; cbn [shrink_transfer]; age. apply IHk. Qed.
Lemma ages_grow_loop b p num k : ages (grow_loop moved b p num k).
Proof. induction k; intros; cbn [grow_loop]; age. Qed.
Lemma ages_shrink_loop b k : forall p np, ages (shrink_loop moved b p np k).
Proof. induction k; intros; cbn [shrink_loop]; age. apply IHk. Qed.
Lemma ages_fill_loop b x k : forall i, ages (fill_loop b i x k).
Proof. induction k; intros; cbn [fill_loop]; age. apply IHk. Qed.
Lemma ages_copy_loop b l : forall i, ages (copy_loop b i l).
Proof. induction l; intros; cbn [copy_loop]; age. apply IHl. Qed.
Lemma ages_cut_loop k : ages (cut_loop k).
Proof. induction k; cbn [cut_loop]; age. Qed.
Lemma ages_extend_loop x k : ages (extend_loop k x).
Proof. induction k; cbn [extend_loop]; age. Qed.
Lemma ages_append_loop l : ages (append_loop l).
Proof. induction l; cbn [append_loop]; age. Qed.
Lemma ages_read_from b k : forall i, ages (read_from b i k).
Proof. induction k; intros i; cbn [read_from]; age. apply IHk. Qed.
Lemma ages_read_all : ages read_all.
Proof. unfold read_all. age. apply ages_read_from. Qed.
Lemma ages_choose d : ages (choose_data SC RB maxn d).
Proof. unfold choose_data. age. destruct (grow_cap _ _ _); age. Qed.
Lemma ages_reserve n : ages (reserve moved SC RB maxn n).
Proof. unfold reserve. age; [apply ages_choose|apply ages_move_range|apply ages_destroy_from]. Qed.
Lemma ages_shrink : ages (shrink_to_fit moved SC maxn).
Proof. unfold shrink_to_fit. age. apply ages_shrink_transfer. Qed.
Lemma ages_revert : ages (revert_to_static moved SC maxn).
Proof. unfold revert_to_static. age. apply ages_shrink. Qed.
Lemma ages_clear : ages (clear SC RB).
Proof. unfold clear. age. apply ages_destroy_all. Qed.
Lemma ages_grow_at p n : ages (grow_at moved SC RB maxn p n).
Proof.
  unfold grow_at. age; first [apply ages_choose|apply ages_grow_loop|apply ages_move_range|apply ages_destroy_from].
Qed.
Lemma ages_shrink_at p n : ages (shrink_at moved SC RB maxn p n).
Proof.
  unfold shrink_at. age;
    first [apply ages_clear|apply ages_choose|apply ages_shrink_loop|apply ages_relocate_range|apply ages_destroy_from].
Qed.
Lemma ages_assign_copy l : ages (assign_copy SC RB maxn l).
Proof. unfold assign_copy. age; [apply ages_choose|apply ages_append_loop]. Qed.
Lemma ages_resize n x : ages (resize_val moved SC RB maxn n x).
Proof. unfold resize_val. age; [apply ages_reserve|apply ages_cut_loop|apply ages_extend_loop]. Qed.
Lemma ages_destructor : ages destructor.
Proof. unfold destructor. age. apply ages_destroy_all. Qed.
Lemma ages_call o : ages (call moved dflt SC RB maxn o).
Proof.
  destruct o as [o|k| |]; [destruct o|..]; cbn [call]; unfold no_answer, position_answer;
    unfold push_back, pop_back, insert1, insert_n, insert_range, erase, erase_range, resize, assign_n, assign_range; age;
    first [apply ages_grow_at|apply ages_shrink_at|apply ages_fill_loop|apply ages_copy_loop|apply ages_resize
          |apply ages_clear|apply ages_destroy_all|apply ages_assign_copy|apply ages_reserve|apply ages_shrink|apply ages_revert].
Qed.
End Ages.

(** * Two vectors *)
Section Ages2.
Context {V : Type}.
Variable moved : V -> V.
Variable dflt : V.
Variable SC : nat.
Definition ages2 {R} (m : M (@vec V * @vec V) R) : Prop :=
  forall a b r a' b', m (a, b) = Ok r (a', b') -> later a a' /\ later b b'.
Lemma ages2_bind {R T} (m : M (@vec V * @vec V) R) (k : R -> M (@vec V * @vec V) T) :
  ages2 m -> (forall x, ages2 (k x)) -> ages2 (bind m k).
Proof.
  intros Hm Hk a b r a' b' E. apply bind_inv in E. destruct E as (x & (a1 & b1) & E1 & E2).
  destruct (Hm _ _ _ _ _ E1), (Hk _ _ _ _ _ _ E2). split; eapply later_trans; eauto.
Qed.
Lemma ages_ok {R} (m : M (@vec V) R) s r s' : ages m -> m s = Ok r s' -> later s s'.
Proof. intros H E. specialize (H s). now rewrite E in H. Qed.
Lemma ages_throw {R} (m : M (@vec V) R) s e s' : ages m -> m s = Throw e s' -> later s s'.
Proof. intros H E. specialize (H s). now rewrite E in H. Qed.
Lemma ages2_L {R} (m : M (@vec V) R) : ages m -> ages2 (onL m).
Proof.
  intros K a b r a' b' E. apply onL_inv in E. destruct E as (x & E & Eq). injection Eq as -> ->.
  split; [eapply ages_ok; eauto|apply later_refl].
Qed.
Lemma ages2_R {R} (m : M (@vec V) R) : ages m -> ages2 (onR m).
Proof.
  intros K a b r a' b' E. apply onR_inv in E. destruct E as (x & E & Eq). injection Eq as -> ->.
  split; [apply later_refl|eapply ages_ok; eauto].
Qed.
Lemma ages2_take_loop sb k : forall si, ages2 (take_loop moved sb si k).
Proof.
  induction k; intros si; cbn [take_loop].
  - intros a b r a' b' E. injection E as _ -> ->. split; apply later_refl.
  - apply ages2_bind; [apply ages2_R, ages_move_from|intros]. apply ages2_bind; [|intros].
    { intros a b r a' b' E. injection E as _ -> ->. split; apply later_refl. }
    apply ages2_bind; [apply ages2_L, ages_construct|intros]. apply ages2_bind; [apply ages2_L, ages_set_end|intros]. apply IHk.
Qed.

Lemma take_impl_later (a b x y : @vec V) u : take_impl moved SC (a, b) = Ok u (x, y) ->
  later a x /\ later b y /\ length (blocks y) = length (blocks b) /\
  (is_static b = true -> length (blocks x) = length (blocks a)) /\
  (is_static b = false -> exists l, nth_error (blocks b) (vb b) = Some (Blk l)).
Proof.
  intros E. unfold take_impl in E. rewrite bind_get in E. cbn [fst snd] in E.
  apply bind_inv in E. destruct E as (v & (a1 & b1) & E0 & E). apply onR_inv in E. destruct E as (b2 & E & Eq). injection Eq as -> ->.
  injection E as _ <-. destruct (is_static b) eqn:St.
  - apply bind_inv in E0. destruct E0 as (v1 & t & E & E0). apply onL_inv in E. destruct E as (a2 & E & ->). injection E as _ <-.
    apply bind_inv in E0. destruct E0 as (v2 & t & E & E0). apply onR_inv in E. destruct E as (b3 & E & ->).
    apply bind_inv in E0. destruct E0 as (v3 & (a4 & b4) & E1 & E0).
    pose proof (ages2_take_loop _ _ _ _ _ _ _ _ E1) as (Q1 & Q2). pose proof (keeps2_take_loop moved dflt _ _ _ _ _ _ _ _ E1) as (K1 & K2).
    apply onR_inv in E0. destruct E0 as (b5 & E0 & Eq). injection Eq as <- <-.
    pose proof (keeps_msize _ _ _ E) as Km. pose proof (ages_ok _ _ _ _ ages_msize E) as Am.
    pose proof (keeps_destroy_all moved dflt _ _ _ E0) as Kd. pose proof (ages_ok _ _ _ _ ages_destroy_all E0) as Ad.
    split; [exact Q1|]. split.
    { eapply later_trans; [exact Am|]. eapply later_trans; [exact Q2|]. exact Ad. }
    split.
    { cbn [with_buf blocks]. now rewrite (quiet_len _ _ Kd), (quiet_len _ _ K2), (quiet_len _ _ Km). }
    split; [|discriminate]. intros _. now rewrite (quiet_len _ _ K1).
  - unfold take_block in E0. destruct (nth_error (blocks b) (vb b)) as [[l|]|] eqn:Eb; try discriminate.
    destruct (fst (ve b) =? vb b); [|discriminate]. injection E0 as _ <- <-. cbn [with_buf with_blocks blocks].
    split; [|split; [|split; [|split]]].
    + split; cbn [with_buf with_blocks blocks]; [rewrite app_length; lia|]. intros k Ek. rewrite nth_error_app1; [exact Ek|]. now apply nth_lt in Ek.
    + split; cbn [with_buf with_blocks blocks]; [rewrite upd_length; lia|]. intros k Ek.
      destruct (Nat.eq_dec (vb b) k) as [e|ne]; [subst k; congruence|]. now rewrite nth_error_upd_neq.
    + apply upd_length.
    + discriminate.
    + eauto.
Qed.
End Ages2.

(** * Allocators *)
Section Lift.
Context {V A : Type}.
Variable moved : V -> V.
Variable dflt : V.
Variable SC RB : nat.
Variable maxn : N.
Variable same : A -> A -> bool.
Variable select : A -> A.
Hypothesis HSC : 0 < SC.
Hypothesis HRB : RB <= SC + 1.
Hypothesis Hmax : (maxn < two63)%N.
Hypothesis same_refl : forall x, same x x = true.

(** All memory the vector holds came from its allocator. *)
Definition proper (s : @avec V A) : Prop :=
  length (owners s) = length (blocks (av s)) /\
  forall k l, k <> 0 -> nth_error (blocks (av s)) k = Some (Blk l) -> nth_error (owners s) k = Some (al s).

Lemma nth_repeat_ext (own : list A) (x y : A) n k : nth_error (own ++ repeat x n) k = Some y ->
  nth_error own k = Some y \/ (length own <= k /\ y = x).
Proof.
  intros E. destruct (Nat.lt_ge_cases k (length own)) as [L|L].
  - rewrite nth_error_app1 in E by auto. auto.
  - rewrite nth_error_app2 in E by auto. apply nth_error_In, repeat_spec in E. auto.
Qed.
Lemma owner_of (s : @avec V A) (v' : @vec V) k : proper s -> later (av s) v' -> k <> 0 -> k < length (blocks v') ->
  nth_error (blocks (av s)) k <> Some Freed ->
  nth_error (owners s ++ repeat (al s) (length (blocks v') - length (blocks (av s)))) k = Some (al s).
Proof.
  intros (P1 & P2) (L & _) Hk Hl Hf. destruct (Nat.lt_ge_cases k (length (owners s))) as [Lt|Ge].
  - rewrite nth_error_app1 by auto. destruct (nth_error (blocks (av s)) k) as [[l|]|] eqn:E.
    + eauto.
    + congruence.
    + apply nth_error_None in E. lia.
  - rewrite nth_error_app2 by auto. apply nth_error_repeat. lia.
Qed.

Lemma settle_ok (s : @avec V A) v' : proper s -> later (av s) v' ->
  exists s', settle same s v' = Some s' /\ av s' = v' /\ al s' = al s /\ proper s'.
Proof.
  intros P L. unfold settle.
  assert (well_freed same (al s) (owners s ++ repeat (al s) (length (blocks v') - length (blocks (av s)))) (av s) v' = true) as ->.
  { unfold well_freed. apply forallb_forall. intros k Ik. apply in_seq in Ik.
    destruct (Nat.eqb_spec k 0) as [e|ne]; [reflexivity|]. cbn [orb].
    destruct (nth_error (blocks (av s)) k) as [[l|]|] eqn:E; cbn [is_freed].
    - rewrite (owner_of s v' k) by (auto; try lia; congruence). rewrite same_refl. now rewrite !orb_true_r.
    - now rewrite orb_true_r.
    - rewrite (owner_of s v' k) by (auto; try lia; congruence). rewrite same_refl. now rewrite !orb_true_r. }
  eexists. split; [reflexivity|]. split; [reflexivity|]. split; [reflexivity|]. destruct P as (P1 & P2), L as (L & F).
  split; cbn [owners av al].
  - rewrite app_length, repeat_length. lia.
  - intros k l Hk E. apply (owner_of s v' k); auto; [split; auto|split; auto|now apply nth_lt in E|].
    intros Ef. apply F in Ef. congruence.
Qed.

Lemma lift_ok {R} (m : M (@vec V) R) s r v' : ages m -> proper s -> m (av s) = Ok r v' ->
  exists s', lift same m s = Ok r s' /\ av s' = v' /\ al s' = al s /\ proper s'.
Proof.
  intros Am P E. destruct (settle_ok s v' P (ages_ok _ _ _ _ Am E)) as (s' & Es & H). exists s'. split; [|exact H].
  unfold lift. now rewrite E, Es.
Qed.
Lemma lift_throw {R} (m : M (@vec V) R) s e v' : ages m -> proper s -> m (av s) = Throw e v' ->
  exists s', lift same m s = Throw e s' /\ av s' = v' /\ al s' = al s /\ proper s'.
Proof.
  intros Am P E. destruct (settle_ok s v' P (ages_throw _ _ _ _ Am E)) as (s' & Es & H). exists s'. split; [|exact H].
  unfold lift. now rewrite E, Es.
Qed.
Lemma lift_observe (m : M (@vec V) (option nat)) s r v' : ages m -> proper s -> observe (m (av s)) = Some (v', r) ->
  exists s', observe (lift same m s) = Some (s', r) /\ av s' = v' /\ al s' = al s /\ proper s'.
Proof.
  intros Am P E. destruct (m (av s)) as [[p|] q|e q| |] eqn:Em; cbn [observe] in E; try discriminate; injection E as <- <-.
  - destruct (lift_ok m s _ _ Am P Em) as (s' & E & H). exists s'. now rewrite E.
  - destruct (lift_ok m s _ _ Am P Em) as (s' & E & H). exists s'. now rewrite E.
  - destruct (lift_throw m s _ _ Am P Em) as (s' & E & H). exists s'. now rewrite E.
Qed.

Lemma proper_init x : proper (@a_init V A SC x).
Proof.
  split; [reflexivity|]. intros [|[|k]] l Hk E; try discriminate. now destruct Hk.
Qed.

Definition well (s : @avec V A) (xs : list V) (x : A) : Prop :=
  holds SC (av s) xs /\ vfuse (av s) = None /\ al s = x /\ proper s.

Lemma read_all_well s xs x : well s xs x -> exists s', lift same read_all s = Ok xs s' /\ av s' = av s /\ well s' xs x.
Proof.
  intros (H & F & E & P). destruct (lift_ok read_all s xs (av s) ages_read_all P) as (s' & Es & Ev & Ea & P').
  { eapply read_all_spec; eauto. }
  exists s'. split; [exact Es|]. split; [exact Ev|]. unfold well. rewrite Ev, Ea. auto.
Qed.


Lemma a_copy_assign_spec a b xs ys x y : well a xs x -> well b ys y -> room maxn (length ys) ->
  exists a' b', a_copy_assign SC RB maxn same (a, b) = Ok tt (a', b') /\ well a' ys x /\ well b' ys y.
Proof.
  intros (Ha & Fa & Ea & Pa) Wb R. unfold a_copy_assign.
  destruct (destroy_all_spec SC RB maxn HSC HRB Hmax (av a) xs Ha) as (v1 & E1 & O1 & B1 & B2 & B3 & B4).
  destruct (lift_ok destroy_all a tt v1 ages_destroy_all Pa E1) as (a1 & L1 & V1 & A1 & P1).
  erewrite bind_ok by (apply onL_ok; exact L1).
  destruct (read_all_well _ _ _ Wb) as (b' & L2 & V2 & Wb').
  erewrite bind_ok by (apply onR_ok; exact L2).
  destruct (assign_copy_spec SC RB maxn HSC HRB Hmax v1 ys) as (v2 & E2 & H2 & F2); [congruence|congruence|exact R|].
  rewrite <- V1 in E2. destruct (lift_ok (assign_copy SC RB maxn ys) a1 tt v2 (ages_assign_copy _ _ _ _) P1 E2) as (a2 & L3 & V3 & A3 & P3).
  exists a2, b'. split; [apply onL_ok; exact L3|]. split; [|exact Wb'].
  unfold well. rewrite V3. split; [exact H2|]. split; [exact F2|]. split; [cbn [al a_init] in *; congruence|exact P3].
Qed.

Lemma a_copy_construct_spec b ys x y : well b ys y -> room maxn (length ys) ->
  exists a' b', a_copy_construct SC RB maxn same x b = Ok tt (a', b') /\ well a' ys x /\ well b' ys y.
Proof.
  intros Wb R. unfold a_copy_construct. destruct (read_all_well _ _ _ Wb) as (b' & L2 & V2 & Wb').
  erewrite bind_ok by (apply onR_ok; exact L2).
  pose proof (copy_construct_spec SC RB maxn HSC HRB Hmax (av b) ys) as C. destruct Wb as (Hb & Wb).
  destruct (C Hb R) as (v2 & E2 & H2 & F2). unfold copy_construct in E2.
  erewrite bind_ok in E2 by (apply onR_ok; eapply read_all_spec; eauto).
  apply onL_inv in E2. destruct E2 as (v3 & E2 & Eq). injection Eq as <-.
  destruct (lift_ok (assign_copy SC RB maxn ys) (a_init SC x) tt v2 (ages_assign_copy _ _ _ _) (proper_init x) E2) as (a2 & L3 & V3 & A3 & P3).
  exists a2, b'. split; [apply onL_ok; exact L3|]. split; [|exact Wb'].
  unfold well. rewrite V3. split; [exact H2|]. split; [exact F2|]. split; [cbn [al a_init] in *; congruence|exact P3].
Qed.

Lemma a_take_spec a b u v w : take_impl moved SC (av a, av b) = Ok u (v, w) -> proper a -> proper b -> al a = al b ->
  vb (av b) < length (blocks (av b)) ->
  exists a' b', a_take moved SC (a, b) = Ok tt (a', b') /\ av a' = v /\ av b' = w /\ al a' = al a /\ al b' = al b /\
    proper a' /\ proper b'.
Proof.
  intros E (Pa1 & Pa2) (Pb1 & Pb2) Eab Lb. destruct (take_impl_later moved dflt _ _ _ _ _ _ E) as ((La & Fa) & (Lw & Fb) & Lb' & Hs & Hd).
  unfold a_take. rewrite E. destruct (nth_error (owners b) (vb (av b))) as [o|] eqn:Eo; [|apply nth_error_None in Eo; lia].
  eexists. eexists. split; [reflexivity|]. cbn [av al owners]. split; [reflexivity|]. split; [reflexivity|].
  split; [reflexivity|]. split; [reflexivity|]. split; split; cbn [av al owners].
  - rewrite app_length, repeat_length. lia.
  - intros k l Hk Ek. destruct (Nat.lt_ge_cases k (length (owners a))) as [Lt|Ge].
    + rewrite nth_error_app1 by auto. destruct (nth_error (blocks (av a)) k) as [[m|]|] eqn:Em.
      * eauto.
      * apply Fa in Em. congruence.
      * apply nth_error_None in Em. lia.
    + rewrite nth_error_app2 by auto. pose proof (nth_lt _ _ _ Ek) as Lk. destruct (is_static (av b)) eqn:St.
      * rewrite Hs in Lk by auto. lia.
      * destruct (Hd eq_refl) as (m & Em). unfold is_static in St. apply Nat.eqb_neq in St.
        rewrite (Pb2 _ _ St Em) in Eo. injection Eo as <-. rewrite <- Eab. apply nth_error_repeat. lia.
  - lia.
  - intros k l Hk Ek. destruct (nth_error (blocks (av b)) k) as [[m|]|] eqn:Em.
    + eauto.
    + apply Fb in Em. congruence.
    + apply nth_error_None in Em. apply nth_lt in Ek. lia.
Qed.

Lemma proper_bare s x : bare SC (av s) -> length (owners s) = length (blocks (av s)) ->
  proper (mkA (av s) x (owners s)).
Proof.
  intros (_ & B) L. split; [exact L|]. cbn [av]. intros k l Hk E. rewrite (B k Hk) in E; [discriminate|now apply nth_lt in E].
Qed.
Lemma holds_begin (s : @avec V A) xs : holds SC (av s) xs -> vb (av s) < length (blocks (av s)).
Proof. intros H. apply (holds_owns SC RB maxn HSC HRB Hmax) in H. destruct H as (_ & _ & O & _). now apply nth_lt in O. Qed.

Lemma a_move_assign_spec a b xs ys x y : well a xs x -> well b ys y ->
  exists a' b', a_move_assign moved SC same (a, b) = Ok tt (a', b') /\ well a' ys y /\ well b' [] y.
Proof.
  intros (Ha & Fa & Ea & Pa) (Hb & Fb & Eb & Pb). unfold a_move_assign.
  destruct (destroy_all_spec SC RB maxn HSC HRB Hmax (av a) xs Ha) as (v1 & E1 & O & B1 & B2 & B3 & B4).
  destruct (lift_ok destroy_all a tt v1 ages_destroy_all Pa E1) as (a1 & L1 & V1 & A1 & P1).
  erewrite bind_ok by (apply onL_ok; exact L1). rewrite bind_get. cbn [fst].
  assert (R : exists a2, (if is_static (av a1) then ret tt else @onL avec unit (lift same (deallocate (vb (av a1)) (vcap (av a1)))))
                (a1, b) = Ok tt (a2, b) /\ bare SC (av a2) /\ vfuse (av a2) = None /\ proper a2).
  { unfold is_static. rewrite V1. destruct O as (O1 & O2 & O3 & O4 & O5).
    destruct (Nat.eqb_spec (vb v1) 0) as [Hz|Hn].
    - exists a1. split; [reflexivity|]. rewrite V1. split; [|split; [congruence|exact P1]].
      rewrite Hz in O1. rewrite <- B3, (O3 Hz) in O1. split; [exact O1|]. intros j J1 J2. apply O5; [exact J1|congruence|exact J2].
    - destruct v1 as [bs b1 e1 c1 f1]. cbn [blocks vb ve vcap vfuse] in *. rewrite B3 in *. clear B3 O2 c1.
      pose proof (deallocate_spec bs b1 b1 e1 (vcap (av a)) f1 (vcap (av a)) Hn O1) as D. rewrite <- V1 in D.
      destruct (lift_ok (deallocate b1 (vcap (av a))) a1 _ _ (ages_deallocate _ _) P1 D) as (a2 & L2 & V2 & A2 & P2).
      exists a2. split; [apply onL_ok; exact L2|]. split; [|split; [rewrite V2; cbn; congruence|exact P2]].
      rewrite V2. unfold bare; cbn [blocks].
      pose proof (nth_lt _ _ _ O1) as L. destruct (O4 Hn) as [_ Hz].
      split; [rewrite nth_error_upd_neq by congruence; exact Hz|].
      intros j J1 J3. rewrite upd_length in J3.
      destruct (Nat.eq_dec j b1) as [->|Hj]; [now rewrite nth_error_upd_eq by auto|].
      rewrite nth_error_upd_neq by congruence. auto. }
  destruct R as (a2 & E2 & Hbare & F2 & P2).
  erewrite bind_ok by exact E2. rewrite bind_get. cbn [fst snd].
  erewrite bind_ok by (apply onL_ok; reflexivity).
  set (a3 := mkA (av a2) (al b) (owners a2)).
  assert (P3 : proper a3) by (apply proper_bare; [exact Hbare|apply P2]).
  destruct (lift_ok (set_buf (vb (av a2)) (ve (av a2)) (vcap (av b))) a3 tt
              (with_buf (vb (av a2)) (ve (av a2)) (vcap (av b)) (av a2)) (ages_set_buf _ _ _) P3 eq_refl) as (a4 & L4 & V4 & A4 & P4).
  erewrite bind_ok by (apply onL_ok; exact L4).
  destruct (take_impl_spec moved SC RB maxn HSC HRB Hmax (av a4) (av b) ys) as (v & w & E3 & H1 & H2 & H3 & H4);
    [rewrite V4; exact Hbare|exact Hb|rewrite V4; reflexivity|].
  destruct (a_take_spec _ _ _ _ _ E3 P4 Pb A4 (holds_begin _ _ Hb)) as (a' & b' & E5 & W1 & W2 & W3 & W4 & W5 & W6).
  exists a', b'. split; [exact E5|]. unfold well. rewrite W1, W2, W3, W4, H3, H4, A4, V4. cbn [a3 al].
  split; (split; [assumption|]); (split; [assumption|]); split; assumption.
Qed.

Lemma a_move_construct_spec b ys y : well b ys y ->
  exists a' b', a_move_construct moved SC same b = Ok tt (a', b') /\ well a' ys y /\ well b' [] y.
Proof.
  intros (Hb & Fb & Eb & Pb). unfold a_move_construct.
  destruct (lift_ok (set_buf 0 (0, 0) (vcap (av b))) (a_init SC (al b)) tt _ (ages_set_buf _ _ _) (proper_init _) eq_refl) as (a4 & L4 & V4 & A4 & P4).
  erewrite bind_ok by (apply onL_ok; exact L4).
  destruct (take_impl_spec moved SC RB maxn HSC HRB Hmax (av a4) (av b) ys) as (v & w & E3 & H1 & H2 & H3 & H4);
    [|exact Hb|rewrite V4; reflexivity|].
  { rewrite V4. split; [reflexivity|]. intros j J1 J2. cbn in J2. lia. }
  destruct (a_take_spec _ _ _ _ _ E3 P4 Pb A4 (holds_begin _ _ Hb)) as (a' & b' & E5 & W1 & W2 & W3 & W4 & W5 & W6).
  exists a', b'. split; [exact E5|]. unfold well. rewrite W1, W2, W3, W4, H3, H4, A4, V4. cbn [a_init al].
  split; (split; [assumption|]); (split; [assumption || reflexivity|]); split; assumption.
Qed.

(** * Histories: the rule the code follows is that of traits with false and true *)
Definition stands (c : @acell V A) (x : @acont V A) : Prop :=
  match c, x with
  | Alive s, Some (xs, y) => well s xs y
  | Gone s, None => all_released SC (av s)
  | _, _ => False
  end.

Lemma Forall2_nth {T B} (P : T -> B -> Prop) la lb i b :
  Forall2 P la lb -> nth_error lb i = Some b -> exists a, nth_error la i = Some a /\ P a b.
Proof.
  intros H. revert i. induction H as [|a b' la lb Hab H IH]; intros [|i] Hn; cbn in *; try discriminate.
  - injection Hn as ->. eauto.
  - eauto.
Qed.
Lemma Forall2_upd {T B} (P : T -> B -> Prop) la lb i a b :
  Forall2 P la lb -> P a b -> Forall2 P (upd la i a) (upd lb i b).
Proof. intros H Hab. revert i. induction H; intros [|i]; cbn; constructor; auto. Qed.
Lemma stands_at cells cs i xs x : Forall2 stands cells cs -> cont_at cs i = Some (xs, x) ->
  exists s, cell_at cells i = Some s /\ nth_error cells i = Some (Alive s) /\ well s xs x.
Proof.
  intros F E. unfold cont_at in E. destruct (nth_error cs i) as [[[zs z]|]|] eqn:En; try discriminate. injection E as -> ->.
  destruct (Forall2_nth _ _ _ _ _ F En) as ([s|s] & Es & Hs); [|contradiction].
  exists s. unfold cell_at. rewrite Es. auto.
Qed.

Lemma a_call_spec cells cs o : Forall2 stands cells cs -> a_ok maxn cs o ->
  exists cells', observe (a_call moved dflt SC RB maxn same select o cells) = Some (cells', snd (std_step dflt select own_rule cs o)) /\
    Forall2 stands cells' (fst (std_step dflt select own_rule cs o)).
Proof.
  intros F Ok. destruct o as [x|j|j x|j|i|i op|i j|i j]; cbn [a_ok a_call std_step] in *.
  - eexists. split; [reflexivity|]. cbn [fst]. apply Forall2_app; [exact F|]. constructor; [|constructor].
    cbn [stands]. split; [apply (holds_init SC RB maxn HSC HRB Hmax)|]. split; [reflexivity|]. split; [reflexivity|apply proper_init].
  - destruct Ok as (xs & x & E & R). destruct (stands_at _ _ _ _ _ F E) as (s & Es & En & W). rewrite E, Es. unfold a_new. rewrite Es.
    assert (al s = x) as -> by apply W.
    destruct (a_copy_construct_spec s xs (select x) x W R) as (a' & b' & Ec & Wa & Wb). rewrite Ec. eexists. split; [reflexivity|].
    cbn [fst]. apply Forall2_app; [|constructor; [exact Wa|constructor]].
    unfold cont_at in E. destruct (nth_error cs j) as [[c|]|] eqn:En'; try discriminate. injection E as ->.
    rewrite <- (upd_nth_id _ _ _ En'). now apply Forall2_upd.
  - destruct Ok as (xs & y & E & R). destruct (stands_at _ _ _ _ _ F E) as (s & Es & En & W). rewrite E. unfold a_new. rewrite Es.
    destruct (a_copy_construct_spec s xs x y W R) as (a' & b' & Ec & Wa & Wb). rewrite Ec. eexists. split; [reflexivity|].
    cbn [fst]. apply Forall2_app; [|constructor; [exact Wa|constructor]].
    unfold cont_at in E. destruct (nth_error cs j) as [[c|]|] eqn:En'; try discriminate. injection E as ->.
    rewrite <- (upd_nth_id _ _ _ En'). now apply Forall2_upd.
  - destruct Ok as ([xs x] & E). destruct (stands_at _ _ _ _ _ F E) as (s & Es & En & W). rewrite E. unfold a_new. rewrite Es.
    destruct (a_move_construct_spec s xs x W) as (a' & b' & Ec & Wa & Wb). rewrite Ec. eexists. split; [reflexivity|].
    cbn [fst]. apply Forall2_app; [|constructor; [exact Wa|constructor]]. now apply Forall2_upd.
  - destruct Ok as ([xs x] & E). destruct (stands_at _ _ _ _ _ F E) as (s & Es & En & H & Fu & Ea & P).
    destruct (destructor_spec SC RB maxn HSC HRB Hmax (av s) xs H) as (v' & Ed & Rl).
    destruct (lift_ok destructor s tt v' ages_destructor P Ed) as (s' & L & V1 & _).
    unfold no_answer, a_one. cbv [bind ret]. rewrite Es, L. eexists. split; [reflexivity|].
    cbn [fst]. apply Forall2_upd; [exact F|]. cbn [stands]. now rewrite V1.
  - destruct Ok as (xs & x & E & So). destruct (stands_at _ _ _ _ _ F E) as (s & Es & En & H & Fu & Ea & P). rewrite E.
    destruct (call_spec moved dflt SC RB maxn HSC HRB Hmax (av s) xs op H Fu So) as (v' & Ec & Hv & Fv).
    destruct (lift_observe _ s _ _ (ages_call moved dflt SC RB maxn op) P Ec) as (s' & L & V1 & A1 & P1).
    exists (upd cells i (Alive s')). cbn [fst snd]. split.
    + unfold a_one. rewrite Es. destruct (lift same (call moved dflt SC RB maxn op) s) as [[p|] q|e q| |]; cbn [observe] in *; congruence.
    + apply Forall2_upd; [exact F|]. cbn [stands]. unfold well. rewrite V1, A1. auto.
  - destruct Ok as ([xs x] & ys & y & E & E' & R). destruct (stands_at _ _ _ _ _ F E) as (s & Es & En & W).
    destruct (stands_at _ _ _ _ _ F E') as (t & Et & Ent & W'). rewrite E, E'. cbn [pocca own_rule].
    destruct (Nat.eqb_spec i j) as [e|ne].
    + subst j. rewrite E in E'. injection E' as <- <-. unfold a_one. rewrite Es. eexists. split; [reflexivity|]. cbn [fst].
      now apply Forall2_upd.
    + unfold a_two. rewrite Es, Et. destruct (a_copy_assign_spec s t xs ys x y W W' R) as (a' & b' & Ec & Wa & Wb). rewrite Ec.
      eexists. split; [reflexivity|]. cbn [fst].
      assert (Ej : nth_error (upd cs i (Some (ys, x))) j = Some (Some (ys, y))).
      { rewrite nth_error_upd_neq by congruence. unfold cont_at in E'. destruct (nth_error cs j) as [[c|]|]; try discriminate. injection E' as ->. reflexivity. }
      rewrite <- (upd_nth_id _ _ _ Ej). apply Forall2_upd; [now apply Forall2_upd|exact Wb].
  - destruct Ok as ([xs x] & [ys y] & E & E'). destruct (stands_at _ _ _ _ _ F E) as (s & Es & En & W).
    destruct (stands_at _ _ _ _ _ F E') as (t & Et & Ent & W'). rewrite E, E'. cbn [pocma own_rule].
    destruct (Nat.eqb_spec i j) as [e|ne].
    + subst j. unfold a_one. rewrite Es. eexists. split; [reflexivity|]. cbn [fst].
      rewrite (upd_nth_id _ _ _ En). exact F.
    + unfold a_two. rewrite Es, Et. destruct (a_move_assign_spec s t xs ys x y W W') as (a' & b' & Ec & Wa & Wb). rewrite Ec.
      eexists. split; [reflexivity|]. cbn [fst]. apply Forall2_upd; [now apply Forall2_upd|exact Wb].
Qed.

Lemma a_run_spec os : forall cells cs, Forall2 stands cells cs -> a_along dflt select own_rule (a_ok maxn) cs os ->
  exists cells', run_calls (a_call moved dflt SC RB maxn same select) cells os =
      Some (cells', snd (std_run dflt select own_rule cs os)) /\
    Forall2 stands cells' (fst (std_run dflt select own_rule cs os)).
Proof.
  induction os as [|o os IH]; intros cells cs F Al; cbn [run_calls std_run a_along] in *; [eauto|].
  destruct Al as (Ok & Al). destruct (a_call_spec cells cs o F Ok) as (c1 & E & F1). rewrite E.
  destruct (std_step dflt select own_rule cs o) as [cs1 r]. cbn [fst snd] in *.
  destruct (IH _ _ F1 Al) as (c2 & E2 & F2). rewrite E2. destruct (std_run dflt select own_rule cs1 os) as [cs2 rs]. cbn [fst snd] in *. eauto.
Qed.

Lemma respected_step tr cs o : a_ok maxn cs o -> respected tr cs o ->
  std_step dflt select own_rule cs o = std_step dflt select tr cs o.
Proof.
  intros Ok Re. destruct o as [x|j|j x|j|i|i op|i j|i j]; cbn [std_step a_ok respected] in *; auto.
  - destruct Ok as ([xs x] & ys & y & E & E' & _). rewrite E, E' in *. cbn [option_map snd pocca own_rule] in *.
    destruct Re as [->|Re]; [reflexivity|]. injection Re as ->. now destruct (pocca tr).
  - destruct Ok as ([xs x] & [ys y] & E & E'). rewrite E, E' in *. cbn [option_map snd pocma own_rule] in *.
    destruct Re as [->|Re]; [reflexivity|]. injection Re as ->. now destruct (pocma tr).
Qed.
Lemma respected_run tr os : forall cs, a_along dflt select tr (fun cs o => a_ok maxn cs o /\ respected tr cs o) cs os ->
  std_run dflt select own_rule cs os = std_run dflt select tr cs os /\ a_along dflt select own_rule (a_ok maxn) cs os.
Proof.
  induction os as [|o os IH]; intros cs Al; cbn [std_run a_along] in *; [auto|].
  destruct Al as ((Ok & Re) & Al). pose proof (respected_step tr cs o Ok Re) as Es. rewrite Es.
  destruct (IH _ Al) as (E & Al'). split; [|auto]. destruct (std_step dflt select tr cs o) as [cs1 r]. cbn [fst] in E. now rewrite E.
Qed.

Lemma stands_shows c x : stands c x -> a_shows SC c x.
Proof. destruct c, x as [[xs y]|]; cbn; auto. intros (H & _ & E & _). auto. Qed.
Lemma stands_shows_all cells cs : Forall2 stands cells cs -> Forall2 (a_shows SC) cells cs.
Proof. induction 1; constructor; auto using stands_shows. Qed.

Lemma along_app tr ok os o : forall cs, a_along dflt select tr ok cs os -> ok (fst (std_run dflt select tr cs os)) o ->
  a_along dflt select tr ok cs (os ++ [o]) /\
  fst (std_run dflt select tr cs (os ++ [o])) = fst (std_step dflt select tr (fst (std_run dflt select tr cs os)) o).
Proof.
  induction os as [|p os IH]; intros cs Al Ho; cbn [app a_along std_run] in *.
  - cbn [fst] in *. split; [auto|]. destruct (std_step dflt select tr cs o); reflexivity.
  - destruct Al as (Hp & Al). destruct (std_step dflt select tr cs p) as [cs1 r]. cbn [fst] in *.
    destruct (std_run dflt select tr cs1 os) as [cs2 rs] eqn:E2. cbn [fst] in *.
    destruct (IH cs1 Al) as (A1 & A2); [now rewrite E2|]. rewrite E2 in A2. split; [auto|].
    destruct (std_run dflt select tr cs1 (os ++ [o])). exact A2.
Qed.
Lemma shows_alloc (cells : list (@acell V A)) (cs : list (@acont V A)) i xs x : Forall2 (a_shows SC) cells cs -> cont_at cs i = Some (xs, x) ->
  exists s, nth_error cells i = Some (Alive s) /\ al s = x.
Proof.
  intros F E. unfold cont_at in E. destruct (nth_error cs i) as [[[zs z]|]|] eqn:En; try discriminate. injection E as -> ->.
  destruct (Forall2_nth _ _ _ _ _ F En) as ([s|s] & Es & Hs); [|contradiction]. exists s. split; [exact Es|apply Hs].
Qed.
Lemma shows_differ (cells : list (@acell V A)) (cs cs' : list (@acont V A)) i xs x ys y : cont_at cs i = Some (xs, x) -> cont_at cs' i = Some (ys, y) -> x <> y ->
  Forall2 (a_shows SC) cells cs -> ~ Forall2 (a_shows SC) cells cs'.
Proof.
  intros E E' Ne F F'. destruct (shows_alloc _ _ _ _ _ F E) as (s & Es & <-).
  destruct (shows_alloc _ _ _ _ _ F' E') as (t & Et & <-). rewrite Es in Et. injection Et as ->. now apply Ne.
Qed.
Lemma cont_at_lt (cs : list (@acont V A)) i c : cont_at cs i = Some c -> i < length cs.
Proof. unfold cont_at. destruct (nth_error cs i) eqn:E; [intros _; now apply nth_lt in E|discriminate]. Qed.
Lemma cont_upd_eq (cs : list (@acont V A)) i c : i < length cs -> cont_at (upd cs i (Some c)) i = Some c.
Proof. intros L. unfold cont_at. now rewrite nth_error_upd_eq. Qed.
Lemma cont_upd_neq (cs : list (@acont V A)) i j c : i <> j -> cont_at (upd cs j c) i = cont_at cs i.
Proof. intros L. unfold cont_at. now rewrite nth_error_upd_neq by congruence. Qed.
End Lift.
