(** Proofs about the constructors of static_vector and small_vector. *)
From Coq Require Import List Arith NArith ZArith Bool Lia.
From Verif Require Import Base SeqSpec VecCommon CtorModel CtorSpec.
From Verif Require StaticVectorModel StaticVectorSpec StaticVectorProofs.
From Verif Require SmallVectorModel SmallVectorSpec SmallVectorProofs.
Import ListNotations.

Definition burn (f : option nat) (n : nat) : option nat :=
  match f with None => None | Some k => Some (k - n) end.

Lemma nth_firstn_lt {A} (l : list A) : forall k i, i < k -> nth_error (firstn k l) i = nth_error l i.
Proof.
  induction l as [|x l IH]; intros [|k] [|i] H; cbn; auto; try lia. apply IH. lia.
Qed.

Module St.
Import StaticVectorModel StaticVectorSpec StaticVectorProofs.
Import CtorModel.Static.
Section P.
Context {V : Type}.
Variable moved : V -> V.
Variable dflt : V.
Variable Capacity : nat.
Hypothesis Hcap63 : (N.of_nat Capacity < two63)%N.
Notation repr := (@repr V Capacity).

Lemma blank_repr f : @blank V Capacity f = repr [] f.
Proof. unfold blank. rewrite init_repr. reflexivity. Qed.

(** One push_back under a fuse. *)
Lemma push_ok (xs : list V) v f :
  length xs < Capacity -> none_throws f 1 ->
  push_back Capacity (CopyOf v) (repr xs f) = Ok tt (repr (xs ++ [v]) (burn f 1)).
Proof.
  intros Hl Hf. unfold push_back. rewrite bind_get, size_repr.
  replace (Capacity <=? length xs) with false by (symmetry; apply Nat.leb_gt; lia).
  erewrite bind_ok by reflexivity. cbn [construct].
  erewrite bind_ok.
  2:{ erewrite bind_ok.
      2:{ instantiate (1 := repr xs (burn f 1)). instantiate (1 := tt). unfold tick. cbn [fuse StaticVectorProofs.repr]. destruct f as [[|k]|]; cbn in *; [lia| |reflexivity].
          now rewrite Nat.sub_0_r. }
      rewrite (repr_snoc Capacity Hcap63 xs _ Hl). apply begin_life_mid. now rewrite map_length. }
  rewrite bind_get. unfold set_size, with_size; cbn [data size fuse]. unfold StaticVectorProofs.repr.
  do 2 f_equal; [|rewrite app_length; cbn; lia].
  rewrite map_app, <- app_assoc. cbn [map app]. do 3 f_equal. rewrite app_length; cbn; lia.
Qed.

Lemma push_throws (xs : list V) v :
  length xs < Capacity ->
  push_back Capacity (CopyOf v) (repr xs (Some 0)) = Throw ElemThrow (repr xs None).
Proof.
  intros Hl. unfold push_back. rewrite bind_get, size_repr.
  replace (Capacity <=? length xs) with false by (symmetry; apply Nat.leb_gt; lia).
  reflexivity.
Qed.

Lemma push_list_ok l : forall (xs : list V) f,
  length xs + length l <= Capacity -> none_throws f (length l) ->
  push_list Capacity l (repr xs f) = Ok tt (repr (xs ++ l) (burn f (length l))).
Proof.
  induction l as [|v l IH]; intros xs f Hc Hf; cbn [push_list length] in *.
  - rewrite app_nil_r. destruct f as [k|]; cbn; [now rewrite Nat.sub_0_r|reflexivity].
  - erewrite bind_ok by (apply push_ok; [lia|destruct f; cbn in *; lia]).
    rewrite IH.
    + rewrite <- app_assoc. cbn [app]. do 2 f_equal. destruct f as [k|]; cbn; [f_equal; lia|reflexivity].
    + rewrite app_length; cbn. lia.
    + destruct f; cbn in *; lia.
Qed.

Lemma push_list_throws l : forall (xs : list V) k,
  length xs + length l <= Capacity -> k < length l ->
  push_list Capacity l (repr xs (Some k)) = Throw ElemThrow (repr (xs ++ firstn k l) None).
Proof.
  induction l as [|v l IH]; intros xs k Hc Hk; cbn [push_list length] in *; [lia|].
  destruct k as [|k].
  - cbn [firstn]. rewrite app_nil_r. apply bind_throw. apply push_throws. lia.
  - erewrite bind_ok by (apply push_ok; cbn; lia).
    cbn [burn]. rewrite Nat.sub_1_r. cbn [Nat.pred].
    rewrite IH; [|rewrite app_length; cbn; lia|lia].
    cbn [firstn]. now rewrite <- app_assoc.
Qed.

Lemma push_n_list k v s : push_n Capacity k (CopyOf v) s = push_list Capacity (repeat v k) (s : @sv V).
Proof.
  revert s. induction k as [|k IH]; intros s; [reflexivity|]. cbn [push_n repeat push_list].
  unfold bind. destruct (push_back Capacity (CopyOf v) s); auto.
Qed.

Lemma push_while_list n v fuel : forall (xs : list V) f,
  n <= Capacity -> n - length xs <= fuel ->
  push_while Capacity fuel n (CopyOf v) (repr xs f) =
  push_list Capacity (repeat v (n - length xs)) (repr xs f).
Proof.
  induction fuel as [|fuel IH]; intros xs f Hc Hf; cbn [push_while]; rewrite bind_get, size_repr.
  - replace (length xs <? n) with false by (symmetry; apply Nat.ltb_ge; lia).
    replace (n - length xs) with 0 by lia. reflexivity.
  - destruct (Nat.ltb_spec (length xs) n) as [L|L].
    + replace (n - length xs) with (S (n - length xs - 1)) by lia. cbn [repeat push_list].
      destruct f as [[|k]|].
      * erewrite !bind_throw by (apply push_throws; lia). reflexivity.
      * erewrite !bind_ok by (apply push_ok; cbn; lia). rewrite IH by (rewrite ?app_length; cbn; lia).
        rewrite app_length. cbn [length]. do 2 f_equal. lia.
      * erewrite !bind_ok by (apply push_ok; cbn; auto; lia). rewrite IH by (rewrite ?app_length; cbn; lia).
        rewrite app_length. cbn [length]. do 2 f_equal. lia.
    + replace (n - length xs) with 0 by lia. reflexivity.
Qed.

(** Every constructor: the range check, then the pushes. *)
Lemma make_shape c f :
  make moved dflt Capacity c f =
  if Capacity <? length (contents dflt c) then Throw OutOfRange (repr [] f)
  else push_list Capacity (contents dflt c) (repr [] f).
Proof.
  unfold make. rewrite blank_repr. destruct c as [n|n v|l|l]; cbn [body contents].
  - unfold resize, resize_val. rewrite repeat_length.
    destruct (Capacity <? n) eqn:E; [reflexivity|]. apply Nat.ltb_ge in E.
    erewrite bind_ok by reflexivity.
    erewrite bind_ok.
    2:{ cbn [pop_while]. rewrite bind_get, size_repr. cbn [length].
        replace (n <? 0) with false by (symmetry; apply Nat.ltb_ge; lia). reflexivity. }
    rewrite push_while_list by (cbn [length]; lia). cbn [length]. now rewrite Nat.sub_0_r.
  - unfold impl_val. rewrite repeat_length. destruct (Capacity <? n); [reflexivity|].
    erewrite bind_ok by reflexivity. apply push_n_list.
  - unfold impl_iter. destruct (Capacity <? length l); [reflexivity|]. reflexivity.
  - unfold impl_iter. destruct (Capacity <? length l); [reflexivity|]. reflexivity.
Qed.

Lemma no_object_empty f : no_object (repr [] f).
Proof.
  intros i v H. unfold StaticVectorProofs.repr in H. cbn [data map app] in H.
  apply nth_error_In in H. apply repeat_spec in H. discriminate.
Qed.

Lemma make_ok c f :
  length (contents dflt c) <= Capacity -> none_throws f (length (contents dflt c)) ->
  exists s, make moved dflt Capacity c f = Ok tt s /\ represents Capacity s (contents dflt c).
Proof.
  intros Hc Hf. rewrite make_shape.
  replace (Capacity <? _) with false by (symmetry; apply Nat.ltb_ge; lia).
  rewrite push_list_ok by (cbn; auto). cbn [app]. eexists. split; [reflexivity|].
  now apply represents_repr.
Qed.

Lemma make_range c f :
  Capacity < length (contents dflt c) ->
  exists s, make moved dflt Capacity c f = Throw OutOfRange s /\ no_object s.
Proof.
  intros Hc. rewrite make_shape.
  replace (Capacity <? _) with true by (symmetry; apply Nat.ltb_lt; lia).
  eexists. split; [reflexivity|]. apply no_object_empty.
Qed.

Lemma make_throws c k :
  length (contents dflt c) <= Capacity -> k < length (contents dflt c) ->
  exists s, make moved dflt Capacity c (Some k) = Throw ElemThrow s /\
    represents Capacity s (firstn k (contents dflt c)).
Proof.
  intros Hc Hk. rewrite make_shape.
  replace (Capacity <? _) with false by (symmetry; apply Nat.ltb_ge; lia).
  rewrite push_list_throws by (cbn; lia). cbn [app]. eexists. split; [reflexivity|].
  apply represents_repr; [exact Hcap63|]. rewrite firstn_length. lia.
Qed.

Lemma left_behind s (xs : list V) i v :
  represents Capacity s xs -> nth_error xs i = Some v -> nth_error (data s) i = Some (Live v).
Proof.
  intros (_ & _ & Hc & H) Hi. rewrite H, Hi; [reflexivity|].
  apply Nat.lt_le_trans with (length xs); [|exact Hc]. apply nth_error_Some. congruence.
Qed.

Lemma make_leaks c k :
  length (contents dflt c) <= Capacity -> k < length (contents dflt c) ->
  exists s, make moved dflt Capacity c (Some k) = Throw ElemThrow s /\
    forall i, i < k -> exists v, nth_error (contents dflt c) i = Some v /\
      nth_error (data s) i = Some (Live v).
Proof.
  intros Hc Hk. destruct (make_throws c k Hc Hk) as (s & E & R). exists s. split; [exact E|].
  intros i Hi. destruct (nth_error (contents dflt c) i) as [v|] eqn:Ev.
  2:{ apply nth_error_None in Ev. lia. }
  exists v. split; [reflexivity|]. eapply left_behind; [exact R|]. now rewrite nth_firstn_lt.
Qed.

(** The copy constructors. *)
Lemma copy_loop_list (ys : list V) CapB g k : forall i a,
  i + k = length ys ->
  copy_from_loop Capacity i k (a, @StaticVectorProofs.repr V CapB ys g) =
  match push_list Capacity (skipn i ys) a with
  | Ok _ a' => Ok tt (a', @StaticVectorProofs.repr V CapB ys g)
  | Throw e a' => Throw e (a', @StaticVectorProofs.repr V CapB ys g)
  | UB => UB
  | Diverge => Diverge
  end.
Proof.
  induction k as [|k IH]; intros i a Hi; cbn [copy_from_loop].
  - rewrite skipn_all2 by lia. reflexivity.
  - destruct (nth_error ys i) as [v|] eqn:Ev.
    2:{ apply nth_error_None in Ev. lia. }
    erewrite bind_ok.
    2:{ unfold onR; cbn [fst snd]. rewrite (read_repr CapB ys g i v Ev). reflexivity. }
    rewrite (skipn_S_nth ys i v Ev). cbn [push_list]. unfold bind at 1, onL; cbn [fst snd].
    unfold bind at 1. destruct (push_back Capacity (CopyOf v) a); try reflexivity.
    apply IH. lia.
Qed.

Lemma copy_other_shape CapB (b : sv) (ys : list V) f :
  (N.of_nat CapB < two63)%N -> represents CapB b ys ->
  copy_other Capacity b f =
  if Capacity <? length ys then Throw OutOfRange (repr [] f, b)
  else match push_list Capacity ys (repr [] f) with
  | Ok _ a' => Ok tt (a', b) | Throw e a' => Throw e (a', b) | UB => UB | Diverge => Diverge
  end.
Proof.
  intros HB R. pose proof (represents_inv CapB HB b ys R) as E. unfold copy_other.
  rewrite bind_get, blank_repr. cbn [snd]. destruct R as (_ & Es & _). rewrite Es.
  destruct (Capacity <? length ys); [reflexivity|]. erewrite bind_ok by reflexivity.
  rewrite bind_get. cbn [snd]. rewrite Es. rewrite E. rewrite copy_loop_list by lia. reflexivity.
Qed.

Lemma copy_same_shape (b : sv) (ys : list V) f :
  represents Capacity b ys -> copy_same Capacity b f = copy_other Capacity b f.
Proof.
  intros R. unfold copy_same, copy_other. rewrite !bind_get. cbn [snd].
  destruct R as (_ & Es & Hc & _).
  replace (Capacity <? size b) with false by (symmetry; apply Nat.ltb_ge; lia). reflexivity.
Qed.

Lemma copy_ok CapB (b : sv) (ys : list V) f :
  (N.of_nat CapB < two63)%N -> represents CapB b ys -> length ys <= Capacity -> none_throws f (length ys) ->
  exists a, copy_other Capacity b f = Ok tt (a, b) /\ represents Capacity a ys.
Proof.
  intros HB R Hc Hf. rewrite (copy_other_shape _ _ _ _ HB R).
  replace (Capacity <? _) with false by (symmetry; apply Nat.ltb_ge; lia).
  rewrite push_list_ok by (cbn; auto). cbn [app]. eexists. split; [reflexivity|].
  now apply represents_repr.
Qed.

Lemma copy_range CapB (b : sv) (ys : list V) f :
  (N.of_nat CapB < two63)%N -> represents CapB b ys -> Capacity < length ys ->
  exists a, copy_other Capacity b f = Throw OutOfRange (a, b) /\ no_object a.
Proof.
  intros HB R Hc. rewrite (copy_other_shape _ _ _ _ HB R).
  replace (Capacity <? _) with true by (symmetry; apply Nat.ltb_lt; lia).
  eexists. split; [reflexivity|]. apply no_object_empty.
Qed.

Lemma copy_leaks CapB (b : sv) (ys : list V) k :
  (N.of_nat CapB < two63)%N -> represents CapB b ys -> length ys <= Capacity -> k < length ys ->
  exists a, copy_other Capacity b (Some k) = Throw ElemThrow (a, b) /\
    forall i, i < k -> exists v, nth_error ys i = Some v /\ nth_error (data a) i = Some (Live v).
Proof.
  intros HB R Hc Hk. rewrite (copy_other_shape _ _ _ _ HB R).
  replace (Capacity <? _) with false by (symmetry; apply Nat.ltb_ge; lia).
  rewrite push_list_throws by (cbn; lia). cbn [app]. eexists. split; [reflexivity|].
  intros i Hi. destruct (nth_error ys i) as [v|] eqn:Ev.
  2:{ apply nth_error_None in Ev. lia. }
  exists v. split; [reflexivity|].
  eapply left_behind; [apply represents_repr; [exact Hcap63|rewrite firstn_length; lia]|].
  now rewrite nth_firstn_lt.
Qed.

Lemma first_throws c :
  length (contents dflt c) <= Capacity -> contents dflt c <> [] ->
  exists s, make moved dflt Capacity c (Some 0) = Throw ElemThrow s /\ no_object s.
Proof.
  intros Hc Hne. rewrite make_shape.
  replace (Capacity <? _) with false by (symmetry; apply Nat.ltb_ge; lia).
  rewrite push_list_throws; [|cbn; lia|destruct (contents dflt c); [now destruct Hne|cbn; lia]].
  eexists. split; [reflexivity|]. apply no_object_empty.
Qed.
End P.
End St.

Module Sm.
Import SmallVectorModel SmallVectorSpec SmallVectorProofs.
Import CtorModel.Small.
Section P.
Context {V : Type}.
Variable moved : V -> V.
Variable dflt : V.
Variable SC RB : nat.
Variable maxn : N.
Hypothesis HSC : 0 < SC.
Hypothesis HRB : RB <= SC + 1.
Hypothesis Hmax : (maxn < two63)%N.

Lemma holds_blank f : holds SC (@blank V SC f) [].
Proof. exact (holds_init SC RB maxn HSC HRB Hmax). Qed.

Lemma fuse_blank f : vfuse (@blank V SC f) = f.
Proof. reflexivity. Qed.

(** From a blank vector assign_copy is assign. *)
Lemma assign_blank (l : list V) f :
  assign_copy SC RB maxn l (blank SC f) = assign_range SC RB maxn l (blank SC f).
Proof. unfold assign_range. symmetry. now erewrite bind_ok by reflexivity. Qed.

Lemma released_nothing (s : vec) : all_released SC s -> @nothing_held V s.
Proof.
  intros (H0 & H) b l Hb. destruct b as [|b].
  - rewrite H0 in Hb. injection Hb as <-. split; [reflexivity|].
    apply Forall_forall. intros x Hx. now apply repeat_spec in Hx.
  - exfalso. rewrite H in Hb; [discriminate|lia|]. apply nth_error_Some. congruence.
Qed.

Lemma assign_cut (s : vec) (l : list V) k :
  holds SC s [] -> vfuse s = Some k -> k < length l -> length l <= vcap s -> vb s = 0 ->
  exists s', delegating (assign_range SC RB maxn l) s = Throw ElemThrow s' /\ all_released SC s'.
Proof.
  intros H Hf Hk Hc Hb.
  destruct (assign_throw_stay SC RB maxn HSC HRB Hmax s [] l k H Hf Hk Hc (or_introl Hb)) as (s1 & E & H1).
  destruct (destructor_spec SC RB maxn HSC HRB Hmax s1 _ H1) as (s2 & E2 & R).
  exists s2. split; [|exact R]. unfold delegating. now rewrite E, E2.
Qed.

Lemma delegating_eq (m m' : M vec unit) (s : @vec V) :
  m s = m' s -> delegating m s = delegating m' s.
Proof. unfold delegating. now intros ->. Qed.

Lemma assign_released (l : list V) k :
  length l <= SC -> k < length l ->
  exists s, delegating (assign_copy SC RB maxn l) (blank SC (Some k)) = Throw ElemThrow s /\
    nothing_held s.
Proof.
  intros Hc Hk. rewrite (delegating_eq _ _ _ (assign_blank l (Some k))).
  destruct (assign_cut (blank SC (Some k)) l k (holds_blank _) eq_refl Hk Hc eq_refl) as (s & E & R).
  exists s. split; [exact E|]. now apply released_nothing.
Qed.

Lemma assign_broken (l : list V) k :
  SC < length l -> k < length l -> room maxn (length l) ->
  delegating (assign_copy SC RB maxn l) (blank SC (Some k)) = UB.
Proof.
  intros Hc Hk Hr. rewrite (delegating_eq _ _ _ (assign_blank l (Some k))).
  destruct (assign_throw_move SC RB maxn HSC HRB Hmax (blank SC (Some k)) [] l k
              (holds_blank _) eq_refl Hk Hr (or_introl Hc)) as (s1 & E & D).
  unfold delegating. now rewrite E, D.
Qed.

Lemma blank_destructor f : destructor (@blank V SC f) = Ok tt (blank SC f).
Proof. reflexivity. Qed.

Lemma blank_nothing f : nothing_held (@blank V SC f).
Proof.
  apply released_nothing. split; [reflexivity|]. intros j J1 J2. cbn in J2. lia.
Qed.

Lemma choose_fails f n :
  (SC < n) -> (maxn < N.of_nat n)%N ->
  choose_data SC RB maxn (N.of_nat n) (@blank V SC f) = Throw BadAlloc (blank SC f).
Proof.
  intros H1 H2. unfold choose_data. rewrite bind_get.
  replace (negb (is_static (@blank V SC f))) with false by reflexivity.
  replace (N.of_nat SC <? N.of_nat n)%N with true by (symmetry; apply N.ltb_lt; lia).
  apply bind_throw. unfold allocate.
  replace (maxn <? N.of_nat n)%N with true by (symmetry; now apply N.ltb_lt). reflexivity.
Qed.

Lemma assign_no_memory (l : list V) f :
  SC < length l -> (maxn < N.of_nat (length l))%N ->
  exists s, delegating (assign_copy SC RB maxn l) (blank SC f) = Throw BadAlloc s /\ nothing_held s.
Proof.
  intros H1 H2. exists (blank SC f). split; [|apply blank_nothing].
  unfold delegating, assign_copy. erewrite bind_throw by (now apply choose_fails).
  now rewrite blank_destructor.
Qed.

(** The construction loop of resize, which advances m_end first. *)
Lemma extend_throws k : forall n bs b c (v : V) (xs : list V),
  length xs + n <= c -> k < n ->
  nth_error bs b = Some (Blk (buf c xs)) ->
  extend_loop n (CopyOf v) (mkVec bs b (b, length xs) c (Some k)) =
  Throw ElemThrow (mkVec (upd bs b (Blk (buf c (xs ++ repeat v k)))) b (b, S (length xs + k)) c None).
Proof.
  induction k as [|k IH]; intros n bs b c v xs Hc Hk H; (destruct n as [|n]; [lia|]);
    cbn [extend_loop]; rewrite bind_get; cbn [ve fst snd];
    unfold set_end at 1; erewrite bind_ok by reflexivity;
    unfold with_end; cbn [blocks vb ve vcap vfuse].
  - cbn [repeat]. rewrite app_nil_r, Nat.add_0_r, upd_nth_id by exact H.
    apply bind_throw. unfold construct. apply bind_throw. reflexivity.
  - assert (L : b < length bs) by (apply nth_error_Some; congruence).
    erewrite bind_ok.
    2:{ unfold construct. erewrite bind_ok by reflexivity. unfold with_fuse; cbn [blocks vb ve vcap vfuse].
        eapply begin_life_mid with (A := map Live xs) (B := repeat Raw (c - length xs - 1)).
        - rewrite H. unfold buf. destruct (c - length xs) as [|d] eqn:E; [lia|].
          cbn [repeat]. do 4 f_equal. f_equal. lia.
        - now rewrite map_length. }
    replace (S (length xs)) with (length (xs ++ [v])) by (rewrite app_length; cbn; lia).
    rewrite IH.
    + rewrite upd_upd_same, <- app_assoc. cbn [app repeat]. do 3 f_equal. rewrite app_length; cbn; lia.
    + rewrite app_length; cbn; lia.
    + lia.
    + rewrite nth_error_upd_eq by exact L. unfold buf. rewrite map_app, <- app_assoc. cbn [map app].
      do 5 f_equal. rewrite app_length; cbn; lia.
Qed.

Lemma count_broken n k :
  k < n -> room maxn n -> make moved dflt SC RB maxn (FromCount n) (Some k) = @UB vec unit.
Proof.
  intros Hk Hr. unfold make, delegating. cbn [body]. unfold resize, resize_val.
  destruct (reserve_spec moved SC RB maxn HSC HRB Hmax (blank SC (Some k)) [] n (holds_blank _) Hr)
    as (s1 & E & H1 & F1 & C1 & _).
  rewrite Nat2N.id.
  assert (X : exists s', (reserve moved SC RB maxn (N.of_nat n);;;
     (let* m := msize in cut_loop (m - n);;; (let* m0 := msize in extend_loop (n - m0) (CopyOf dflt))))
     (blank SC (Some k)) = Throw ElemThrow s' /\ destructor s' = UB).
  { erewrite bind_ok by exact E.
    erewrite bind_ok by (apply msize_spec; apply H1). cbn [length Nat.sub cut_loop].
    erewrite bind_ok by reflexivity.
    erewrite bind_ok by (apply msize_spec; apply H1). cbn [length]. rewrite Nat.sub_0_r.
    apply (holds_owns SC RB maxn HSC HRB Hmax) in H1. destruct H1 as (He & Hc & Hown).
    destruct s1 as [bs b e c f]. cbn [blocks vb ve vcap vfuse] in *. subst e.
    cbn in F1. subst f. pose proof Hown as (Hn & _). cbn [blocks vb] in Hn.
    assert (L : b < length bs) by (apply nth_error_Some; congruence).
    eexists. split.
    - apply (extend_throws k n bs b c dflt []); auto.
    - unfold destructor. apply bind_ub. unfold destroy_all. rewrite bind_get. cbn [ve vb fst snd].
      rewrite Nat.eqb_refl.
      eapply (destroy_from_raw SC RB maxn HSC HRB Hmax) with (A := []) (xs := repeat dflt k) (B := repeat Raw (c - k - 1)).
      + rewrite nth_error_upd_eq by exact L. unfold buf. cbn [app]. rewrite repeat_length.
        do 3 f_equal. destruct (c - k) as [|d] eqn:Ed; [lia|]. cbn [repeat]. do 2 f_equal. lia.
      + reflexivity.
      + rewrite repeat_length. cbn [length]. lia. }
  destruct X as (s' & -> & ->). reflexivity.
Qed.

Lemma count_no_memory n f :
  SC < n -> (maxn < N.of_nat n)%N ->
  exists s, make moved dflt SC RB maxn (FromCount n) f = @Throw vec unit BadAlloc s /\ nothing_held s.
Proof.
  intros H1 H2. exists (blank SC f). split; [|apply blank_nothing].
  unfold make, delegating. cbn [body]. unfold resize, resize_val.
  erewrite bind_throw.
  2:{ unfold reserve. rewrite bind_get. cbn [vcap blank with_fuse init_vec].
      replace (N.of_nat n <=? N.of_nat SC)%N with false by (symmetry; apply N.leb_gt; lia).
      erewrite bind_throw by (now apply choose_fails). reflexivity. }
  now rewrite blank_destructor.
Qed.


(** Enough fuse is as good as none. *)
Definition burns {A} (n : nat) (m : M (@vec V) A) : Prop :=
  forall s a s' d, m (with_fuse None s) = Ok a s' ->
    vfuse s' = None /\ m (with_fuse (Some (n + d)) s) = Ok a (with_fuse (Some d) s').

Lemma with_fuse_id f (s : @vec V) : vfuse s = f -> with_fuse f s = s.
Proof. destruct s. cbn. now intros ->. Qed.

Lemma burns_bind {A B} n1 n2 n (m : M (@vec V) A) (k : A -> M (@vec V) B) :
  n = n1 + n2 -> burns n1 m -> (forall a, burns n2 (k a)) -> burns n (bind m k).
Proof.
  intros -> Hm Hk s a s' d E. unfold bind in *.
  destruct (m (with_fuse None s)) as [a1 s1|e s1| |] eqn:E1; try discriminate.
  destruct (Hm _ _ _ (n2 + d) E1) as [F1 E2]. rewrite <- Nat.add_assoc, E2.
  apply Hk. now rewrite (with_fuse_id None s1 F1).
Qed.

Lemma burns_get {A} n (k : @vec V -> M (@vec V) A) :
  (forall f s, k (with_fuse f s) = k s) -> (forall s, burns n (k s)) ->
  burns n (let* s := get in k s).
Proof.
  intros Hk H s a s' d E. rewrite bind_get in *. rewrite Hk in E |- *. now apply H.
Qed.

Lemma burns_ret {A} (a : A) : burns 0 (ret a).
Proof. intros s a' s' d E. injection E as <- <-. split; reflexivity. Qed.

Lemma burns_set_end p : burns 0 (@set_end V p).
Proof. intros s a' s' d E. injection E as <- <-. split; reflexivity. Qed.

Lemma burns_set_buf b p c : burns 0 (@set_buf V b p c).
Proof. intros s a' s' d E. injection E as <- <-. split; reflexivity. Qed.

Lemma burns_allocate n : burns 0 (@allocate V maxn n).
Proof.
  intros s a' s' d E. unfold allocate in *. destruct (maxn <? n)%N; [discriminate|].
  injection E as <- <-. split; reflexivity.
Qed.

Lemma burns_deallocate b n : burns 0 (@deallocate V b n).
Proof.
  intros s a' s' d E. unfold deallocate in *. cbn [blocks with_fuse] in *.
  destruct b; [discriminate|]. destruct (nth_error (blocks s) (S b)) as [[l|]|]; try discriminate.
  destruct ((length l =? n) && forallb is_raw l); [|discriminate].
  injection E as <- <-. split; reflexivity.
Qed.

Lemma burns_begin p v : burns 0 (@begin_life V p v).
Proof.
  intros s a' s' d E. unfold begin_life in *. cbn [blocks with_fuse] in *.
  destruct (slot_at p (blocks s)) as [[|w]|]; try discriminate.
  injection E as <- <-. split; reflexivity.
Qed.

Lemma burns_tick : burns 1 (@tick V).
Proof. intros s a' s' d E. injection E as <- <-. split; reflexivity. Qed.

Lemma burns_choose n : burns 0 (@choose_data V SC RB maxn n).
Proof.
  unfold choose_data. apply burns_get; [reflexivity|]. intros s.
  destruct (negb (is_static s)).
  - destruct (N.of_nat (vcap s) <? n)%N.
    + destruct (grow_cap _ _ _); [|intros ? ? ? ? ?; discriminate].
      eapply burns_bind with (n1 := 0) (n2 := 0); [reflexivity|apply burns_allocate|intros; apply burns_ret].
    + destruct (n <? N.of_nat RB)%N; apply burns_ret.
  - destruct (N.of_nat SC <? n)%N; [|apply burns_ret].
    eapply burns_bind with (n1 := 0) (n2 := 0); [reflexivity|apply burns_allocate|intros; apply burns_ret].
Qed.

Lemma burns_append (l : list V) : burns (length l) (append_loop l).
Proof.
  induction l as [|x l IH]; cbn [append_loop length]; [apply burns_ret|].
  apply burns_get; [reflexivity|]. intros s.
  apply burns_bind with (n1 := 1) (n2 := length l); [reflexivity| |].
  - unfold construct. eapply burns_bind with (n1 := 1) (n2 := 0);
      [reflexivity|apply burns_tick|intros; apply burns_begin].
  - intros _. apply burns_get; [reflexivity|]. intros s1.
    apply burns_bind with (n1 := 0) (n2 := length l); [reflexivity|apply burns_set_end|auto].
Qed.

Lemma burns_assign (l : list V) : burns (length l) (assign_copy SC RB maxn l).
Proof.
  unfold assign_copy. apply burns_bind with (n1 := 0) (n2 := length l); [reflexivity|apply burns_choose|].
  intros cdr. apply burns_bind with (n1 := 0) (n2 := length l); [reflexivity|apply burns_set_end|].
  intros _. apply burns_bind with (n1 := length l) (n2 := 0); [lia|apply burns_append|].
  intros _. apply burns_get; [reflexivity|]. intros s.
  apply burns_bind with (n1 := 0) (n2 := 0); [reflexivity| |].
  - destruct (negb (is_static s) && negb (vb s =? fst cdr)); [apply burns_deallocate|apply burns_ret].
  - intros _. apply burns_get; [reflexivity|]. intros s1. apply burns_set_buf.
Qed.

Lemma holds_fuse f (s : @vec V) xs : holds SC s xs -> holds SC (with_fuse f s) xs.
Proof. exact (fun H => H). Qed.

Lemma assign_ok (l : list V) f :
  room maxn (length l) -> none_throws f (length l) ->
  exists s, delegating (assign_copy SC RB maxn l) (blank SC f) = Ok tt s /\ holds SC s l.
Proof.
  intros Hr Hf.
  destruct (assign_range_spec SC RB maxn HSC HRB Hmax (blank SC None) [] l (holds_blank _) eq_refl Hr)
    as (s & E & H & F).
  rewrite <- assign_blank in E. destruct f as [k|].
  - pose proof (burns_assign l (@init_vec V SC) tt s (k - length l) E) as [_ E2].
    replace (length l + (k - length l)) with k in E2 by (cbn in Hf; lia).
    exists (with_fuse (Some (k - length l)) s). split; [|exact H].
    unfold delegating. change (blank SC (Some k)) with (with_fuse (Some k) (@init_vec V SC)).
    now rewrite E2.
  - exists s. split; [|exact H]. unfold delegating. now rewrite E.
Qed.

Lemma burns_extend n v : burns n (@extend_loop V n (CopyOf v)).
Proof.
  induction n as [|n IH]; cbn [extend_loop]; [apply burns_ret|].
  apply burns_get; [reflexivity|]. intros s.
  apply burns_bind with (n1 := 0) (n2 := S n); [reflexivity|apply burns_set_end|]. intros _.
  apply burns_bind with (n1 := 1) (n2 := n); [reflexivity| |auto].
  unfold construct. eapply burns_bind with (n1 := 1) (n2 := 0);
    [reflexivity|apply burns_tick|intros; apply burns_begin].
Qed.

Lemma count_ok n f :
  room maxn n -> none_throws f n ->
  exists s, make moved dflt SC RB maxn (FromCount n) f = Ok tt s /\ holds SC s (repeat dflt n).
Proof.
  intros Hr Hf. unfold make, delegating. cbn [body]. unfold resize, resize_val. rewrite Nat2N.id.
  destruct (reserve_spec moved SC RB maxn HSC HRB Hmax (blank SC f) [] n (holds_blank _) Hr)
    as (s1 & E & H1 & F1 & C1 & _). cbn in F1.
  assert (X : exists s', extend_loop n (CopyOf dflt) s1 = Ok tt s' /\ holds SC s' (repeat dflt n)).
  { apply (holds_owns SC RB maxn HSC HRB Hmax) in H1. destruct H1 as (He & Hc & Hown).
    destruct s1 as [bs b e c f0]. cbn [blocks vb ve vcap vfuse] in *. subst e f0.
    pose proof Hown as (Hn & _). cbn [blocks vb] in Hn.
    pose proof (extend_loop_spec SC RB maxn HSC HRB Hmax n bs b c dflt [] C1 Hn) as X0. cbn [length Nat.add app] in X0.
    assert (HH : forall g, holds SC (mkVec (upd bs b (Blk (buf c (repeat dflt n)))) b (b, n) c g) (repeat dflt n)).
    { intros g. apply (holds_owns SC RB maxn HSC HRB Hmax). cbn [vb ve vcap]. rewrite repeat_length.
      split; [reflexivity|]. split; [exact C1|]. eapply owns_upd; [exact Hown|].
      unfold buf. rewrite !app_length, !map_length, !repeat_length. cbn [length]. lia. }
    destruct f as [k|].
    - pose proof (burns_extend n dflt (mkVec bs b (b, 0) c None) tt _ (k - n) X0) as [_ E2].
      replace (n + (k - n)) with k in E2 by (cbn in Hf; lia).
      eexists. split; [exact E2|]. apply HH.
    - eexists. split; [exact X0|]. apply HH. }
  destruct X as (s' & X & H'). exists s'. split; [|exact H'].
  erewrite bind_ok by exact E.
  erewrite bind_ok by (apply msize_spec; apply H1). cbn [length Nat.sub cut_loop].
  erewrite bind_ok by reflexivity.
  erewrite bind_ok by (apply msize_spec; apply H1). cbn [length]. rewrite Nat.sub_0_r.
  now rewrite X.
Qed.

(** All constructors. *)
Lemma make_shape c f :
  (exists n, c = FromCount n) \/
  make moved dflt SC RB maxn c f = delegating (assign_copy SC RB maxn (contents dflt c)) (blank SC f).
Proof. destruct c; [left; eauto|right; reflexivity..]. Qed.

Lemma make_ok c f :
  room maxn (length (contents dflt c)) -> none_throws f (length (contents dflt c)) ->
  exists s, make moved dflt SC RB maxn c f = Ok tt s /\ holds SC s (contents dflt c).
Proof.
  intros Hr Hf. destruct (make_shape c f) as [(n & ->) | ->]; [|now apply assign_ok].
  cbn [contents] in *. rewrite repeat_length in *. now apply count_ok.
Qed.

Lemma make_no_memory c f :
  SC < length (contents dflt c) -> (maxn < N.of_nat (length (contents dflt c)))%N ->
  exists s, make moved dflt SC RB maxn c f = Throw BadAlloc s /\ nothing_held s.
Proof.
  intros H1 H2. destruct (make_shape c f) as [(n & ->) | ->]; [|now apply assign_no_memory].
  cbn [contents] in *. rewrite repeat_length in *. now apply count_no_memory.
Qed.

Lemma make_in_place c k :
  (forall n, c <> FromCount n) ->
  length (contents dflt c) <= SC -> k < length (contents dflt c) ->
  exists s, make moved dflt SC RB maxn c (Some k) = Throw ElemThrow s /\ nothing_held s.
Proof.
  intros Hn H1 H2. destruct (make_shape c (Some k)) as [(n & ->) | ->]; [now destruct (Hn n)|].
  now apply assign_released.
Qed.

Lemma make_broken c k :
  SC < length (contents dflt c) -> room maxn (length (contents dflt c)) ->
  k < length (contents dflt c) ->
  make moved dflt SC RB maxn c (Some k) = UB.
Proof.
  intros H1 H2 H3. destruct (make_shape c (Some k)) as [(n & ->) | ->]; [|now apply assign_broken].
  cbn [contents] in *. rewrite repeat_length in *. now apply count_broken.
Qed.

(** The copy constructor. *)
Lemma copy_shape (b : vec) (ys : list V) f :
  holds SC b ys ->
  copy_same SC RB maxn b f =
  match delegating (assign_copy SC RB maxn ys) (blank SC f) with
  | Ok a s => Ok a (s, b) | Throw e s => Throw e (s, b) | UB => UB | Diverge => Diverge
  end.
Proof.
  intros H. unfold copy_same. erewrite bind_ok by (apply onR_ok; exact (read_all_spec SC RB maxn HSC HRB Hmax _ _ H)).
  reflexivity.
Qed.
End P.
End Sm.
