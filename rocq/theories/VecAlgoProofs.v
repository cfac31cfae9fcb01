(** Proofs about the algorithms on the library's vectors: they follow the algorithms on
    sequences step by step. *)
From Coq Require Import List Arith NArith ZArith Bool Lia.
From Verif Require Import Base AlgoModel AlgoSpec AlgoProofs AlgoProps VecAlgoModel VecAlgoSpec.
Import ListNotations.

Section Generic.
Context {S X V : Type}.
Variable A : vops S X.
Variable eqb : X -> V -> bool.
Variable moved : X -> X.
Variable part : X -> V.
Variable R : S -> list X -> Prop.

Record follows : Prop := {
  ok_size : forall s l, R s l -> v_size A s = Ok (length l) s;
  ok_read : forall s l i x, R s l -> nth_error l i = Some x -> v_read A i s = Ok x s;
  ok_move : forall s l i r x, R s l -> r < i -> nth_error l i = Some x ->
    exists s', v_move A r i s = Ok tt s' /\ R s' (upd (upd l r x) i (moved x));
  ok_erase : forall s l i, R s l -> i < length l ->
    exists s', v_erase A i s = Ok tt s' /\ R s' (firstn i l ++ skipn (Datatypes.S i) l);
  ok_range : forall s l i, R s l -> i <= length l ->
    exists s', v_erase_range A i (length l) s = Ok tt s' /\ R s' (firstn i l)
}.
Hypothesis OK : follows.

(** [P] does what [Q] does on the elements; and if [Q] only looks, so does [P]. *)
Definition same {B} (r : res S B) (q : res (list X) B) : Prop :=
  match q with
  | Ok a l => exists s', r = Ok a s' /\ R s' l
  | Throw e l => exists s', r = Throw e s' /\ R s' l
  | _ => True
  end.
Definition looks {B} (r : res S B) (q : res (list X) B) (s : S) (l : list X) : Prop :=
  match q with
  | Ok a l' => l' = l /\ r = Ok a s
  | Throw e l' => l' = l /\ r = Throw e s
  | _ => True
  end.
Definition alike (tv : X -> M S bool) (tl : X -> M (list X) bool) : Prop :=
  forall x s l, R s l -> looks (tv x s) (tl x l) s l.

Lemma looks_bind {B C} (P : M S B) (Q : M (list X) B) (f : B -> M S C) (g : B -> M (list X) C) s l :
  looks (P s) (Q l) s l -> (forall b, looks (f b s) (g b l) s l) -> looks (bind P f s) (bind Q g l) s l.
Proof.
  intros H K. unfold bind. destruct (Q l) as [a l'|e l'| |]; cbn in H |- *; auto.
  - destruct H as (-> & ->). apply K.
  - destruct H as (-> & ->). auto.
Qed.
Lemma looks_same {B} (r : res S B) q s l : R s l -> looks r q s l -> same r q.
Proof. intros H. unfold looks, same. destruct q; auto; intros (-> & ->); eauto. Qed.
Lemma same_bind {B C} (P : M S B) (Q : M (list X) B) (f : B -> M S C) (g : B -> M (list X) C) s l :
  same (P s) (Q l) -> (forall b s' l', Q l = Ok b l' -> R s' l' -> same (f b s') (g b l')) ->
  same (bind P f s) (bind Q g l).
Proof.
  intros H K. unfold bind. destruct (Q l) as [a l'|e l'| |] eqn:E; cbn in H |- *; auto.
  - destruct H as (s' & -> & H). eauto.
  - destruct H as (s' & -> & H). eauto.
Qed.

Lemma read_looks s l i : R s l -> looks (v_read A i s) (read i l) s l.
Proof.
  intros H. unfold read. destruct (nth_error l i) eqn:E; cbn; auto. split; [reflexivity|]. eapply ok_read; eauto.
Qed.
Lemma size_looks s l : R s l -> looks (v_size A s) (size l) s l.
Proof. intros H. cbn. split; [reflexivity|]. now apply ok_size. Qed.
Lemma equals_alike v : alike (vequals A eqb part v) (equals eqb part v).
Proof.
  intros x s l H. unfold vequals, equals. apply looks_bind; [|intros w; cbn; auto].
  destruct v as [v|i]; [cbn; auto|]. unfold vderef, deref. apply looks_bind; [now apply read_looks|]. intros w. cbn. auto.
Qed.
Lemma call_alike p : alike (vcall p) (call p).
Proof. intros x s l H. unfold vcall, call. destruct (p x); cbn; auto. Qed.

Lemma find_loop_looks tv tl : alike tv tl -> forall n i s l, R s l ->
  looks (vfind_loop A tv n i s) (find_loop tl n i l) s l.
Proof.
  intros T. induction n as [|n IH]; intros i s l H; [cbn; auto|]. cbn [vfind_loop find_loop].
  apply looks_bind; [now apply read_looks|]. intros x. apply looks_bind; [now apply T|]. intros b.
  destruct b; [cbn; auto|]. now apply IH.
Qed.
Lemma find_looks tv tl s l : alike tv tl -> R s l -> looks (vfind A tv s) (find tl l) s l.
Proof. intros T H. apply looks_bind; [now apply size_looks|]. intros n. now apply find_loop_looks. Qed.
Lemma pointer_looks tv tl s l : alike tv tl -> R s l ->
  looks (vpointer A (vfind A tv) s) (pointer (find tl) l) s l.
Proof.
  intros T H. unfold vpointer, pointer. apply looks_bind; [now apply find_looks|]. intros i.
  apply looks_bind; [now apply size_looks|]. intros n. destruct (i =? n); [cbn; auto|].
  apply looks_bind; [now apply read_looks|]. intros x. cbn. auto.
Qed.

Lemma remove_loop_same tv tl : alike tv tl -> forall n i r s l, R s l -> r < i ->
  same (vremove_loop A tv n i r s) (remove_loop moved tl n i r l).
Proof.
  intros T. induction n as [|n IH]; intros i r s l H L; [cbn; eauto|]. cbn [vremove_loop remove_loop].
  unfold bind at 1 4, read. destruct (nth_error l i) as [x|] eqn:E; [|exact I].
  rewrite (ok_read OK s l i x H E). unfold bind at 1 3.
  pose proof (T x s l H) as B. destruct (tl x l) as [b l'|e l'| |]; cbn [looks] in B; [| |exact I|exact I];
    destruct B as (-> & ->); [|cbn; eauto].
  destruct b; [apply IH; auto|].
  assert (i < length l) by (apply nth_error_Some; congruence).
  unfold write. unfold bind at 2. rewrite (proj2 (Nat.ltb_lt _ _)) by lia.
  unfold bind at 2. rewrite (proj2 (Nat.ltb_lt _ _)) by (rewrite upd_length; lia).
  destruct (ok_move OK s l i r x H L E) as (s' & E' & H'). unfold bind. rewrite E'. apply IH; [exact H'|lia].
Qed.
Lemma remove_same tv tl s l : alike tv tl -> R s l -> same (vremove A tv s) (remove moved tl l).
Proof.
  intros T H. unfold vremove, remove. apply same_bind; [eapply looks_same; [eassumption|apply size_looks; assumption]|].
  intros n s1 l1 E H1. apply same_bind; [eapply looks_same; [eassumption|apply find_loop_looks; assumption]|].
  intros f s2 l2 E2 H2. destruct (f =? n); [cbn; eauto|]. apply remove_loop_same; auto.
Qed.
Lemma found_same tv tl s l : alike tv tl -> R s l ->
  same (verase_found A (vfind A tv) s) (erase_found (find tl) l).
Proof.
  intros T H. unfold verase_found, erase_found.
  apply same_bind; [eapply looks_same; [eassumption|apply find_looks; assumption]|]. intros i s1 l1 E1 H1.
  apply same_bind; [eapply looks_same; [eassumption|apply size_looks; assumption]|]. intros n s2 l2 E2 H2.
  destruct (i =? n); [cbn; eauto|]. apply same_bind; [|intros; cbn; eauto].
  unfold erase. destruct (i <? length l2) eqn:L; [|exact I]. cbn. apply Nat.ltb_lt in L. now apply ok_erase.
Qed.
Lemma removed_same tv tl s l : alike tv tl -> R s l ->
  same (verase_removed A (vremove A tv) s) (erase_removed (remove moved tl) l).
Proof.
  intros T H. unfold verase_removed, erase_removed.
  apply same_bind; [now apply remove_same|]. intros i s1 l1 E1 H1.
  apply same_bind; [eapply looks_same; [eassumption|apply size_looks; assumption]|]. intros n s2 l2 E2 H2.
  injection E2 as <- <-. apply same_bind; [|intros; cbn; eauto].
  unfold erase_range. destruct (i <=? length l1) eqn:L; [|exact I]. rewrite Nat.leb_refl. cbn [andb same].
  apply Nat.leb_le in L. rewrite skipn_all, app_nil_r. now apply ok_range.
Qed.

Lemma same_leaves {B} (r : res S B) q a ys : same r q -> q = Ok a ys -> leaves R r a ys.
Proof. intros H ->. exact H. Qed.

Lemma referred_answers v w l : referred part v l = Some w -> answers (equals eqb part v) (fun x => eqb x w) l.
Proof.
  destruct v as [v|i]; cbn [referred]; intros H.
  - injection H as ->. intros x _. apply equals_outside.
  - destruct (nth_error l i) as [y|] eqn:E; [|discriminate]. injection H as <-. now apply equals_part.
Qed.

Lemma searches_ok : searches A eqb part R.
Proof.
  intros s l H.
  assert (F : forall tv tl m, alike tv tl -> answers tl m l -> exists i, first_match m l i /\
     vfind A tv s = Ok i s /\ vpointer A (vfind A tv) s = Ok (if i =? length l then None else Some i) s).
  { intros tv tl m T B. exists (index m l). split; [apply index_first|]. split.
    - pose proof (find_looks tv tl s l T H) as L. rewrite (find_ok tl m l B) in L. exact (proj2 L).
    - pose proof (pointer_looks tv tl s l T H) as L. rewrite (pointer_ok tl m l B) in L. exact (proj2 L). }
  repeat apply conj.
  - intros m. apply (F _ (call (fun x => Some (m x)))); [apply call_alike|]. intros x _. reflexivity.
  - intros v w W. apply (F _ (equals eqb part v)); [apply equals_alike|]. now apply referred_answers.
  - intros m.
    assert (E : forall k, vfind A (vcall (fun x => Some (k x))) s = Ok (index k l) s).
    { intros k. pose proof (find_looks _ _ s l (call_alike (fun x => Some (k x))) H) as L.
      rewrite (find_ok _ k l) in L by (intros x _; reflexivity). exact (proj2 L). }
    assert (N : (index (fun x => negb (m x)) l =? length l) = forallb m l).
    { clear. induction l as [|x l IH]; [reflexivity|]. cbn. destruct (m x); cbn; [exact IH|reflexivity]. }
    assert (N' : (index m l =? length l) = negb (existsb m l)).
    { clear. induction l as [|x l IH]; [reflexivity|]. cbn. destruct (m x); cbn; [reflexivity|exact IH]. }
    unfold vqall_of, vqany_of, vqnone_of. repeat apply conj; unfold bind.
    + change (vcall (negated (fun x => Some (m x)))) with (@vcall S X (fun x => Some (negb (m x)))).
      rewrite E, (ok_size OK s l H), N. reflexivity.
    + rewrite E, (ok_size OK s l H), N', negb_involutive. reflexivity.
    + rewrite E, (ok_size OK s l H), N'. reflexivity.
Qed.

Lemma erases_ok : erases A eqb part R.
Proof.
  intros s l H. repeat apply conj.
  - intros m. split.
    + eapply same_leaves; [apply found_same; [apply call_alike|exact H]|]. apply erase_found_ok. intros x _. reflexivity.
    + eapply same_leaves; [apply removed_same; [apply call_alike|exact H]|]. apply erase_removed_ok. reflexivity.
  - intros v w W. eapply same_leaves; [apply found_same; [apply equals_alike|exact H]|].
    apply erase_found_ok. now apply referred_answers.
  - intros w. eapply same_leaves; [apply removed_same; [apply equals_alike|exact H]|].
    apply (erase_removed_ok moved _ (fun x => eqb x w)). reflexivity.
Qed.

Lemma interruptions_ok : interruptions A moved R.
Proof.
  intros s pre x rest H p m Hp Hx. destruct (C45_throwing moved p m pre rest x Hp Hx) as (E1 & E2 & _). split.
  - destruct (existsb m pre).
    + eapply same_leaves; [apply found_same; [apply call_alike|exact H]|]. exact E1.
    + unfold erase_first_if, qfind_if, erase_found, bind in E1. unfold verase_first_if, vqfind_if, verase_found, bind.
      pose proof (find_looks _ _ s _ (call_alike p) H) as L.
      destruct (find (call p) (pre ++ x :: rest)) as [i l'|e l'| |] eqn:F; try discriminate.
      * exfalso. destruct L as (-> & _). cbn [size] in E1. destruct (i =? _); [discriminate|].
        unfold erase in E1. destruct (i <? _); discriminate.
      * destruct L as (-> & L). injection E1 as ->. now rewrite L.
  - pose proof (removed_same _ _ s _ (call_alike p) H) as L. unfold erase_all_if in E2. rewrite E2 in L. exact L.
Qed.
End Generic.

(** ** static_vector *)
From Verif Require Import SeqSpec VecCommon.
From Verif Require StaticVectorModel StaticVectorSpec StaticVectorProofs StaticMoveModel StaticMoveProofs.
From Verif Require SmallVectorModel SmallVectorSpec SmallVectorProofs.
From Verif Require PodVectorModel PodVectorSpec PodVectorProofs.

Lemma split_at {B} (l : list B) i x : nth_error l i = Some x ->
  l = firstn i l ++ x :: skipn (Datatypes.S i) l /\ length (firstn i l) = i.
Proof.
  revert i. induction l as [|y l IH]; intros [|i] H; try discriminate; cbn in *.
  - injection H as ->. auto.
  - destruct (IH i H) as (E & L). split; [f_equal; exact E|lia].
Qed.
(** Cut a sequence at two places. *)
Lemma split_two {B} (l : list B) r i x : r < i -> nth_error l i = Some x ->
  exists a o b c, l = a ++ o :: b ++ x :: c /\ length a = r /\ length (a ++ o :: b) = i.
Proof.
  intros L H. destruct (split_at l i x H) as (E & N). set (f := firstn i l) in *. set (c := skipn (Datatypes.S i) l) in *.
  clearbody f c. subst l.
  destruct (nth_error f r) as [o|] eqn:Ho; [|apply nth_error_None in Ho; lia].
  destruct (split_at f r o Ho) as (E' & N'). set (a := firstn r f) in *. set (b := skipn (Datatypes.S r) f) in *.
  clearbody a b. subst f. exists a, o, b, c. split; [|auto]. now rewrite <- app_assoc.
Qed.
Lemma upd_two {B} (a b c : list B) o x y : 
  upd (upd (a ++ o :: b ++ x :: c) (length a) x) (length (a ++ o :: b)) y = a ++ x :: b ++ y :: c.
Proof.
  rewrite upd_app_mid by reflexivity.
  replace (a ++ x :: b ++ x :: c) with ((a ++ x :: b) ++ x :: c) by now rewrite <- app_assoc.
  rewrite upd_app_mid by (rewrite !app_length; reflexivity). now rewrite <- app_assoc.
Qed.

Section Static.
Import StaticVectorModel StaticVectorSpec StaticVectorProofs.
Context {V : Type}.
Variable moved : V -> V.
Variable dflt : V.
Variable Capacity : nat.
Hypothesis Hcap63 : (N.of_nat Capacity < two63)%N.

Definition static_holds (s : @sv V) (xs : list V) : Prop := represents Capacity s xs /\ fuse s = None.

Lemma static_follows : follows (static_ops moved Capacity) moved static_holds.
Proof.
  split.
  - intros s l ((_ & E & _) & _). cbn. now rewrite E.
  - intros s l i x ((D & Z & L & N) & _) E. cbn. unfold read.
    assert (i < length l) by (apply nth_error_Some; congruence). rewrite N by lia. now rewrite E.
  - intros s l i r x (H & F) L E. pose proof (represents_inv Capacity Hcap63 s l H) as Es. rewrite F in Es. subst s.
    destruct H as (_ & _ & C & _). destruct (split_two l r i x L E) as (a & o & b & c & -> & <- & <-).
    rewrite upd_two. cbn [v_move static_ops]. 
    exists (repr Capacity (a ++ x :: b ++ moved x :: c) None). split.
    2:{ split; [|reflexivity]. apply (represents_repr Capacity Hcap63). revert C. rewrite !app_length. cbn. rewrite !app_length. cbn. lia. }
    unfold repr. rewrite !map_app. cbn [map]. rewrite !map_app. cbn [map].
    unfold bind.
    replace ((map Live a ++ Live o :: map Live b ++ Live x :: map Live c) ++ repeat Raw (Capacity - length (a ++ o :: b ++ x :: c)))
      with ((map Live a ++ Live o :: map Live b) ++ Live x :: map Live c ++ repeat Raw (Capacity - length (a ++ o :: b ++ x :: c)))
      by (rewrite <- !app_assoc; cbn [app]; rewrite <- !app_assoc; reflexivity).
    rewrite move_from_mid by (rewrite !app_length; cbn; rewrite !map_length; reflexivity).
    rewrite <- app_assoc. cbn [app].
    rewrite StaticMoveProofs.assign_mid by (now rewrite map_length).
    f_equal. f_equal.
    + rewrite <- !app_assoc; cbn [app]; rewrite <- !app_assoc; cbn [app]. do 6 f_equal. f_equal. rewrite !app_length. cbn. rewrite !app_length. reflexivity.
    + rewrite !app_length. cbn. rewrite !app_length. reflexivity.
  - intros s l i (H & F) L. destruct (call_fact moved dflt Capacity Hcap63 s l (Erase i) H F) as (s' & E & H' & F').
    { split; [exact L|exact I]. }
    exists s'. split; [|split; assumption]. cbn [v_erase static_ops].
    cbn [call] in E. unfold position_answer, bind in *. destruct (erase moved Capacity i s); cbn in E; try discriminate.
    injection E as -> _. reflexivity.
  - intros s l i (H & F) L.
    destruct (call_fact moved dflt Capacity Hcap63 s l (EraseRange i (length l)) H F) as (s' & E & H' & F').
    { split; [cbn; lia|tauto]. }
    cbn [spec_step] in E, H'. rewrite (proj2 (Nat.ltb_ge (length l) i)) in E, H' by exact L. cbn [fst snd] in E, H'.
    exists s'. split.
    + cbn [v_erase_range static_ops].
      cbn [call] in E. unfold position_answer, bind in *. destruct (erase_range moved Capacity i (length l) s); cbn in E; try discriminate.
      injection E as -> _. reflexivity.
    + split; [|assumption]. unfold erase_at in H'. now rewrite skipn_all, app_nil_r in H'.
Qed.
End Static.

(** ** small_vector *)
Section Small.
Import SmallVectorModel SmallVectorSpec SmallVectorProofs.
Context {V : Type}.
Variable moved : V -> V.
Variable dflt : V.
Variable SC RB : nat.
Variable maxn : N.
Hypothesis HSC : 0 < SC.
Hypothesis HRB : RB <= SC + 1.
Hypothesis Hmax : (maxn < two63)%N.

Definition small_holds (s : @vec V) (xs : list V) : Prop := holds SC s xs /\ vfuse s = None.

Lemma small_assign_mid bs vb0 ve0 c f b i (A B : list (slot V)) (v w : V) :
  nth_error bs b = Some (Blk (A ++ Live v :: B)) -> i = length A ->
  small_assign (b, i) w (mkVec bs vb0 ve0 c f) =
  Ok tt (mkVec (upd bs b (Blk (A ++ Live w :: B))) vb0 ve0 c f).
Proof.
  intros H ->. unfold small_assign, slot_at, put_slot, with_blocks; cbn [blocks vb ve vcap vfuse fst snd].
  rewrite H. rewrite nth_error_app_mid by reflexivity. now rewrite upd_app_mid.
Qed.

Lemma small_follows : follows (small_ops moved SC RB maxn) moved small_holds.
Proof.
  split.
  - intros s l ((E & _) & _). cbn. unfold msize. rewrite E. cbn. now rewrite Nat.eqb_refl.
  - intros s l i x ((_ & _ & N & _) & _) E. cbn [v_read small_ops]. unfold bind, get.
    destruct (split_at l i x E) as (El & Li). destruct s as [bs b e c f]. cbn [vb blocks vcap] in *.
    rewrite El, map_app in N. cbn [map] in N. rewrite <- app_assoc in N.
    eapply read_mid; [exact N|]. now rewrite map_length.
  - intros s l i r x (H & F) L E. destruct (split_two l r i x L E) as (a & o & b & c & -> & <- & <-).
    rewrite upd_two. destruct s as [bs k e cap f]. cbn [vfuse] in F. subst f.
    destruct H as (He & Hc & N & H0 & H1 & Hj). cbn [vb blocks vcap ve] in *.
    assert (LL : length (a ++ x :: b ++ moved x :: c) = length (a ++ o :: b ++ x :: c)).
    { rewrite !app_length. cbn. rewrite !app_length. reflexivity. }
    assert (KB : k < length bs) by (apply nth_error_Some; congruence).
    set (R := repeat Raw (cap - length (a ++ o :: b ++ x :: c))) in *.
    cbn [v_move small_ops]. unfold bind at 1, get. cbn [vb].
    unfold bind at 1. erewrite (move_from_mid moved bs k e cap None k _ (map Live a ++ Live o :: map Live b) (map Live c ++ R) x).
    2:{ rewrite N, !map_app. cbn [map]. rewrite map_app. cbn [map]. rewrite <- !app_assoc. cbn [app]. now rewrite <- !app_assoc. }
    2:{ rewrite !app_length. cbn. now rewrite !map_length. }
    erewrite (small_assign_mid _ k e cap None k _ (map Live a) (map Live b ++ Live (moved x) :: map Live c ++ R) o x).
    2:{ rewrite nth_error_upd_eq by exact KB. rewrite <- !app_assoc. reflexivity. }
    2:{ now rewrite map_length. }
    eexists. split; [reflexivity|]. split; [|reflexivity].
    unfold holds. cbn [vb blocks vcap ve]. rewrite LL. rewrite !upd_length. repeat apply conj.
    + exact He.
    + exact Hc.
    + rewrite nth_error_upd_eq by (now rewrite upd_length). do 2 f_equal.
      rewrite !map_app. cbn [map]. rewrite map_app. cbn [map]. rewrite <- !app_assoc. cbn [app]. rewrite <- !app_assoc. reflexivity.
    + exact H0.
    + intros K. destruct (H1 K) as (H2 & H3). split; [exact H2|]. now rewrite !nth_error_upd_neq by congruence.
    + intros j J1 J2 J3. rewrite !nth_error_upd_neq by congruence. now apply Hj.
  - intros s l i (H & F) L. destruct (call_spec moved dflt SC RB maxn HSC HRB Hmax s l (Seq (Erase i)) H F I) as (s' & E & H' & F').
    cbn [small_step valid_pos] in E, H'. rewrite (proj2 (Nat.ltb_lt i (length l))) in E, H' by exact L.
    exists s'. split; [|split; assumption]. cbn [v_erase small_ops].
    cbn [call] in E. unfold position_answer, bind in *. destruct (erase moved SC RB maxn (Z.of_nat i) s); cbn in E; try discriminate.
    injection E as -> _. reflexivity.
  - intros s l i (H & F) L.
    destruct (call_spec moved dflt SC RB maxn HSC HRB Hmax s l (Seq (EraseRange i (length l))) H F) as (s' & E & H' & F').
    { cbn. lia. }
    cbn [small_step valid_pos] in E, H'. rewrite Nat.leb_refl, orb_true_r in E, H'. cbn [spec_step] in E, H'.
    rewrite (proj2 (Nat.ltb_ge (length l) i)) in E, H' by exact L. cbn [fst snd] in E, H'.
    exists s'. split.
    + cbn [v_erase_range small_ops].
      cbn [call] in E. unfold position_answer, bind in *.
      destruct (erase_range moved SC RB maxn (Z.of_nat i) (Z.of_nat (length l)) s); cbn in E; try discriminate.
      injection E as -> _. reflexivity.
    + split; [|assumption]. unfold erase_at in H'. now rewrite skipn_all, app_nil_r in H'.
Qed.
End Small.

(** ** pod_vector *)
Section Pod.
Import PodVectorModel PodVectorSpec PodVectorProofs.
Variable A : alc.
Variable T : ety.
Hypothesis HT : ety_ok T.
Variables (bs0 : list mblk) (v0 : pv).

Definition pod_state (s : pst) (xs : list (list N)) : Prop :=
  pod_holds A T (blks (fst s)) (snd s) xs /\ room T (length xs) /\ frame bs0 v0 (blks (fst s)) (snd s).

Lemma room_le n k : n <= k -> room T k -> room T n.
Proof.
  unfold room. intros L H.
  assert (N.of_nat n / 2 <= N.of_nat k / 2)%N by (apply N.div_le_mono; lia).
  pose proof (N.mul_le_mono_r (N.of_nat n + N.of_nat n / 2) (N.of_nat k + N.of_nat k / 2) (N.of_nat (esz T)) ltac:(lia)). lia.
Qed.

Lemma pod_follows : follows (pod_ops T) (fun x => x) pod_state.
Proof.
  split.
  - intros ([bs k] & v) l (H & _ & _). cbn [fst snd blks] in H. cbn [v_size pod_ops].
    destruct (holds_parts A T HT _ _ _ H) as (rest & Hx & Hb & He & Hc & Hl & Hlen & Hn0 & Hc0).
    now apply (psize_spec T HT).
  - intros ([bs k] & v) l i x (H & _ & _) E. cbn [v_read pod_ops]. eapply pat_spec; eauto.
  - intros ([bs k] & v) l i r x (H & Hr & F) L E. cbn [fst snd blks] in H, F.
    cbn [v_move pod_ops]. unfold bind at 1. erewrite pat_spec by eauto.
    destruct (split_two l r i x L E) as (a & o & b & c & -> & <- & <-). rewrite upd_two.
    destruct (holds_parts A T HT _ _ _ H) as (rest & Hx & Hb & He & Hc & Hl & Hlen & Hn0 & Hc0).
    assert (Ex : is_elem T x).
    { rewrite Forall_forall in Hx. apply Hx. eapply nth_error_In; eauto. }
    unfold mbegin at 1. unfold bind at 1. cbn [snd]. rewrite (begin_raw v).
    erewrite bind_ok.
    2:{ eapply (padd_raw A T bs k v v _ 0); [exact Hb|]. rewrite Nat2N.id. revert Hlen. rewrite !app_length. cbn. intros. nia. }
    rewrite Nat2N.id. cbn [Nat.add].
    destruct (write_hole1 A T HT bs k v a o (b ++ x :: c) x H Ex) as (bs' & W & H' & F').
    rewrite W. eexists. split; [reflexivity|]. split; [|split]; cbn [fst snd blks].
    + exact H'.
    + revert Hr. rewrite !app_length. cbn. now rewrite !app_length.
    + eapply frame_trans; eauto.
  - intros ([bs k] & v) l i (H & Hr & F) L. cbn [fst snd blks] in H, F.
    destruct (pshrink_at_spec A T HT bs k v l i 1 H ltac:(lia) Hr) as (v' & bs' & W & H' & F').
    cbn [v_erase pod_ops]. unfold perase, bind. rewrite W. eexists. split; [reflexivity|].
    unfold erase_at in H'. rewrite Nat.add_1_r in H'. split; [|split]; cbn [fst snd blks]; [exact H'| |eapply frame_trans; eauto].
    apply (room_le _ (length l)); [|exact Hr]. rewrite app_length, firstn_length, skipn_length. lia.
  - intros ([bs k] & v) l i (H & Hr & F) L. cbn [fst snd blks] in H, F.
    destruct (pshrink_at_spec A T HT bs k v l i (length l - i) H ltac:(lia) Hr) as (v' & bs' & W & H' & F').
    cbn [v_erase_range pod_ops]. unfold perase_range, bind. rewrite W. eexists. split; [reflexivity|].
    unfold erase_at in H'. replace (i + (length l - i)) with (length l) in H' by lia. rewrite skipn_all, app_nil_r in H'.
    split; [|split]; cbn [fst snd blks]; [exact H'| |eapply frame_trans; eauto].
    apply (room_le _ (length l)); [|exact Hr]. rewrite firstn_length. lia.
Qed.
End Pod.
