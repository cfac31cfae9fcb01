(** Proofs about the error handling settings. *)
From Coq Require Import List Arith NArith ZArith Bool Lia.
From Verif Require Import Base SeqSpec VecCommon SettingsModel SettingsSpec
  StaticVectorModel StaticVectorSpec StaticVectorProofs
  SmallVectorModel SmallVectorSpec SmallVectorProofs FlatModel FlatSpec FlatProofs.
Import ListNotations.

(** Where the default setting does not throw out_of_range, the other one does the same. *)
Definition agree {S A} (m : M S A) (e : E S A) (s : S) : Prop :=
  (forall s', m s <> Throw OutOfRange s') -> e s = Runs (m s).

Lemma agree_lift {S A} (m : M S A) s : agree m (lift m) s.
Proof. now intros _. Qed.

Lemma agree_bind {S A B} (m : M S A) (e : E S A) (k : A -> M S B) (h : A -> E S B) s :
  agree m e s -> (forall a s1, m s = Ok a s1 -> agree (k a) (h a) s1) ->
  agree (bind m k) (ebind e h) s.
Proof.
  intros Hm Hk Hn. unfold ebind. unfold bind in Hn.
  rewrite Hm.
  2:{ intros s' E1. rewrite E1 in Hn. now apply (Hn s'). }
  unfold bind. destruct (m s) as [a s1|ex s1| |] eqn:E1; try reflexivity.
  apply (Hk a s1 eq_refl). exact Hn.
Qed.
Lemma agree_get {S B} (k : S -> M S B) (h : S -> E S B) s :
  agree (k s) (h s) s -> agree (bind get k) (ebind (lift get) h) s.
Proof. intros H. exact H. Qed.
Lemma agree_lift_bind {S A B} (m : M S A) (k : A -> M S B) (h : A -> E S B) s :
  (forall a s1, m s = Ok a s1 -> agree (k a) (h a) s1) -> agree (bind m k) (ebind (lift m) h) s.
Proof. intros H. apply agree_bind; [apply agree_lift|exact H]. Qed.
Lemma agree_check {S} cfg c (s : S) : agree (throw_if c OutOfRange) (out_of_range_if cfg c) s.
Proof.
  intros Hn. destruct c; [now specialize (Hn s)|]. unfold out_of_range_if, assert_.
  destruct cfg as [[] a b]; reflexivity.
Qed.
Lemma agree_check_bind {S B} cfg c (k : unit -> M S B) (h : unit -> E S B) s :
  (c = false -> agree (k tt) (h tt) s) ->
  agree (bind (throw_if c OutOfRange) k) (ebind (out_of_range_if cfg c) h) s.
Proof.
  intros H. apply agree_bind; [apply agree_check|]. intros a s1 E1.
  destruct c; [discriminate|]. injection E1 as <- <-. auto.
Qed.
Lemma bounds_ok {S} cfg c (s : S) : c = true -> bounds_check cfg c s = Runs (Ok tt s).
Proof. intros ->. unfold bounds_check, assert_. now destruct (bounds cfg). Qed.
Lemma assert_ok {S} cfg c (s : S) : c = true -> assert_ cfg c s = Runs (Ok tt s).
Proof. intros ->. reflexivity. Qed.
Lemma ebind_ok {S A B} (e : E S A) (h : A -> E S B) s a s1 :
  e s = Runs (Ok a s1) -> ebind e h s = h a s1.
Proof. intros H. unfold ebind. now rewrite H. Qed.
Lemma agree_bounds {S B} cfg c (m : M S B) (h : unit -> E S B) s :
  c = true -> agree m (h tt) s -> agree m (ebind (bounds_check cfg c) h) s.
Proof. intros Hc H Hn. erewrite ebind_ok by now apply bounds_ok. now apply H. Qed.
Lemma agree_assert {S B} cfg c (m : M S B) (h : unit -> E S B) s :
  c = true -> agree m (h tt) s -> agree m (ebind (assert_ cfg c) h) s.
Proof. intros Hc H Hn. erewrite ebind_ok by now apply assert_ok. now apply H. Qed.
Lemma agree_onL {S A} (m : M S A) (e : E S A) st : agree m e (fst st) -> agree (onL m) (e_onL e) st.
Proof.
  intros H Hn. unfold e_onL, onL in *. rewrite H.
  2:{ intros s' E1. rewrite E1 in Hn. eapply Hn; reflexivity. }
  now destruct (m (fst st)).
Qed.
Lemma agree_on_one {S A} (m : M S A) (e : E S A) i st :
  (forall a, nth_error st i = Some a -> agree m e a) -> agree (on_one m i) (e_on_one e i) st.
Proof.
  intros H Hn. unfold e_on_one, on_one in *. destruct (nth_error st i) as [a|] eqn:Ei; [|reflexivity].
  rewrite (H a eq_refl).
  2:{ intros s' E1. rewrite E1 in Hn. eapply Hn; reflexivity. }
  now destruct (m a).
Qed.
Lemma agree_on_two {S} (m : M (S * S) unit) (e : E (S * S) unit) i j st :
  (forall a b, agree m e (a, b)) -> agree (on_two m i j) (e_on_two e i j) st.
Proof.
  intros H Hn. unfold e_on_two, on_two in *. destruct (nth_error st i) as [a|] eqn:Ei; [|reflexivity].
  destruct (nth_error st j) as [b|] eqn:Ej; [|reflexivity]. rewrite (H a b).
  2:{ intros [s1 s2] E1. rewrite E1 in Hn. eapply Hn; reflexivity. }
  now destruct (m (a, b)) as [? []|? []| |].
Qed.
Lemma agree_no_answer {S A} (m : M S A) (e : E S A) s :
  agree m e s -> agree (no_answer m) (e_no_answer e) s.
Proof. intros H. apply agree_bind; [exact H|]. intros; apply agree_lift. Qed.
Lemma agree_position {S} (m : M S nat) (e : E S nat) s :
  agree m e s -> agree (position_answer m) (e_position_answer e) s.
Proof. intros H. apply agree_bind; [exact H|]. intros; apply agree_lift. Qed.

(** What a failed check does. *)
Definition react {S A} (cfg : config) (s : S) (other : ended S A) : ended S A :=
  match reaction_of cfg with
  | Reports => Runs (Throw OutOfRange s)
  | Stops => Aborts
  | Ignores => other
  end.
Lemma check_fails {S B} cfg (h : unit -> E S B) s :
  ebind (out_of_range_if cfg true) h s = react cfg s (h tt s).
Proof. destruct cfg as [[] [] b]; reflexivity. Qed.
Lemma check_passes {S B} cfg (h : unit -> E S B) s :
  ebind (out_of_range_if cfg false) h s = h tt s.
Proof. destruct cfg as [[] [] b]; reflexivity. Qed.
Lemma react_bind {S A B} cfg s (o : ended S A) (h : A -> E S B) (e : E S A) s0 :
  e s0 = react cfg s o -> ebind e h s0 = react cfg s (match o with
    | Runs (Ok a s') => h a s'
    | Runs (Throw ex s') => Runs (Throw ex s')
    | Runs UB => Runs UB
    | Runs Diverge => Runs Diverge
    | Aborts => Aborts end).
Proof. intros H. unfold ebind. rewrite H. unfold react. now destruct (reaction_of cfg). Qed.

(** A history. *)
Lemma history_agrees {S O T} (inv : S -> T -> Prop) (ok : T -> O -> Prop) (step : T -> O -> T * vret)
  (along : T -> list O -> Prop) (run : T -> list O -> T * list vret)
  (call : O -> M S (option nat)) (ecall : O -> E S (option nat)) :
  (forall t o os, along t (o :: os) -> ok t o /\ along (fst (step t o)) os) ->
  (forall t, run t [] = (t, [])) ->
  (forall t o os, run t (o :: os) =
     (fst (run (fst (step t o)) os), snd (step t o) :: snd (run (fst (step t o)) os))) ->
  (forall s t o, inv s t -> ok t o ->
     exists s', observe (call o s) = Some (s', snd (step t o)) /\ inv s' (fst (step t o))) ->
  (forall s t o, inv s t -> ok t o -> agree (call o) (ecall o) s) ->
  forall os s t, along t os -> inv s t -> no_errors (snd (run t os)) ->
  exists s', e_run_calls ecall s os = Told s' (snd (run t os)) /\ inv s' (fst (run t os)).
Proof.
  intros Hal Hr0 Hr1 Hcall Hag os. induction os as [|o os IH]; intros s t Ha Hi Hne.
  - rewrite Hr0. exists s. auto.
  - destruct (Hal _ _ _ Ha) as (Ho & Ha1). destruct (Hcall s t o Hi Ho) as (s1 & E1 & Hi1).
    rewrite Hr1 in *. cbn [fst snd] in *.
    destruct (IH s1 _ Ha1 Hi1) as (s2 & E2 & Hi2).
    { intros Hin. apply Hne. now right. }
    exists s2. split; [|exact Hi2]. cbn [e_run_calls].
    rewrite (Hag s t o Hi Ho).
    + now rewrite E1, E2.
    + intros s' E'. rewrite E' in E1. cbn in E1. apply Hne. left. congruence.
Qed.

(** * static_vector *)
Module StaticP.
Import StaticVectorProofs.
Section Static.
Context {V : Type}.
Variable moved : V -> V.
Variable dflt : V.
Variable Capacity : nat.
Hypothesis Hcap63 : (N.of_nat Capacity < two63)%N.
Variable cfg : config.
Import StaticVectorModel.

Lemma push_back_agree x (s : @sv V) : agree (push_back Capacity x) (Static.push_back Capacity cfg x) s.
Proof.
  unfold push_back, Static.push_back. apply agree_get. apply agree_check_bind. intros _. apply agree_lift.
Qed.
Lemma grow_at_agree pos n (s : @sv V) : pos <= size s ->
  agree (grow_at moved Capacity pos n) (Static.grow_at moved Capacity cfg pos n) s.
Proof.
  intros Hp. unfold grow_at, Static.grow_at. apply agree_get. apply agree_check_bind. intros _.
  apply agree_bounds; [now apply Nat.leb_le|]. apply agree_lift.
Qed.
Lemma shrink_at_agree pos n (s : @sv V) : pos <= size s ->
  agree (shrink_at moved Capacity pos n) (Static.shrink_at moved Capacity cfg pos n) s.
Proof.
  intros Hp. unfold shrink_at, Static.shrink_at. apply agree_get. apply agree_check_bind. intros Hc.
  apply agree_bounds; [now apply Nat.leb_le|]. rewrite Hc. apply agree_lift.
Qed.
Lemma pop_back_agree (s : @sv V) : agree (pop_back moved Capacity) (Static.pop_back moved Capacity cfg) s.
Proof.
  unfold pop_back, Static.pop_back. apply agree_get. apply agree_bind; [apply shrink_at_agree; lia|].
  intros; apply agree_lift.
Qed.
Lemma pop_while_agree fuel n : forall s : @sv V,
  agree (pop_while moved Capacity fuel n) (Static.pop_while moved Capacity cfg fuel n) s.
Proof.
  induction fuel as [|f IH]; intros s; cbn [pop_while Static.pop_while]; apply agree_get;
    destruct (n <? size s); try apply agree_lift.
  apply agree_bind; [apply pop_back_agree|]. intros; apply IH.
Qed.
Lemma push_while_agree fuel n x : forall s : @sv V,
  agree (push_while Capacity fuel n x) (Static.push_while Capacity cfg fuel n x) s.
Proof.
  induction fuel as [|f IH]; intros s; cbn [push_while Static.push_while]; apply agree_get;
    destruct (size s <? n); try apply agree_lift.
  apply agree_bind; [apply push_back_agree|]. intros; apply IH.
Qed.
Lemma resize_agree n x (s : @sv V) :
  agree (resize_val moved Capacity n x) (Static.resize_val moved Capacity cfg n x) s.
Proof.
  unfold resize_val, Static.resize_val. apply agree_check_bind. intros _.
  apply agree_bind; [apply pop_while_agree|]. intros; apply push_while_agree.
Qed.
Lemma push_n_agree k x : forall s : @sv V, agree (push_n Capacity k x) (Static.push_n Capacity cfg k x) s.
Proof.
  induction k as [|k IH]; intros s; cbn [push_n Static.push_n]; [apply agree_lift|].
  apply agree_bind; [apply push_back_agree|]. intros; apply IH.
Qed.
Lemma push_list_agree l : forall s : @sv V, agree (push_list Capacity l) (Static.push_list Capacity cfg l) s.
Proof.
  induction l as [|v l IH]; intros s; cbn [push_list Static.push_list]; [apply agree_lift|].
  apply agree_bind; [apply push_back_agree|]. intros; apply IH.
Qed.

(** The caller's part: iterators point into the vector. *)
Definition inside (s : @sv V) (o : vop V) : Prop :=
  match o with
  | Insert pos _ | InsertN pos _ _ | InsertRange pos _ | Erase pos | EraseRange pos _ => pos <= size s
  | _ => True
  end.

Lemma call_agree o (s : @sv V) : inside s o ->
  agree (call moved dflt Capacity o) (Static.call moved dflt Capacity cfg o) s.
Proof.
  destruct o as [v| |pos v|pos n v|pos l|pos|a b|n|n v| |n v|l]; cbn [inside call Static.call]; intros H;
    first [apply agree_no_answer | apply agree_position].
  - apply push_back_agree.
  - apply pop_back_agree.
  - apply agree_bind; [now apply grow_at_agree|]. intros; apply agree_lift.
  - apply agree_bind; [now apply grow_at_agree|]. intros; apply agree_lift.
  - apply agree_bind; [now apply grow_at_agree|]. intros; apply agree_lift.
  - now apply shrink_at_agree.
  - now apply shrink_at_agree.
  - apply resize_agree.
  - apply resize_agree.
  - apply agree_lift.
  - unfold assign_n, Static.assign_n. apply agree_lift_bind. intros _ s1 _. apply agree_check_bind.
    intros _. apply push_n_agree.
  - unfold assign_range, Static.assign_range. apply agree_lift_bind. intros _ s1 _. apply agree_check_bind.
    intros _. apply push_list_agree.
Qed.

Lemma copy_from_agree k : forall i st,
  agree (@copy_from_loop V Capacity i k) (Static.copy_from_loop Capacity cfg i k) st.
Proof.
  induction k as [|k IH]; intros i st; cbn [copy_from_loop Static.copy_from_loop]; [apply agree_lift|].
  apply agree_lift_bind. intros v s1 _. apply agree_bind; [apply agree_onL, push_back_agree|]. intros; apply IH.
Qed.
Lemma move_from_agree k : forall i st,
  agree (@move_from_loop V moved Capacity i k) (Static.move_from_loop moved Capacity cfg i k) st.
Proof.
  induction k as [|k IH]; intros i st; cbn [move_from_loop Static.move_from_loop]; [apply agree_lift|].
  apply agree_lift_bind. intros v s1 _. apply agree_bind; [apply agree_onL, push_back_agree|]. intros; apply IH.
Qed.
Lemma swap_tail_agree k : forall i st,
  agree (@swap_tail V moved Capacity i k) (Static.swap_tail moved Capacity cfg i k) st.
Proof.
  induction k as [|k IH]; intros i st; cbn [swap_tail Static.swap_tail]; [apply agree_lift|].
  apply agree_lift_bind. intros v s1 _. apply agree_bind; [apply agree_onL, push_back_agree|]. intros _ s2 _.
  apply agree_lift_bind. intros; apply IH.
Qed.
Lemma swap_agree st : agree (@swap V moved Capacity) (Static.swap moved Capacity cfg) st.
Proof.
  assert (H : forall st, agree (@swap_short_long V moved Capacity) (Static.swap_short_long moved Capacity cfg) st).
  { intros st'. unfold swap_short_long, Static.swap_short_long. apply agree_get. cbv zeta.
    apply agree_lift_bind. intros _ s1 _. apply agree_bind; [apply swap_tail_agree|]. intros; apply agree_lift. }
  intros Hn. unfold swap, Static.swap in *. destruct (_ <? _); [now apply H|].
  rewrite H; [reflexivity|]. intros s' E1. rewrite E1 in Hn. eapply Hn; reflexivity.
Qed.

Lemma sys_call_agree o (st : list (@sv V)) :
  (forall i op a, o = SeqSpec.On i op -> nth_error st i = Some a -> inside a op) ->
  agree (sys_call moved dflt Capacity o) (Static.sys_call moved dflt Capacity cfg o) st.
Proof.
  intros H. destruct o as [i op|i j|i j|i j]; cbn [sys_call Static.sys_call].
  - apply agree_on_one. intros a Ea. apply call_agree. eapply H; eauto.
  - destruct (i =? j); [apply agree_lift|]. apply agree_on_two. intros a b.
    unfold copy_assign, Static.copy_assign. apply agree_lift_bind. intros _ s1 _. apply agree_get. apply copy_from_agree.
  - destruct (i =? j); [apply agree_lift|]. apply agree_on_two. intros a b.
    unfold move_assign, Static.move_assign. apply agree_lift_bind. intros _ s1 _. apply agree_get.
    apply agree_bind; [apply move_from_agree|]. intros; apply agree_lift.
  - destruct (i =? j); [apply agree_lift|]. apply agree_on_two. intros a b. apply swap_agree.
Qed.

Lemma inside_of (s : @sv V) xs o : represents Capacity s xs -> in_range xs o -> inside s o.
Proof.
  clear Hcap63. intros (_ & Hs & _) H. destruct o; cbn [in_range inside] in *; try exact Logic.I; lia.
Qed.

Lemma static_history n os :
  sys_along dflt (Some Capacity) (fun _ => []) call_ok (repeat [] n) os ->
  no_errors (snd (sys_spec_run dflt (Some Capacity) (fun _ => []) (repeat [] n) os)) ->
  exists st,
    e_run_calls (Static.sys_call moved dflt Capacity cfg) (repeat (init_sv Capacity) n) os =
      Told st (snd (sys_spec_run dflt (Some Capacity) (fun _ => []) (repeat [] n) os)) /\
    Forall2 (represents Capacity) st
      (fst (sys_spec_run dflt (Some Capacity) (fun _ => []) (repeat [] n) os)).
Proof.
  intros Hal Hne.
  destruct (history_agrees (fun st cs => st = fam Capacity cs /\ Forall (fun xs => length xs <= Capacity) cs)
    (sys_ok call_ok) (sys_spec_step dflt (Some Capacity) (fun _ => []))
    (sys_along dflt (Some Capacity) (fun _ => []) call_ok)
    (sys_spec_run dflt (Some Capacity) (fun _ => []))
    (sys_call moved dflt Capacity) (Static.sys_call moved dflt Capacity cfg)) with
    (os := os) (s := repeat (@init_sv V Capacity) n) (t := repeat (@nil V) n) as (st & E1 & (E2 & F)).
  - intros t o os' H. exact H.
  - reflexivity.
  - intros t o os'. cbn [sys_spec_run]. destruct (sys_spec_step _ _ _ t o) as [t' r]. cbn [fst snd].
    destruct (sys_spec_run _ _ _ t' os'). reflexivity.
  - intros s t o (-> & F) Ho. destruct (sys_call_spec moved dflt Capacity Hcap63 t o F Ho) as (E1 & F1). eauto.
  - intros s t o (-> & F) Ho. apply sys_call_agree. intros i op a -> Ea.
    destruct Ho as (xs & Ex & Hok). rewrite (nth_fam _ _ _ _ Ex) in Ea. injection Ea as <-.
    apply (inside_of _ xs); [|apply Hok].
    apply represents_repr; [exact Hcap63|]. rewrite Forall_forall in F. apply F. eapply nth_error_In; eauto.
  - exact Hal.
  - split; [now apply init_fam|now apply Forall_small_nil].
  - exact Hne.
  - exists st. split; [exact E1|]. subst st. now apply fam_represents.
Qed.

(** ** Errors *)

Lemma copy_loop_ub (l : list V) : forall (A : list (slot V)) n m,
  m < length l -> copy_loop (length A) l (mkSv (A ++ repeat Raw m) n None) = UB.
Proof.
  induction l as [|v l IH]; intros A n m H; cbn [length] in H; [lia|]. cbn [copy_loop].
  destruct m as [|m].
  - apply bind_ub. cbn [repeat]. rewrite app_nil_r. unfold construct, bind, tick, begin_life. cbn [fuse data].
    now rewrite (proj2 (nth_error_None A (length A))) by lia.
  - erewrite bind_ok.
    2:{ unfold construct, bind, tick, begin_life. cbn [fuse data repeat]. rewrite nth_error_app_mid by reflexivity.
        rewrite upd_app_mid by reflexivity. reflexivity. }
    unfold with_data. cbn [size fuse].
    change (A ++ Live v :: repeat Raw m) with (A ++ [Live v] ++ repeat Raw m). rewrite app_assoc.
    replace (S (length A)) with (length (A ++ [Live v])) by (rewrite app_length; cbn; lia).
    apply IH. lia.
Qed.

Lemma push_full x (v : V) xs : length xs = Capacity -> x = CopyOf v \/ x = MoveOf v ->
  Static.push_back Capacity cfg x (repr Capacity xs None) =
  react cfg (repr Capacity xs None) (Runs UB).
Proof.
  intros Hl Hx. unfold Static.push_back. unfold ebind at 1. cbn [lift get].
  rewrite (proj2 (Nat.leb_le _ _)) by (rewrite size_repr; lia). rewrite check_fails. f_equal.
  unfold lift. f_equal. apply bind_ub. rewrite size_repr.
  assert (B : @begin_life V (length xs) v (repr Capacity xs None) = UB).
  { unfold begin_life, repr. cbn [data]. rewrite (proj2 (nth_error_None _ _)); [reflexivity|].
    rewrite app_length, map_length, repeat_length. lia. }
  destruct Hx as [-> | ->]; cbn [construct]; [|exact B]. unfold bind, tick. cbn [fuse repr]. exact B.
Qed.

Lemma ignores_react {S A} (s : S) (o : ended S A) : reaction_of cfg = Ignores -> react cfg s o = o.
Proof. intros H. unfold react. now rewrite H. Qed.

Lemma push_back_fits xs (v : V) : length xs < Capacity ->
  Static.push_back Capacity cfg (CopyOf v) (repr Capacity xs None) = Runs (Ok tt (repr Capacity (xs ++ [v]) None)).
Proof.
  intros H. pose proof (push_back_spec Capacity Hcap63 xs (CopyOf v) v H eq_refl) as E1.
  rewrite push_back_agree; rewrite E1; [reflexivity|discriminate].
Qed.

Lemma push_list_over (l : list V) : reaction_of cfg = Ignores -> forall xs, length xs <= Capacity -> Capacity < length xs + length l ->
  Static.push_list Capacity cfg l (repr Capacity xs None) = Runs UB.
Proof.
  intros Hi. induction l as [|v l IH]; intros xs Hc Ho; cbn [length Static.push_list] in *; [lia|].
  destruct (Nat.eq_dec (length xs) Capacity) as [e|ne].
  - unfold ebind. rewrite (push_full _ v) by auto. now rewrite ignores_react.
  - erewrite ebind_ok by (apply push_back_fits; lia). apply IH; rewrite app_length; cbn; lia.
Qed.
Lemma push_n_list k (v : V) s : Static.push_n Capacity cfg k (CopyOf v) s = Static.push_list Capacity cfg (repeat v k) s.
Proof.
  revert s. induction k as [|k IH]; intros s; cbn [Static.push_n Static.push_list repeat]; [reflexivity|].
  unfold ebind. destruct (Static.push_back _ _ _ s) as [[]|]; auto.
Qed.
Lemma push_while_over (v : V) n fuel : reaction_of cfg = Ignores -> Capacity < n ->
  forall xs, length xs <= Capacity -> Capacity - length xs < fuel ->
  Static.push_while Capacity cfg fuel n (CopyOf v) (repr Capacity xs None) = Runs UB.
Proof.
  intros Hi Hn. induction fuel as [|f IH]; intros xs Hc Hf; [lia|]. cbn [Static.push_while].
  unfold ebind at 1. cbn [lift get]. rewrite size_repr, (proj2 (Nat.ltb_lt _ _)) by lia.
  destruct (Nat.eq_dec (length xs) Capacity) as [e|ne].
  - unfold ebind. rewrite (push_full _ v) by auto. now rewrite ignores_react.
  - erewrite ebind_ok by (apply push_back_fits; lia). apply IH; rewrite app_length; cbn; lia.
Qed.

Lemma grow_at_over pos n (xs : list V) : pos <= length xs -> length xs <= Capacity -> Capacity < length xs + n ->
  (N.of_nat (length xs) + N.of_nat n < two64)%N ->
  Static.grow_at moved Capacity cfg pos (N.of_nat n) (repr Capacity xs None) =
  react cfg (repr Capacity xs None)
    (if pos =? length xs
     then Runs (Ok pos (mkSv (map Live xs ++ repeat Raw (Capacity - length xs)) (length xs + n) None))
     else Runs UB).
Proof.
  intros Hp Hc Ho Hw. unfold Static.grow_at. unfold ebind at 1. cbn [lift get].
  rewrite size_repr. rewrite N.mod_small by lia. rewrite (proj2 (N.ltb_lt _ _)) by lia.
  rewrite check_fails. f_equal. erewrite ebind_ok by (apply bounds_ok, Nat.leb_le; lia).
  unfold lift. rewrite (proj2 (N.eqb_neq _ _)) by lia. rewrite Nat2N.id.
  destruct (Nat.eqb_spec pos (length xs)) as [->|ne].
  - rewrite Nat.sub_diag. cbn [grow_loop]. unfold bind, ret, set_size, with_size, repr. cbn [data fuse].
    do 3 f_equal. lia.
  - f_equal. apply bind_ub. destruct (length xs - pos) as [|k] eqn:Ek; [lia|]. cbn [grow_loop].
    replace (pos + k) with (length xs - 1) by lia.
    assert (exists v, nth_error xs (length xs - 1) = Some v) as (v & Ev).
    { destruct (nth_error xs (length xs - 1)) eqn:E1; [eauto|]. apply nth_error_None in E1. lia. }
    erewrite bind_ok.
    2:{ unfold move_from, repr. cbn [data]. rewrite nth_error_app1 by (rewrite map_length; lia).
        rewrite nth_error_map, Ev. reflexivity. }
    apply bind_ub. cbn [construct]. unfold begin_life, with_data. cbn [data].
    rewrite (proj2 (nth_error_None _ _)); [reflexivity|].
    rewrite upd_length, app_length, map_length, repeat_length. lia.
Qed.

Lemma shrink_at_over pos num (xs : list V) : pos <= length xs -> (N.of_nat (length xs) < num)%N ->
  Static.shrink_at moved Capacity cfg pos num (repr Capacity xs None) =
  react cfg (repr Capacity xs None) (Runs UB).
Proof.
  intros Hp Hn. unfold Static.shrink_at. unfold ebind at 1. cbn [lift get]. rewrite size_repr.
  rewrite (proj2 (N.ltb_lt _ _)) by exact Hn. rewrite check_fails. f_equal.
  erewrite ebind_ok by (apply bounds_ok, Nat.leb_le; lia). reflexivity.
Qed.

Lemma react_answer {A B} (s : @sv V) (e : E sv A) (h : A -> E sv B) s0 (o : ended sv A) :
  e s0 = react cfg s o ->
  (reaction_of cfg = Ignores -> ebind (fun _ => o) h s0 = Runs UB) ->
  ebind e h s0 = react cfg s (Runs UB).
Proof.
  intros H Ho. erewrite react_bind by exact H. unfold react. destruct (reaction_of cfg) eqn:Er; auto.
Qed.

Lemma react_ub {A B} (s : @sv V) (e : E sv A) (h : A -> E sv B) s0 :
  e s0 = react cfg s (Runs UB) -> ebind e h s0 = react cfg s (Runs UB).
Proof. intros H. eapply react_answer; [exact H|]. intros _. reflexivity. Qed.

Lemma static_error (s : @sv V) xs o :
  represents Capacity s xs -> fuse s = None -> call_ok xs o ->
  snd (spec_step dflt (Some Capacity) xs o) = RThrow OutOfRange ->
  exists s', represents Capacity s' (fst (spec_step dflt (Some Capacity) xs o)) /\
    Static.call moved dflt Capacity cfg o s = react cfg s' (Runs UB).
Proof.
  intros Hr Hf (Hin & Hok) He.
  pose proof (represents_inv Capacity Hcap63 s xs Hr) as Es. rewrite Hf in Es. subst s.
  pose proof Hr as (_ & _ & Hc & _).
  assert (Hrep : forall ys : list V, length ys <= Capacity -> represents Capacity (repr Capacity ys None) ys)
    by (intros; now apply represents_repr).
  exists (repr Capacity (fst (spec_step dflt (Some Capacity) xs o)) None).
  destruct o as [v| |pos v|pos n v|pos l|pos|a b|n|n v| |n v|l];
    cbn [spec_step fits in_range Static.call] in *;
    repeat match goal with
      | H : snd (if ?c then _ else _) = _ |- _ => destruct c eqn:?; [discriminate|]
      end; cbn [fst snd] in *; try discriminate.
  - split; [auto|]. apply Nat.leb_gt in Heqb.
    apply react_ub; eapply push_full; [lia|left; reflexivity].
  - destruct xs as [|x xs]; [|discriminate]. split; [auto|]. unfold Static.pop_back.
    apply react_ub. unfold ebind at 1. cbn [lift get].
    apply react_ub; apply shrink_at_over; cbn; lia.
  - split; [auto|]. apply Nat.leb_gt in Heqb. unfold Static.insert1. change 1%N with (N.of_nat 1).
    apply react_ub.
    eapply react_answer; [apply grow_at_over; auto; unfold two63, two64 in *; lia|]. intros _.
    destruct (Nat.eqb_spec pos (length xs)) as [->|]; [|reflexivity]. unfold ebind, lift. f_equal. apply bind_ub.
    pose proof (copy_loop_ub [v] (map Live xs) (length xs + 1) (Capacity - length xs)) as Q.
    rewrite map_length in Q. cbn [copy_loop length] in Q. unfold bind at 1 in Q.
    destruct (construct (length xs) (CopyOf v) _); [|discriminate Q; lia|reflexivity|discriminate Q; lia].
    specialize (Q ltac:(lia)). discriminate.
  - split; [auto|]. apply Nat.leb_gt in Heqb. unfold Static.insert_n.
    apply react_ub.
    eapply react_answer; [apply grow_at_over; auto|]. intros _.
    destruct (Nat.eqb_spec pos (length xs)) as [->|]; [|reflexivity]. unfold ebind, lift. f_equal. apply bind_ub.
    rewrite Nat2N.id, fill_loop_copies, <- (map_length (@Live V) xs) at 1. apply copy_loop_ub.
    rewrite repeat_length. lia.
  - split; [auto|]. apply Nat.leb_gt in Heqb. unfold Static.insert_range.
    apply react_ub.
    eapply react_answer; [apply grow_at_over; auto|]. intros _.
    destruct (Nat.eqb_spec pos (length xs)) as [->|]; [|reflexivity]. unfold ebind, lift. f_equal. apply bind_ub.
    rewrite <- (map_length (@Live V) xs) at 1. apply copy_loop_ub. lia.
  - split; [destruct (b <? a); auto; discriminate|]. destruct (Nat.ltb_spec b a) as [Hlt|]; [|discriminate].
    unfold Static.erase_range. apply react_ub. apply (shrink_at_over a _ xs); [lia|].
    rewrite N.mod_small; unfold two63, two64 in *; lia.
  - split; [auto|]. apply Nat.leb_gt in Heqb. unfold Static.resize, Static.resize_val.
    apply react_ub. rewrite (proj2 (Nat.ltb_lt _ _)) by lia. rewrite check_fails.
    unfold react. destruct (reaction_of cfg) eqn:Er; auto.
    erewrite ebind_ok.
    2:{ rewrite pop_while_agree; rewrite (pop_while_exn moved Capacity Hcap63) by lia; [reflexivity|discriminate]. }
    apply push_while_over; auto; rewrite firstn_length; lia.
  - split; [auto|]. apply Nat.leb_gt in Heqb. unfold Static.resize_val.
    apply react_ub. rewrite (proj2 (Nat.ltb_lt _ _)) by lia. rewrite check_fails.
    unfold react. destruct (reaction_of cfg) eqn:Er; auto.
    erewrite ebind_ok.
    2:{ rewrite pop_while_agree; rewrite (pop_while_exn moved Capacity Hcap63) by lia; [reflexivity|discriminate]. }
    apply push_while_over; auto; rewrite firstn_length; lia.
  - split; [apply Hrep; cbn; lia|]. apply Nat.leb_gt in Heqb. unfold Static.assign_n.
    apply react_ub.
    erewrite ebind_ok by (unfold lift; rewrite clear_spec by auto; reflexivity).
    rewrite (proj2 (Nat.ltb_lt _ _)) by lia. rewrite check_fails.
    unfold react. destruct (reaction_of cfg) eqn:Er; auto. rewrite push_n_list. apply push_list_over; auto; cbn [length]; [lia|].
    rewrite repeat_length. lia.
  - split; [apply Hrep; cbn; lia|]. apply Nat.leb_gt in Heqb. unfold Static.assign_range.
    apply react_ub.
    erewrite ebind_ok by (unfold lift; rewrite clear_spec by auto; reflexivity).
    rewrite (proj2 (Nat.ltb_lt _ _)) by lia. rewrite check_fails.
    unfold react. destruct (reaction_of cfg) eqn:Er; auto. apply push_list_over; auto; cbn [length]; lia.
Qed.

Lemma static_at (s : @sv V) xs i : represents Capacity s xs ->
  Static.at_ cfg i s =
  match nth_error xs (N.to_nat i) with
  | Some v => Runs (Ok v s)
  | None => if access_stops cfg then Aborts else Runs UB
  end.
Proof.
  intros Hr. pose proof (represents_inv Capacity Hcap63 s xs Hr) as Es. pose proof Hr as (Hd & Hs & Hc & Hi).
  unfold Static.at_. unfold ebind at 1. cbn [lift get]. rewrite Hs.
  assert (R : read (N.to_nat i) s = match nth_error xs (N.to_nat i) with Some v => Ok v s | None => UB end).
  { unfold read. destruct (Nat.lt_ge_cases (N.to_nat i) Capacity) as [Hl|Hl].
    - rewrite (Hi _ Hl). now destruct (nth_error xs (N.to_nat i)).
    - rewrite (proj2 (nth_error_None (data s) _)) by lia. now rewrite (proj2 (nth_error_None xs _)) by lia. }
  destruct (nth_error xs (N.to_nat i)) as [v|] eqn:Ex.
  - assert (N.to_nat i < length xs) by (apply nth_error_Some; congruence).
    erewrite ebind_ok by (apply bounds_ok, N.ltb_lt; lia). unfold lift. now rewrite R.
  - apply nth_error_None in Ex. unfold bounds_check, assert_, access_stops.
    rewrite (proj2 (N.ltb_ge _ _)) by lia. cbn [orb].
    destruct (bounds cfg), (asserts cfg); cbn [andb negb]; unfold ebind, lift, ret; rewrite ?R; reflexivity.
Qed.

Lemma access_fact (s : @sv V) xs : represents Capacity s xs ->
  (forall i, Static.at_ cfg i s =
     match nth_error xs (N.to_nat i) with
     | Some v => Runs (Ok v s)
     | None => if access_stops cfg then Aborts else Runs UB
     end) /\
  (forall x ys, xs = x :: ys -> Static.front cfg s = Runs (Ok x s)) /\
  (forall x ys, xs = ys ++ [x] -> Static.back cfg s = Runs (Ok x s)) /\
  (xs = [] -> let lost := if access_stops cfg then Aborts else Runs UB in
              Static.front cfg s = lost /\ Static.back cfg s = lost).
Proof.
  intros Hr. pose proof Hr as (_ & Hs & Hc & _).
  assert (Hback : Static.back cfg s = Static.at_ cfg ((N.of_nat (length xs) + (two64 - 1)) mod two64)%N s).
  { unfold Static.back. unfold ebind. cbn [lift get]. now rewrite Hs. }
  split; [intros i; now apply static_at|]. split; [|split].
  - intros x ys ->. unfold Static.front. rewrite (static_at _ _ _ Hr). reflexivity.
  - intros x ys ->. rewrite Hback. rewrite (static_at _ _ _ Hr).
    replace ((N.of_nat (length (ys ++ [x])) + (two64 - 1)) mod two64)%N with (N.of_nat (length ys)).
    + now rewrite Nat2N.id, nth_error_app2, Nat.sub_diag.
    + rewrite app_length in *. cbn [length] in *.
      replace (N.of_nat (length ys + 1) + (two64 - 1))%N with (N.of_nat (length ys) + 1 * two64)%N
        by (unfold two64; lia).
      rewrite N.mod_add by (unfold two64; lia). rewrite N.mod_small; [reflexivity|].
      unfold two63, two64 in *. lia.
  - intros ->. cbv zeta. split.
    + unfold Static.front. rewrite (static_at _ _ _ Hr). reflexivity.
    + rewrite Hback, (static_at _ _ _ Hr). rewrite (proj2 (nth_error_None _ _)); [reflexivity|].
      cbn [length]. apply Nat.le_0_l.
Qed.
End Static.
End StaticP.

(** * small_vector *)
Module SmallP.
Import SmallVectorModel SmallVectorSpec SmallVectorProofs.
Section Small.
Context {V : Type}.
Variable moved : V -> V.
Variable dflt : V.
Variable SC RB : nat.
Variable maxn : N.
Hypothesis HSC : 0 < SC.
Hypothesis HRB : RB <= SC + 1.
Hypothesis Hmax : (maxn < two63)%N.
Variable cfg : config.

(** The current buffer is one of the blocks, and the static one has its own capacity. *)
Definition placed (s : @vec V) : Prop :=
  vb s < length (blocks s) /\ (vb s = 0 -> vcap s = SC) /\ (fst (ve s) = vb s -> snd (ve s) <= vcap s).

Lemma holds_placed (s : @vec V) xs : holds SC s xs -> placed s.
Proof.
  intros (He & Hc & Hb & Hs & _). split; [|split; [exact Hs|]].
  - apply nth_error_Some. congruence.
  - intros _. now rewrite He.
Qed.

Lemma choose_more d (s s1 : @vec V) cdr : placed s -> (N.of_nat (vcap s) < d)%N ->
  choose_data SC RB maxn d s = Ok cdr s1 -> fst cdr <> vb s /\ fst cdr <> 0.
Proof.
  intros (Hb & Hs & _) Hd. unfold choose_data. rewrite bind_get. unfold is_static.
  assert (Hal : forall n, (let* b := allocate maxn n in ret (b, N.to_nat n)) s = Ok cdr s1 ->
    fst cdr <> vb s /\ fst cdr <> 0).
  { intros n. unfold bind, allocate. destruct (maxn <? n)%N; [discriminate|]. unfold ret.
    intros E1. assert (cdr = (length (blocks s), N.to_nat n)) as -> by congruence. cbn [fst]. lia. }
  destruct (Nat.eqb_spec (vb s) 0) as [e|ne]; cbn [negb].
  - rewrite (Hs e) in Hd. rewrite (proj2 (N.ltb_lt _ _) Hd). apply Hal.
  - rewrite (proj2 (N.ltb_lt _ _) Hd). destruct (grow_cap _ _ _); [apply Hal|discriminate].
Qed.

Lemma choose_less d (s s1 : @vec V) cdr : placed s -> (d <= N.of_nat (vcap s))%N ->
  choose_data SC RB maxn d s = Ok cdr s1 -> fst cdr = vb s \/ fst cdr = 0.
Proof.
  intros (Hb & Hs & _) Hd. unfold choose_data. rewrite bind_get. unfold is_static.
  destruct (Nat.eqb_spec (vb s) 0) as [e|ne]; cbn [negb].
  - rewrite (Hs e) in Hd. rewrite (proj2 (N.ltb_ge _ _) Hd). unfold ret.
    intros E1. assert (cdr = (vb s, vcap s)) as -> by congruence. auto.
  - rewrite (proj2 (N.ltb_ge _ _) Hd). unfold ret. destruct (d <? N.of_nat RB)%N; intros E1.
    + assert (cdr = (0, SC)) as -> by congruence. auto.
    + assert (cdr = (vb s, vcap s)) as -> by congruence. auto.
Qed.

Lemma reserve_agree n (s : @vec V) : placed s ->
  agree (reserve moved SC RB maxn n) (Small.reserve moved SC RB maxn cfg n) s.
Proof.
  intros Hp. unfold reserve, Small.reserve. apply agree_get.
  destruct (N.leb_spec n (N.of_nat (vcap s))) as [Hle|Hgt]; [apply agree_lift|].
  apply agree_lift_bind. intros cdr s1 E1. destruct (choose_more _ _ _ _ Hp Hgt E1) as (H1 & H2).
  intros Hn. erewrite ebind_ok by (apply assert_ok, negb_true_iff, Nat.eqb_neq, H1).
  erewrite ebind_ok by (apply assert_ok, negb_true_iff, Nat.eqb_neq, H2). reflexivity.
Qed.

Lemma grow_at_agree p n (s : @vec V) :
  agree (grow_at moved SC RB maxn p n) (Small.grow_at moved SC RB maxn cfg p n) s.
Proof.
  unfold Small.grow_at. intros Hn. unfold grow_at in Hn.
  destruct (msize s) as [m s1|e s1| |] eqn:Em.
  2-4: unfold ebind, lift, grow_at, bind; now rewrite Em.
  assert (s1 = s) as -> by (unfold msize in Em; destruct (_ =? _); congruence).
  erewrite bind_ok in Hn by exact Em.
  erewrite ebind_ok by (unfold lift; rewrite Em; reflexivity).
  destruct ((p <? 0) || (Z.of_nat m <? p))%Z eqn:Eb.
  - exfalso. apply (Hn s). reflexivity.
  - rewrite check_passes. unfold lift. reflexivity.
Qed.

Lemma msize_inv (s s1 : @vec V) m : msize s = Ok m s1 -> s1 = s /\ fst (ve s) = vb s /\ m = snd (ve s).
Proof. unfold msize. destruct (Nat.eqb_spec (fst (ve s)) (vb s)); [|discriminate]. intros E1. repeat split; congruence. Qed.

Lemma shrink_at_agree p n (s : @vec V) : placed s ->
  agree (shrink_at moved SC RB maxn p n) (Small.shrink_at moved SC RB maxn cfg p n) s.
Proof.
  intros Hp. unfold shrink_at, Small.shrink_at. apply agree_lift_bind. intros m s1 Em.
  apply msize_inv in Em. destruct Em as (-> & Ee & Em).
  apply agree_check_bind. intros ->. cbv zeta. apply agree_get.
  destruct (m - N.to_nat n =? 0) eqn:E0; [apply agree_lift|].
  apply agree_lift_bind. intros cdr s1 E1.
  assert (H : fst cdr = vb s \/ fst cdr = 0).
  { eapply choose_less; [exact Hp| |exact E1]. destruct Hp as (_ & _ & Hp). specialize (Hp Ee). lia. }
  destruct (Nat.eqb_spec (fst cdr) (vb s)) as [e|ne]; [apply agree_lift|]. destruct H as [H|H]; [easy|].
  intros Hn. erewrite ebind_ok by (apply assert_ok, Nat.eqb_eq, H). reflexivity.
Qed.

Lemma call_agree o (s : @vec V) : placed s ->
  agree (call moved dflt SC RB maxn o) (Small.call moved dflt SC RB maxn cfg o) s.
Proof.
  intros Hp. destruct o as [[v| |pos v|pos n v|pos l|pos|a b|n|n v| |n v|l]|n| |];
    cbn [call Small.call]; try (apply agree_lift).
  - apply agree_no_answer. unfold push_back, Small.push_back. apply agree_lift_bind. intros m s1 Em.
    apply agree_bind; [apply grow_at_agree|]. intros; apply agree_lift.
  - apply agree_no_answer. unfold pop_back, Small.pop_back. apply agree_lift_bind. intros m s1 Em.
    apply msize_inv in Em. destruct Em as (-> & _).
    apply agree_bind; [now apply shrink_at_agree|]. intros; apply agree_lift.
  - apply agree_position. unfold insert1, Small.insert1.
    apply agree_bind; [apply grow_at_agree|]. intros; apply agree_lift.
  - apply agree_position. unfold insert_n, Small.insert_n.
    apply agree_bind; [apply grow_at_agree|]. intros; apply agree_lift.
  - apply agree_position. unfold insert_range, Small.insert_range.
    apply agree_bind; [apply grow_at_agree|]. intros; apply agree_lift.
  - apply agree_position. now apply shrink_at_agree.
  - apply agree_position. unfold erase_range, Small.erase_range. apply agree_check_bind. intros ->.
    now apply shrink_at_agree.
  - apply agree_no_answer. unfold resize, Small.resize, resize_val, Small.resize_val.
    apply agree_bind; [now apply reserve_agree|]. intros; apply agree_lift.
  - apply agree_no_answer. unfold resize_val, Small.resize_val.
    apply agree_bind; [now apply reserve_agree|]. intros; apply agree_lift.
  - apply agree_no_answer. now apply reserve_agree.
Qed.

Lemma sys_call_agree o (st : list (@vec V)) :
  Forall placed st ->
  agree (sys_call moved dflt SC RB maxn o) (Small.sys_call moved dflt SC RB maxn cfg o) st.
Proof.
  intros H. destruct o as [i op|i j|i j]; cbn [sys_call Small.sys_call]; try apply agree_lift.
  apply agree_on_one. intros a Ea. apply call_agree. rewrite Forall_forall in H. apply H. eapply nth_error_In; eauto.
Qed.

Lemma small_history n os :
  small_sys_along dflt maxn (repeat [] n) os ->
  no_errors (snd (small_sys_run dflt (repeat [] n) os)) ->
  exists st,
    e_run_calls (Small.sys_call moved dflt SC RB maxn cfg) (repeat (init_vec SC) n) os =
      Told st (snd (small_sys_run dflt (repeat [] n) os)) /\
    Forall2 (holds SC) st (fst (small_sys_run dflt (repeat [] n) os)).
Proof.
  intros Hal Hne.
  destruct (history_agrees (Forall2 (good SC))
    (small_sys_ok maxn) (small_sys_step dflt) (small_sys_along dflt maxn) (small_sys_run dflt)
    (sys_call moved dflt SC RB maxn) (Small.sys_call moved dflt SC RB maxn cfg)) with
    (os := os) (s := repeat (@init_vec V SC) n) (t := repeat (@nil V) n) as (st & E1 & G).
  - intros t o os' H. exact H.
  - reflexivity.
  - intros t o os'. cbn [small_sys_run]. destruct (small_sys_step dflt t o) as [t' r]. cbn [fst snd].
    destruct (small_sys_run dflt t' os'). reflexivity.
  - intros s t o F Ho. now apply sys_call_spec.
  - intros s t o F Ho. apply sys_call_agree. clear Ho. induction F as [|a b l l' [Ha _] F IH]; constructor; auto.
    eapply holds_placed; eauto.
  - exact Hal.
  - apply (init_good SC RB maxn); assumption.
  - exact Hne.
  - exists st. split; [exact E1|]. clear E1. induction G as [|a b l l' [Ha _] G IH]; constructor; auto.
Qed.

Lemma small_error (s : @vec V) xs o :
  holds SC s xs -> snd (small_step dflt xs o) = RThrow OutOfRange ->
  fst (small_step dflt xs o) = xs /\
  exists other, Small.call moved dflt SC RB maxn cfg o s = react cfg s other.
Proof.
  intros H He. assert (Hm : msize s = Ok (length xs) s) by (apply msize_spec; apply H).
  assert (Hg : forall p n, (p < 0 \/ Z.of_nat (length xs) < p)%Z ->
    exists other, Small.grow_at moved SC RB maxn cfg p n s = react cfg s other).
  { intros p n Hp. unfold Small.grow_at. erewrite ebind_ok by (unfold lift; rewrite Hm; reflexivity).
    replace ((p <? 0) || (Z.of_nat (length xs) <? p))%Z with true.
    - rewrite check_fails. eauto.
    - symmetry. apply orb_true_iff. rewrite !Z.ltb_lt. exact Hp. }
  assert (Hs : forall p n, (p < 0 \/ Z.of_nat (length xs) < p + Z.of_N n)%Z ->
    exists other, Small.shrink_at moved SC RB maxn cfg p n s = react cfg s other).
  { intros p n Hp. unfold Small.shrink_at. erewrite ebind_ok by (unfold lift; rewrite Hm; reflexivity). cbv zeta.
    replace ((p <? 0) || (Z.of_nat (length xs) <? p) || (Z.of_nat (length xs) <? p + Z.of_N n))%Z with true.
    - rewrite check_fails. eauto.
    - symmetry. rewrite !orb_true_iff, !Z.ltb_lt. lia. }
  assert (Hb : forall A B (e : E vec A) (h : A -> E vec B), (exists other, e s = react cfg s other) ->
    exists other, ebind e h s = react cfg s other).
  { intros A B e h (o' & E1). rewrite (react_bind _ _ _ _ _ _ E1). eauto. }
  destruct o as [o|n| |]; cbn [small_step] in He |- *; try discriminate.
  destruct (valid_pos xs o) eqn:Ev.
  - destruct o as [v| |pos v|pos n v|pos l|pos|a b|n|n v| |n v|l];
      cbn [spec_step fits fst snd valid_pos Small.call] in *; try discriminate.
    + destruct xs as [|x xs]; [|discriminate]. split; [reflexivity|]. apply Hb. unfold Small.pop_back.
      erewrite ebind_ok by (unfold lift; rewrite Hm; reflexivity). apply Hb, Hs. cbn. lia.
    + destruct (Nat.ltb_spec b a) as [Hlt|]; [|discriminate]. split; [reflexivity|]. apply Hb. unfold Small.erase_range.
      rewrite (proj2 (Z.ltb_lt _ _)) by lia. rewrite check_fails. eauto.
  - split; [reflexivity|]. destruct o as [v| |pos v|pos n v|pos l|pos|a b|n|n v| |n v|l];
      cbn [valid_pos Small.call] in *; try discriminate.
    + apply Nat.leb_gt in Ev. apply Hb, Hb, Hg. lia.
    + apply Nat.leb_gt in Ev. apply Hb, Hb, Hg. lia.
    + apply Nat.leb_gt in Ev. apply Hb, Hb, Hg. lia.
    + apply Nat.ltb_ge in Ev. apply Hb, Hs. lia.
    + apply orb_false_iff in Ev. destruct Ev as (E1 & E2). apply Nat.ltb_ge in E1. apply Nat.leb_gt in E2.
      apply Hb. unfold Small.erase_range. rewrite (proj2 (Z.ltb_ge _ _)) by lia. rewrite check_passes. apply Hs. lia.
Qed.

Lemma small_at (s : @vec V) xs i : holds SC s xs ->
  Small.at_ cfg i s =
  match nth_error xs i with
  | Some v => Runs (Ok v s)
  | None => if access_stops cfg then Aborts else Runs UB
  end.
Proof.
  clear HSC HRB Hmax. intros H. pose proof H as (He & Hc & Hb & _). unfold Small.at_.
  assert (MS : msize s = Ok (length xs) s).
  { unfold msize. rewrite He. cbn [fst snd]. now rewrite Nat.eqb_refl. }
  erewrite ebind_ok by (unfold lift; rewrite MS; reflexivity).
  assert (R : at_ i s = match nth_error xs i with Some v => Ok v s | None => UB end).
  { unfold at_. rewrite bind_get. unfold read, slot_at. cbn [fst snd]. rewrite Hb.
    destruct (nth_error xs i) as [v|] eqn:Ex.
    - rewrite nth_error_app1 by (rewrite map_length; apply nth_error_Some; congruence).
      now rewrite nth_error_map, Ex.
    - apply nth_error_None in Ex. rewrite nth_error_app2 by (rewrite map_length; lia).
      destruct (nth_error (repeat Raw _) _) eqn:En; [|reflexivity]. apply nth_error_In, repeat_spec in En. now subst. }
  destruct (nth_error xs i) as [v|] eqn:Ex.
  - assert (i < length xs) by (apply nth_error_Some; congruence).
    erewrite ebind_ok by (apply bounds_ok, Nat.ltb_lt; lia). unfold lift. now rewrite R.
  - apply nth_error_None in Ex. unfold bounds_check, assert_, access_stops.
    rewrite (proj2 (Nat.ltb_ge _ _)) by lia. cbn [orb].
    destruct (bounds cfg), (asserts cfg); cbn [andb negb]; unfold ebind, lift, ret; rewrite ?R; reflexivity.
Qed.
End Small.
End SmallP.

(** * flat_map *)
Module FlatP.
Import FlatModel FlatSpec FlatProofs.
Section Flat.
Context {K T Q C CT : Type}.
Variable lt : C -> K -> K -> bool.
Variable kq : C -> K -> Q -> bool.
Variable qk : C -> Q -> K -> bool.
Variable cont : container (K * T) CT.
Variable cap : option nat.
Variable rep : CT -> list (K * T) -> Prop.
Variable CF : conforms cont cap rep.
Variable conv : Q -> K.
Variable c : C.
Variable W : strict_weak_order (lt c).
Variable Hkq : forall k q, kq c k q = lt c k (conv q).
Variable Hqk : forall k q, qk c q k = lt c (conv q) k.

Lemma flat_at no_throw asserts_ t l m q : rep t l -> enumerates fst lt c l m ->
  match m (conv q) with
  | Some e => map_at kq qk cont no_throw asserts_ q (mkFlat c t) = Runs (Ok (snd e) (mkFlat c t))
  | None =>
      if no_throw then
        if asserts_ then map_at kq qk cont no_throw asserts_ q (mkFlat c t) = Aborts
        else forall p e, border (fun e => lt c (fst e) (conv q) = true) l p -> nth_error l p = Some e ->
             map_at kq qk cont no_throw asserts_ q (mkFlat c t) = Runs (Ok (snd e) (mkFlat c t))
      else map_at kq qk cont no_throw asserts_ q (mkFlat c t) = Runs (Throw OutOfRange (mkFlat c t))
  end.
Proof.
  intros R EN. destruct (lookup_fact fst lt kq qk cont cap rep CF conv c W Hkq Hqk t l m R EN q)
    as (p & Hp & Hb & Hle & Hm).
  assert (Hsec : forall e, nth_error l p = Some e -> second cont p (mkFlat c t) = Ok (snd e) (mkFlat c t)).
  { intros e He. unfold second. erewrite bind_ok by (eapply elem_spec; eauto). reflexivity. }
  unfold map_at. erewrite ebind_ok by (unfold lift; rewrite Hp; reflexivity).
  destruct (m (conv q)) as [e|] eqn:Em.
  - destruct Hm as (He & Hk & Hpr). erewrite ebind_ok by (unfold lift; rewrite Hpr; reflexivity).
    unfold ebind, lift, ret. now rewrite (Hsec e He).
  - destruct no_throw, asserts_.
    + erewrite ebind_ok by (unfold lift; rewrite Hm; reflexivity). reflexivity.
    + intros p' e Hb' He. assert (p' = p) as ->.
      { destruct Hb as (B0 & B1 & B2), Hb' as (C0 & C1 & C2).
        destruct (Nat.lt_trichotomy p p') as [H|[H|H]]; [|auto|]; exfalso.
        - destruct (nth_error l p) as [e1|] eqn:E1; [|apply nth_error_None in E1; lia].
          apply (B2 p e1 (le_n _) E1). now apply (C1 p e1).
        - apply (C2 p' e (le_n _) He). now apply (B1 p' e). }
      erewrite ebind_ok by (unfold lift; rewrite Hm; reflexivity).
      unfold ebind, lift, ret. now rewrite (Hsec e He).
    + erewrite ebind_ok by (unfold lift; rewrite Hm; reflexivity). reflexivity.
    + erewrite ebind_ok by (unfold lift; rewrite Hm; reflexivity). reflexivity.
Qed.
End Flat.
End FlatP.
