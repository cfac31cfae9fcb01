(** Proofs about exceptions while the elements of a small_vector move. *)
From Coq Require Import List Arith NArith ZArith Bool Lia.
From Verif Require Import Base SeqSpec VecCommon SmallVectorModel SmallVectorSpec SmallVectorProofs
  SmallMoveModel SmallMoveSpec.
Import ListNotations.

Section Proofs.
Context {V : Type}.
Variable moved : V -> V.
Variable dflt : V.
Variable SC RB : nat.
Variable maxn : N.

Notation slot := (slot V).
Notation vec := (@vec V).
Notation block := (block V).

(** ** Without exceptions nothing is different *)

(** Equal where no exception is due, and none is due afterwards. *)
Definition same {A} (m1 m2 : M vec A) : Prop :=
  forall s, vfuse s = None ->
  m1 s = m2 s /\ (forall a s', m2 s = Ok a s' -> vfuse s' = None).

Lemma same_bind {A B} (m1 m2 : M vec A) (k1 k2 : A -> M vec B) :
  same m1 m2 -> (forall a, same (k1 a) (k2 a)) -> same (bind m1 k1) (bind m2 k2).
Proof.
  intros H K s Hs. destruct (H s Hs) as [E F]. unfold bind. rewrite E.
  destruct (m2 s) as [a s1| | |]; try (split; [reflexivity|discriminate]).
  destruct (K a s1 (F a s1 eq_refl)) as [E2 F2]. auto.
Qed.

Lemma same_get {A} (k1 k2 : vec -> M vec A) :
  (forall s, vfuse s = None -> same (k1 s) (k2 s)) -> same (bind get k1) (bind get k2).
Proof. intros K s Hs. rewrite !bind_get. apply (K s Hs). exact Hs. Qed.

Lemma same_ret {A} (a : A) : same (ret a) (ret a).
Proof. intros s Hs. split; [reflexivity|]. intros b s' E. injection E as <- <-. exact Hs. Qed.

(** The operations of SmallVectorModel, which keep the fuse empty. *)
Definition calm {A} (m : M vec A) : Prop := same m m.

Lemma calm_tick : calm tick.
Proof. intros s Hs. split; [reflexivity|]. unfold tick. rewrite Hs. intros [] s' E. now injection E as <-. Qed.

Ltac calm1 := intros s Hs; split; [reflexivity|];
  let a := fresh in let s' := fresh in let E := fresh in intros a s' E; revert E.

Lemma calm_destroy p : calm (destroy p).
Proof. calm1. unfold destroy. destruct (slot_at _ _) as [[|]|]; intros E; try discriminate. now injection E as _ <-. Qed.
Lemma calm_read p : calm (read p).
Proof. calm1. unfold read. destruct (slot_at _ _) as [[|]|]; intros E; try discriminate. now injection E as _ <-. Qed.
Lemma calm_move_from p : calm (move_from moved p).
Proof. calm1. unfold move_from. destruct (slot_at _ _) as [[|]|]; intros E; try discriminate. now injection E as _ <-. Qed.
Lemma calm_begin p v : calm (begin_life p v).
Proof. calm1. unfold begin_life. destruct (slot_at _ _) as [[|]|]; intros E; try discriminate. now injection E as _ <-. Qed.
Lemma calm_dealloc b n : calm (deallocate b n).
Proof.
  calm1. unfold deallocate. destruct b; [discriminate|].
  destruct (nth_error _ _) as [[|]|]; try discriminate.
  destruct (_ && _); intros E; [|discriminate]. now injection E as _ <-.
Qed.
Lemma calm_alloc n : calm (allocate maxn n).
Proof. calm1. unfold allocate. destruct (_ <? _)%N; intros E; [discriminate|]. now injection E as _ <-. Qed.
Lemma calm_msize : calm msize.
Proof. calm1. unfold msize. destruct (_ =? _); intros E; [|discriminate]. now injection E as _ <-. Qed.
Lemma calm_set_end p : calm (set_end p).
Proof. calm1. intros E. now injection E as _ <-. Qed.
Lemma calm_set_buf b p c : calm (set_buf b p c).
Proof. calm1. intros E. now injection E as _ <-. Qed.
Lemma calm_throw_if c e : calm (throw_if c e).
Proof. calm1. unfold throw_if. destruct c; intros E; [discriminate|]. now injection E as _ <-. Qed.
Lemma calm_ub {A} : calm (@ub vec A). Proof. calm1. discriminate. Qed.
Lemma calm_diverge {A} : calm (@diverge vec A). Proof. calm1. discriminate. Qed.
Lemma calm_construct p x : calm (construct p x).
Proof.
  unfold calm. destruct x; cbn [construct]; repeat (apply same_bind; [|intros]);
    first [apply calm_tick | apply calm_begin | apply calm_read].
Qed.

Ltac calm2 := match goal with
  | |- calm _ => unfold calm
  | H : same ?a ?b |- same ?a ?b => exact H
  | |- same (bind get _) _ => apply same_get; intros
  | |- same (bind _ _) _ => apply same_bind; [|intros]
  | |- same (ret _) _ => apply same_ret
  | |- same tick _ => apply calm_tick
  | |- same (destroy _) _ => apply calm_destroy
  | |- same (read _) _ => apply calm_read
  | |- same (move_from _ _) _ => apply calm_move_from
  | |- same (begin_life _ _) _ => apply calm_begin
  | |- same (deallocate _ _) _ => apply calm_dealloc
  | |- same (allocate _ _) _ => apply calm_alloc
  | |- same msize _ => apply calm_msize
  | |- same (set_end _) _ => apply calm_set_end
  | |- same (set_buf _ _ _) _ => apply calm_set_buf
  | |- same (throw_if _ _) _ => apply calm_throw_if
  | |- same ub _ => apply calm_ub
  | |- same diverge _ => apply calm_diverge
  | |- same (construct _ _) _ => apply calm_construct
  end.
Ltac calms := repeat calm2.

Lemma calm_move_to p q : calm (move_to moved p q).
Proof. unfold calm, move_to. calms. Qed.
Lemma calm_destroy_from b k : forall i, calm (destroy_from b i k).
Proof. unfold calm. induction k; intros i; cbn [destroy_from]; calms. apply IHk. Qed.
Lemma calm_choose d : calm (choose_data SC RB maxn d).
Proof.
  unfold calm, choose_data. apply same_get; intros s Hs.
  destruct (negb _); [destruct (_ <? _)%N|destruct (_ <? _)%N]; calms.
  - destruct (grow_cap _ _ _); calms.
  - destruct (_ <? _)%N; calms.
Qed.
Lemma calm_cut k : calm (cut_loop k).
Proof. unfold calm. induction k; cbn [cut_loop]; calms. Qed.
Lemma calm_extend k x : calm (extend_loop k x).
Proof. unfold calm. induction k; cbn [extend_loop]; calms. Qed.
Lemma calm_fill b x k : forall i, calm (fill_loop b i x k).
Proof. unfold calm. induction k; intros i; cbn [fill_loop]; calms. apply IHk. Qed.
Lemma calm_copy b l : forall i, calm (copy_loop b i l).
Proof. unfold calm. induction l; intros i; cbn [copy_loop]; calms. apply IHl. Qed.
Lemma calm_append l : calm (append_loop l).
Proof. unfold calm. induction l; cbn [append_loop]; calms. Qed.
Lemma calm_clear : calm (clear SC RB).
Proof.
  unfold calm, clear, destroy_all. calms.
  - destruct (_ =? _); calms. apply calm_destroy_from.
  - destruct (_ && _); calms.
Qed.
Lemma calm_assign_copy l : calm (assign_copy SC RB maxn l).
Proof.
  unfold calm, assign_copy. calms; try apply calm_choose; try apply calm_append.
  destruct (_ && _); calms.
Qed.
Lemma calm_destroy_all : calm destroy_all.
Proof. unfold destroy_all. calms. destruct (_ =? _); calms. apply calm_destroy_from. Qed.
Lemma calm_assign l : calm (assign_range SC RB maxn l).
Proof.
  unfold calm, assign_range, destroy_all. calms; try apply calm_assign_copy.
  destruct (_ =? _); calms. apply calm_destroy_from.
Qed.

Lemma same_move_to p q : same (xmove_to moved p q) (move_to moved p q).
Proof.
  intros s Hs. split; [|apply (calm_move_to p q s Hs)].
  unfold xmove_to, read. unfold bind at 1. unfold move_to.
  destruct (slot_at q (blocks s)) as [[|v]|] eqn:E;
    try (unfold bind, move_from; now rewrite E).
  unfold tick. unfold bind at 1. rewrite Hs. reflexivity.
Qed.
Lemma same_move_range db sb k : forall di si,
  same (xmove_range moved db di sb si k) (move_range moved db di sb si k).
Proof.
  induction k; intros; cbn [xmove_range move_range]; calms; [apply same_move_to|apply IHk].
Qed.
Lemma same_relocate db sb k : forall di si,
  same (xrelocate_range moved db di sb si k) (relocate_range moved db di sb si k).
Proof.
  induction k; intros; cbn [xrelocate_range relocate_range]; calms; [apply same_move_to|apply IHk].
Qed.
Lemma same_transfer sb k : forall si,
  same (xshrink_transfer moved sb si k) (shrink_transfer moved sb si k).
Proof.
  induction k; intros; cbn [xshrink_transfer shrink_transfer]; calms; [apply same_move_to|apply IHk].
Qed.
Lemma same_grow_loop b p num k : same (xgrow_loop moved b p num k) (grow_loop moved b p num k).
Proof. induction k; cbn [xgrow_loop grow_loop]; calms. apply same_move_to. Qed.
Lemma same_shrink_loop b k : forall p np,
  same (xshrink_loop moved b p np k) (shrink_loop moved b p np k).
Proof.
  induction k; intros; cbn [xshrink_loop shrink_loop]; calms; [apply same_move_to|apply IHk].
Qed.

Ltac calms2 := repeat first [calm2 | match goal with
  | |- same (choose_data _ _ _ _) _ => apply calm_choose
  | |- same (xmove_range _ _ _ _ _ _) _ => apply same_move_range
  | |- same (xrelocate_range _ _ _ _ _ _) _ => apply same_relocate
  | |- same (xgrow_loop _ _ _ _ _) _ => apply same_grow_loop
  | |- same (xshrink_loop _ _ _ _ _) _ => apply same_shrink_loop
  | |- same (xshrink_transfer _ _ _ _) _ => apply same_transfer
  | |- same (destroy_from _ _ _) _ => apply calm_destroy_from
  | |- same (cut_loop _) _ => apply calm_cut
  | |- same (extend_loop _ _) _ => apply calm_extend
  | |- same (fill_loop _ _ _ _) _ => apply calm_fill
  | |- same (copy_loop _ _ _) _ => apply calm_copy
  | |- same (clear _ _) _ => apply calm_clear
  end].

Lemma same_reserve n : same (xreserve moved SC RB maxn n) (reserve moved SC RB maxn n).
Proof.
  unfold xreserve, reserve. apply same_get; intros s Hs. destruct (_ <=? _)%N; calms2.
  destruct (is_static s); calms.
Qed.
Lemma same_shrink_to_fit : same (xshrink_to_fit moved SC maxn) (shrink_to_fit moved SC maxn).
Proof.
  unfold xshrink_to_fit, shrink_to_fit. calms2. destruct (_ =? _); calms2.
  destruct (is_static _); calms2. destruct (_ <? _); calms.
Qed.
Lemma same_revert : same (xrevert_to_static moved SC maxn) (revert_to_static moved SC maxn).
Proof.
  unfold xrevert_to_static, revert_to_static. calms. destruct (is_static _); calms.
  destruct (_ <? _); calms. apply same_shrink_to_fit.
Qed.
Lemma same_grow_at p num : same (xgrow_at moved SC RB maxn p num) (grow_at moved SC RB maxn p num).
Proof.
  unfold xgrow_at, grow_at. calms2. destruct (_ =? _); calms2. destruct (is_static _); calms.
Qed.
Lemma same_shrink_at p num :
  same (xshrink_at moved SC RB maxn p num) (shrink_at moved SC RB maxn p num).
Proof.
  unfold xshrink_at, shrink_at. calms2. destruct (_ - _ =? 0); calms2. destruct (_ =? _); calms2.
Qed.
Lemma same_resize n v :
  same (xresize_val moved SC RB maxn n v) (resize_val moved SC RB maxn n (CopyOf v)).
Proof. unfold xresize_val, resize_val. calms2. apply same_reserve. Qed.

Lemma no_throw_same o (s : vec) :
  vfuse s = None -> xcall moved dflt SC RB maxn o s = call moved dflt SC RB maxn o s.
Proof.
  revert s. enough (H : same (xcall moved dflt SC RB maxn o) (call moved dflt SC RB maxn o))
    by (intros s Hs; apply (H s Hs)).
  destruct o as [[]| | |]; cbn [xcall call]; unfold no_answer, position_answer, xpush_back, push_back,
    xpop_back, pop_back, xinsert1, insert1, xinsert_n, insert_n, xinsert_range, insert_range,
    xerase, erase, xerase_range, erase_range, resize, assign_n; calms2;
    first [apply same_grow_at | apply same_shrink_at | apply same_resize | apply same_reserve
          | apply same_shrink_to_fit | apply same_revert | apply calm_assign | apply calm_destroy_all
          | apply calm_assign_copy].
Qed.

(** ** Moves which may throw *)
Hypothesis HSC : 0 < SC.
Hypothesis HRB : RB <= SC + 1.
Hypothesis Hmax : (maxn < two63)%N.

Notation dfs := (@destroy_from_spec V SC RB maxn HSC HRB Hmax).
Notation dfraw := (@destroy_from_raw V SC RB maxn HSC HRB Hmax).
Notation cds := (@choose_data_spec V SC RB maxn HSC HRB Hmax).
Notation howns := (@holds_owns V SC RB maxn HSC HRB Hmax).
Notation rbounds := (room_bounds SC RB maxn HSC HRB Hmax).

Ltac nthu := repeat first
  [ rewrite nth_error_upd_eq by (rewrite ?upd_length; assumption)
  | rewrite nth_error_upd_neq by (first [assumption | congruence]) ].

Lemma xmove_to_ok bs vb0 ve0 c k dst b i (A B : list slot) (v : V) :
  nth_error bs b = Some (Blk (A ++ Live v :: B)) -> i = length A ->
  xmove_to moved dst (b, i) (mkVec bs vb0 ve0 c (Some (S k))) =
  move_to moved dst (b, i) (mkVec bs vb0 ve0 c (Some k)).
Proof.
  intros H E. unfold xmove_to. erewrite bind_ok by (eapply read_mid; eauto). reflexivity.
Qed.

Lemma xmove_to_throw bs vb0 ve0 c dst b i (A B : list slot) (v : V) :
  nth_error bs b = Some (Blk (A ++ Live v :: B)) -> i = length A ->
  xmove_to moved dst (b, i) (mkVec bs vb0 ve0 c (Some 0)) =
  Throw ElemThrow (mkVec bs vb0 ve0 c None).
Proof.
  intros H E. unfold xmove_to. erewrite bind_ok by (eapply read_mid; eauto).
  unfold bind, tick. reflexivity.
Qed.

Lemma xmove_range_ok (xs : list V) : forall bs vb0 ve0 c f db di sb si k (A B C D : list slot),
  db <> sb ->
  nth_error bs sb = Some (Blk (A ++ map Live xs ++ B)) -> si = length A ->
  nth_error bs db = Some (Blk (C ++ repeat Raw (length xs) ++ D)) -> di = length C ->
  k = length xs ->
  xmove_range moved db di sb si k (mkVec bs vb0 ve0 c (Some (length xs + f))) =
  Ok tt (mkVec (upd (upd bs sb (Blk (A ++ map Live (map moved xs) ++ B)))
                    db (Blk (C ++ map Live xs ++ D))) vb0 ve0 c (Some f)).
Proof.
  induction xs as [|x xs IH]; intros bs vb0 ve0 c f db di sb si k A B C D Hne Hs -> Hd -> ->.
  - cbn [xmove_range length repeat map app Nat.add] in *.
    rewrite (upd_nth_id _ _ _ Hs). now rewrite upd_nth_id by exact Hd.
  - cbn [xmove_range length Nat.add]. cbn [map app repeat length] in Hs, Hd.
    pose proof (nth_lt _ _ _ Hs) as Ls. pose proof (nth_lt _ _ _ Hd) as Ld.
    erewrite bind_ok by (erewrite xmove_to_ok by (exact Hs || reflexivity); eapply move_to_mid; eauto).
    erewrite (IH _ _ _ _ _ _ _ _ _ _ (A ++ [Live (moved x)]) B (C ++ [Live x]) D).
    + rewrite upd_comm with (i := sb) by auto. rewrite upd_upd_same.
      rewrite upd_comm with (i := db) by auto. rewrite upd_upd_same.
      rewrite <- !app_assoc. cbn [map app]. reflexivity.
    + exact Hne.
    + nthu. rewrite <- app_assoc. reflexivity.
    + len.
    + nthu. rewrite <- app_assoc. reflexivity.
    + len.
    + reflexivity.
Qed.

Lemma xmove_range_app db sb a b : forall di si s,
  xmove_range moved db di sb si (a + b) s =
  (xmove_range moved db di sb si a ;;; xmove_range moved db (di + a) sb (si + a) b) s.
Proof.
  induction a as [|a IH]; intros di si s; cbn [xmove_range Nat.add].
  - rewrite !Nat.add_0_r. reflexivity.
  - rewrite bind_assoc. unfold bind at 1 2. destruct (xmove_to _ _ _ _); auto.
    rewrite IH. now rewrite !Nat.add_succ_comm.
Qed.

Lemma xmove_range_throw (ys : list V) x zs bs vb0 ve0 c db di sb si k (A B C D : list slot) :
  db <> sb ->
  nth_error bs sb = Some (Blk (A ++ map Live (ys ++ x :: zs) ++ B)) -> si = length A ->
  nth_error bs db = Some (Blk (C ++ repeat Raw (length ys) ++ D)) -> di = length C ->
  k = length (ys ++ x :: zs) ->
  xmove_range moved db di sb si k (mkVec bs vb0 ve0 c (Some (length ys))) =
  Throw ElemThrow (mkVec (upd (upd bs sb (Blk (A ++ map Live (map moved ys ++ x :: zs) ++ B)))
                    db (Blk (C ++ map Live ys ++ D))) vb0 ve0 c None).
Proof.
  intros Hne Hs -> Hd -> ->. rewrite app_length. rewrite xmove_range_app.
  pose proof (nth_lt _ _ _ Hs) as Ls. pose proof (nth_lt _ _ _ Hd) as Ld.
  erewrite bind_ok.
  2:{ rewrite <- (Nat.add_0_r (length ys)) at 2.
      apply xmove_range_ok with (A := A) (C := C) (B := map Live (x :: zs) ++ B) (D := D); auto.
      rewrite Hs. rewrite map_app, <- app_assoc. reflexivity. }
  cbn [length xmove_range]. apply bind_throw.
  erewrite xmove_to_throw.
  - rewrite map_app, <- app_assoc. reflexivity.
  - nthu. rewrite app_assoc. cbn [map app]. reflexivity.
  - len.
Qed.

(** ** What is left *)

Lemma list_sum_one (f : block -> nat) (bs : list block) d n :
  nth_error bs d = Some n -> (forall j x, j <> d -> nth_error bs j = Some x -> f x = 0) ->
  list_sum (map f bs) = f n.
Proof.
  revert d. induction bs as [|b bs IH]; intros d Hd Ho; [now destruct d|].
  cbn [map list_sum fold_right]. fold (list_sum (map f bs)). destruct d as [|d].
  - injection Hd as ->. enough (list_sum (map f bs) = 0) by lia.
    assert (Hz : forall x, In x bs -> f x = 0).
    { intros x Hx. apply In_nth_error in Hx. destruct Hx as [j Hj]. now apply (Ho (S j)). }
    clear - Hz. induction bs as [|b bs IH]; [reflexivity|].
    cbn [map list_sum fold_right]. fold (list_sum (map f bs)). rewrite (Hz b) by now left.
    rewrite IH; [reflexivity|]. intros x Hx. apply Hz. now right.
  - rewrite (Ho 0 b) by auto. cbn [Nat.add]. apply (IH d Hd).
    intros j x Hj Hx. apply (Ho (S j)); auto.
Qed.

Lemma live_in_app (l1 l2 : list slot) : live_in (Blk (l1 ++ l2)) = live_in (Blk l1) + live_in (Blk l2).
Proof. cbn [live_in]. rewrite filter_app. apply app_length. Qed.
Lemma live_in_raw n : live_in (Blk (repeat (@Raw V) n)) = 0.
Proof. cbn [live_in]. induction n; auto. Qed.
Lemma live_in_live (xs : list V) : live_in (Blk (map Live xs)) = length xs.
Proof. cbn [live_in]. induction xs; cbn; auto. Qed.

Definition blocky (b : block) : bool := match b with Blk _ => true | Freed => false end.

Lemma filter_tl (bs : list block) (p : nat) :
  (forall j x, j <> 0 -> j <> p -> nth_error bs j = Some x -> x = Freed) ->
  (p = 0 \/ length bs <= p -> length (filter blocky (tl bs)) = 0) /\
  (p <> 0 -> forall l, nth_error bs p = Some (Blk l) -> length (filter blocky (tl bs)) = 1).
Proof.
  intros H. destruct bs as [|b bs]; cbn [tl]; [split; [reflexivity|intros _ l E; now destruct p]|].
  assert (Z : forall cs : list block, (forall x, In x cs -> x = Freed) -> length (filter blocky cs) = 0).
  { induction cs as [|x cs IH]; intros Hc; [reflexivity|]. cbn [filter].
    rewrite (Hc x) by now left. cbn [blocky]. apply IH. intros y Hy. apply Hc. now right. }
  split.
  - intros Hp. apply Z. intros x Hx. apply In_nth_error in Hx. destruct Hx as [j Hj].
    apply (H (S j)); [auto| |exact Hj]. pose proof (nth_lt _ _ _ Hj). cbn [length] in Hp. lia.
  - intros Hp l E. destruct p as [|p]; [contradiction|]. cbn [nth_error] in E.
    apply nth_error_split in E. destruct E as (l1 & l2 & -> & El).
    rewrite filter_app. cbn [filter blocky]. rewrite app_length. cbn [length].
    rewrite (Z l1), (Z l2); [reflexivity| |].
    + intros x Hx. apply In_nth_error in Hx. destruct Hx as [j Hj].
      apply (H (S (length l1 + S j))); [lia|lia|]. cbn [nth_error].
      rewrite nth_error_app2 by lia. replace (length l1 + S j - length l1) with (S j) by lia. exact Hj.
    + intros x Hx. apply In_nth_error in Hx. destruct Hx as [j Hj].
      pose proof (nth_lt _ _ _ Hj).
      apply (H (S j)); [lia|lia|]. cbn [nth_error]. rewrite nth_error_app1 by lia. exact Hj.
Qed.

(** The vector in [b] with the elements [ws], and something in another buffer [db]. *)
Lemma abandoned bs' b c db c' (ws : list V) (rest : list slot) :
  length ws <= c -> b < length bs' -> (b = 0 -> c = SC) -> target SC bs' b db c' ->
  let s' := mkVec (upd (upd bs' b (Blk (buf c ws))) db (Blk rest)) b (b, length ws) c None in
  exists s'',
    in_buffer s' b c ws /\ destructor s' = Ok tt s'' /\
    alive s'' = live_in (Blk rest) /\ held s'' = if db =? 0 then 0 else 1.
Proof.
  intros Hc Lb Hb (T1 & T2 & T3 & T4 & T5 & T6) s'.
  pose proof (nth_lt _ _ _ T2) as Ld. assert (T1' : b <> db) by congruence.
  set (bs1 := upd (upd (upd bs' b (Blk (buf c ws))) db (Blk rest)) b (Blk (repeat Raw c))).
  exists (mkVec (retired bs1 b) b (b, length ws) c None).
  split; [|split].
  - unfold in_buffer, s'; cbn [vb vcap ve blocks]. repeat split. nthu. reflexivity.
  - unfold destructor, destroy_all, s'. rewrite bind_assoc, bind_get. cbn [vb ve fst snd].
    rewrite Nat.eqb_refl. erewrite bind_ok.
    2:{ apply dfs with (xs := ws) (A := []) (B := repeat Raw (c - length ws)); auto.
        nthu. reflexivity. }
    rewrite bind_get. unfold is_static; cbn [vb vcap].
    replace ([] ++ repeat Raw (length ws) ++ repeat Raw (c - length ws)) with (repeat (@Raw V) c).
    + fold bs1. apply retire_spec. unfold bs1. nthu. reflexivity.
    + cbn [app]. rewrite <- repeat_app. f_equal. lia.
  - assert (F : forall j x, j <> db -> nth_error (retired bs1 b) j = Some x ->
                x = Freed \/ (j = 0 /\ exists n, x = Blk (repeat Raw n))).
    { intros j x J E. unfold retired in E. destruct (Nat.eqb_spec b 0) as [->|Nb].
      - destruct (Nat.eq_dec j 0) as [->|J0].
        + right. split; [reflexivity|]. unfold bs1 in E.
          rewrite nth_error_upd_eq in E by (rewrite !upd_length; exact Lb). injection E as <-. eauto.
        + left. pose proof (nth_lt _ _ _ E) as Lj. unfold bs1 in *. rewrite !upd_length in Lj.
          rewrite !nth_error_upd_neq in E by auto. rewrite T6 in E by auto. congruence.
      - destruct (Nat.eq_dec j b) as [->|Jb].
        + left. rewrite nth_error_upd_eq in E by (unfold bs1; rewrite !upd_length; exact Lb). congruence.
        + pose proof (nth_lt _ _ _ E) as Lj. unfold bs1 in *. rewrite !upd_length in Lj.
          rewrite !nth_error_upd_neq in E by auto.
          destruct (Nat.eq_dec j 0) as [->|J0].
          * right. split; [reflexivity|]. rewrite T5 in E by auto. injection E as <-. eauto.
          * left. rewrite T6 in E by auto. congruence. }
    assert (D : nth_error (retired bs1 b) db = Some (Blk rest)).
    { unfold retired, bs1. destruct (b =? 0); nthu; reflexivity. }
    split.
    + unfold alive; cbn [blocks]. eapply list_sum_one; [exact D|].
      intros j x J E. destruct (F j x J E) as [->|(_ & n & ->)]; [reflexivity|apply live_in_raw].
    + unfold held; cbn [blocks]. fold blocky.
      destruct (filter_tl (retired bs1 b) db) as [P1 P2].
      { intros j x J0 Jd E. destruct (F j x Jd E) as [->|(? & _)]; [reflexivity|contradiction]. }
      destruct (Nat.eqb_spec db 0) as [->|Nd]; [now apply P1; left|]. eapply P2; eauto.
Qed.

Lemma split_at (xs : list V) k : k < length xs ->
  exists ys x zs, xs = ys ++ x :: zs /\ length ys = k /\ ys = firstn k xs /\ x :: zs = skipn k xs.
Proof.
  intros H. exists (firstn k xs).
  destruct (skipn k xs) as [|x zs] eqn:E.
  - apply (f_equal (@length V)) in E. rewrite skipn_length in E. cbn in E. lia.
  - exists x, zs. rewrite <- E. repeat split; [symmetry; apply firstn_skipn|len].
Qed.

(** ** Everything to another buffer *)

(** What the caller finds after the [k]-th move to a buffer for [m] elements threw. *)
Definition cut_short {A} (r : res vec A) (s : vec) (xs : list V) (k m : nat) : Prop :=
  exists s' s'',
    r = Throw ElemThrow s' /\
    in_buffer s' (vb s) (vcap s) (map moved (firstn k xs) ++ skipn k xs) /\
    destructor s' = Ok tt s'' /\ alive s'' = k /\ held s'' = if vcap s <? m then 1 else 0.

Lemma cut_short_bind {A B} (r : M vec A) (h : A -> M vec B) s xs k m :
  cut_short (r s) s xs k m -> cut_short ((let* a := r in h a) s) s xs k m.
Proof.
  intros (s' & s'' & E & H). exists s', s''. split; [|exact H]. now apply bind_throw.
Qed.

Lemma cut_short_abandoned {A} (r : res vec A) bs b c db c' f (xs : list V) k m bs' rest s' :
  k < length xs -> length xs <= c -> b < length bs' -> (b = 0 -> c = SC) -> target SC bs' b db c' ->
  live_in (Blk rest) = k -> (db =? 0) = negb (c <? m) ->
  s' = mkVec (upd (upd bs' b (Blk (map Live (map moved (firstn k xs) ++ skipn k xs) ++
         repeat Raw (c - length xs)))) db (Blk rest)) b (b, length xs) c None ->
  r = Throw ElemThrow s' ->
  cut_short r (mkVec bs b (b, length xs) c f) xs k m.
Proof.
  intros Hk Hc Lb Hb HT Hl Hd -> ->.
  set (ws := map moved (firstn k xs) ++ skipn k xs).
  assert (Lw : length ws = length xs) by (unfold ws; len).
  destruct (abandoned bs' b c db c' ws rest ltac:(lia) Lb Hb HT) as (s'' & H1 & H2 & H3 & H4).
  unfold buf in *. rewrite Lw in *.
  eexists _, s''. split; [reflexivity|]. cbn [vb vcap]. split; [exact H1|].
  split; [exact H2|]. split; [now rewrite H3|]. rewrite H4, Hd. now destruct (c <? m).
Qed.

Lemma grow_cut_short (s : vec) (xs : list V) pos num k :
  holds SC s xs -> pos <= length xs -> room maxn (length xs + num) ->
  elsewhere RB s (length xs + num) -> vfuse s = Some k -> k < length xs ->
  cut_short (xgrow_at moved SC RB maxn (Z.of_nat pos) (N.of_nat num) s) s xs k (length xs + num).
Proof.
  intros H Hp Hroom He Hf Hk. apply howns in H. destruct H as (Hend & Hc & Hown).
  unfold xgrow_at. erewrite bind_ok by (apply msize_spec; exact Hend).
  replace ((Z.of_nat pos <? 0) || (Z.of_nat (length xs) <? Z.of_nat pos))%Z with false
    by (symmetry; apply orb_false_iff; split; apply Z.ltb_ge; lia).
  erewrite bind_ok by reflexivity. rewrite bind_get. rewrite Nat2Z.id.
  assert (Hm : ((N.of_nat (length xs) + N.of_nat num) mod two64 = N.of_nat (length xs + num))%N).
  { destruct (rbounds _ Hroom) as [Hr _]. rewrite <- Nat2N.inj_add.
    apply N.mod_small. unfold two64 in *. lia. }
  rewrite Hm. rewrite Nat2N.id.
  destruct (cds s _ (length xs + num) Hown ltac:(auto))
    as [(Hd & Hstay & E)|(db & c' & bs' & E & Hd & HT & Hsame & Hcase)].
  { exfalso. unfold elsewhere in He. lia. }
  erewrite bind_ok by exact E. cbn [fst snd].
  pose proof HT as (T1 & T2 & T3 & T4 & T5 & T6).
  replace (db =? vb s) with false by (symmetry; now apply Nat.eqb_neq).
  destruct s as [bs b e c f]. unfold with_blocks. cbn [blocks vb ve vcap vfuse] in *. subst e f.
  destruct Hown as (Hn & Hl & O3 & O4 & O5). cbn [blocks vb ve vcap] in *.
  rewrite <- Hsame in Hn.
  pose proof (nth_lt _ _ _ Hn) as Lb. pose proof (nth_lt _ _ _ T2) as Ld.
  assert (T1' : b <> db) by congruence.
  assert (Hdb : (db =? 0) = negb (c <? length xs + num)).
  { destruct Hcase as [(-> & _ & _ & Q)|(Q1 & Q2)].
    - symmetry. apply negb_true_iff. apply Nat.ltb_ge. exact Q.
    - replace (c <? length xs + num) with true by (symmetry; now apply Nat.ltb_lt).
      now apply Nat.eqb_neq. }
  destruct (Nat.lt_ge_cases k pos) as [Hkp|Hkp].
  - destruct (split_at (firstn pos xs) k ltac:(len)) as (ys & x & zs & Ex & Ly & Ey & Ez).
    eapply cut_short_abandoned with (bs' := bs') (db := db) (c' := c')
      (rest := map Live ys ++ repeat Raw (c' - k)); try eassumption; try reflexivity.
    { rewrite live_in_app, live_in_live, live_in_raw. lia. }
    apply bind_throw. replace (Some k) with (Some (length ys)) by (f_equal; lia).
    erewrite xmove_range_throw with (A := []) (C := []) (ys := ys) (x := x) (zs := zs)
      (B := map Live (skipn pos xs) ++ repeat Raw (c - length xs)) (D := repeat Raw (c' - k)).
    + cbn [app].
      match goal with |- context [upd bs' b (Blk ?l)] =>
        replace l with (map Live (map moved (firstn k xs) ++ skipn k xs) ++ repeat Raw (c - length xs));
          [reflexivity|] end.
      symmetry. rewrite app_assoc. rewrite <- map_app. f_equal. f_equal.
      rewrite <- app_assoc. f_equal.
      * f_equal. rewrite Ey. rewrite firstn_firstn. f_equal. lia.
      * rewrite Ez. rewrite <- (firstn_skipn pos xs) at 3. rewrite skipn_app.
        f_equal. rewrite firstn_length. replace (k - Nat.min pos (length xs)) with 0 by lia. reflexivity.
    + exact T1.
    + rewrite Hn. unfold buf. rewrite <- (firstn_skipn pos xs) at 1. rewrite map_app, <- app_assoc.
      rewrite Ex at 1. reflexivity.
    + reflexivity.
    + rewrite T2. cbn [app]. rewrite <- repeat_app. do 3 f_equal. lia.
    + reflexivity.
    + rewrite <- Ex. len.
  - destruct (split_at (skipn pos xs) (k - pos) ltac:(len)) as (ys & x & zs & Ex & Ly & Ey & Ez).
    set (x1 := firstn pos xs) in *.
    assert (L1 : length x1 = pos) by (subst x1; len).
    eapply cut_short_abandoned with (bs' := bs') (db := db) (c' := c')
      (rest := (map Live x1 ++ repeat Raw num) ++ map Live ys ++ repeat Raw (c' - (k + num)));
      try eassumption; try reflexivity.
    { rewrite !live_in_app, !live_in_live, !live_in_raw. lia. }
    replace (Some k) with (Some (length x1 + length ys)) by (f_equal; lia).
    erewrite bind_ok.
    2:{ apply xmove_range_ok with (xs := x1) (A := []) (C := [])
          (B := map Live (skipn pos xs) ++ repeat Raw (c - length xs)) (D := repeat Raw (c' - pos)).
        - exact T1.
        - rewrite Hn. unfold buf. rewrite <- (firstn_skipn pos xs) at 1. rewrite map_app, <- app_assoc.
          reflexivity.
        - reflexivity.
        - rewrite T2. cbn [app]. rewrite <- repeat_app. do 3 f_equal. lia.
        - reflexivity.
        - lia. }
    apply bind_throw.
    erewrite xmove_range_throw with (A := map Live (map moved x1)) (C := map Live x1 ++ repeat Raw num)
      (ys := ys) (x := x) (zs := zs)
      (B := repeat Raw (c - length xs)) (D := repeat Raw (c' - (k + num))).
    + rewrite upd_comm with (i := db) by exact T1. rewrite upd_upd_same.
      rewrite upd_upd_same.
      match goal with |- context [upd bs' b (Blk ?l)] =>
        replace l with (map Live (map moved (firstn k xs) ++ skipn k xs) ++ repeat Raw (c - length xs));
          [reflexivity|] end.
      symmetry. rewrite app_assoc. rewrite <- map_app. f_equal. f_equal.
      rewrite app_assoc. rewrite <- map_app. f_equal.
      * f_equal. rewrite Ey. unfold x1. rewrite <- (firstn_skipn pos xs) at 3. rewrite firstn_app.
        rewrite firstn_length. rewrite (firstn_all2 (firstn pos xs)) by len. do 2 f_equal. lia.
      * rewrite Ez. rewrite skipn_skipn'. f_equal. lia.
    + exact T1.
    + nthu. cbn [app]. rewrite Ex at 1. reflexivity.
    + len.
    + nthu. cbn [app]. rewrite <- app_assoc. rewrite <- !repeat_app. do 4 f_equal. lia.
    + len.
    + rewrite <- Ex. len.
Qed.

Lemma reserve_cut_short (s : vec) (xs : list V) n k :
  holds SC s xs -> room maxn n -> vcap s < n -> vfuse s = Some k -> k < length xs ->
  cut_short (xreserve moved SC RB maxn (N.of_nat n) s) s xs k n.
Proof.
  intros H Hroom Hlt Hf Hk. apply howns in H. destruct H as (Hend & Hc & Hown).
  unfold xreserve. rewrite bind_get.
  replace (N.of_nat n <=? N.of_nat (vcap s))%N with false by (symmetry; apply N.leb_gt; lia).
  destruct (cds s _ n Hown ltac:(auto))
    as [(Hd & Hstay & E)|(db & c' & bs' & E & Hd & HT & Hsame & Hcase)]; [lia|].
  destruct Hcase as [(_ & _ & _ & ?)|(Hdb & _)]; [lia|].
  erewrite bind_ok by exact E. cbn [fst snd].
  pose proof HT as (T1 & T2 & T3 & T4 & T5 & T6).
  destruct s as [bs b e c f]. unfold with_blocks. cbn [blocks vb ve vcap vfuse] in *. subst e f.
  erewrite bind_ok by (apply msize_spec; reflexivity).
  destruct Hown as (Hn & Hl & O3 & O4 & O5). cbn [blocks vb ve vcap] in *.
  rewrite <- Hsame in Hn. pose proof (nth_lt _ _ _ Hn) as Lb.
  destruct (split_at xs k Hk) as (ys & x & zs & Ex & Ly & Ey & Ez).
  eapply cut_short_abandoned with (bs' := bs') (db := db) (c' := c')
      (rest := map Live ys ++ repeat Raw (c' - k)); try eassumption; try reflexivity.
  { rewrite live_in_app, live_in_live, live_in_raw. lia. }
  { replace (c <? n) with true by (symmetry; now apply Nat.ltb_lt). now apply Nat.eqb_neq. }
  apply bind_throw. replace (Some k) with (Some (length ys)) by (f_equal; lia).
  erewrite xmove_range_throw with (A := []) (C := []) (ys := ys) (x := x) (zs := zs)
      (B := repeat Raw (c - length xs)) (D := repeat Raw (c' - k)).
  + rewrite Ez, Ey. reflexivity.
  + exact T1.
  + rewrite Hn. unfold buf. rewrite Ex at 1. reflexivity.
  + reflexivity.
  + rewrite T2. cbn [app]. rewrite <- repeat_app. do 3 f_equal. lia.
  + reflexivity.
  + now rewrite <- Ex.
Qed.

Lemma relocation_fact o (s : vec) (xs : list V) m k :
  holds SC s xs -> relocates RB s xs o m -> room maxn m -> vfuse s = Some k -> k < length xs ->
  cut_short (xcall moved dflt SC RB maxn o s) s xs k m.
Proof.
  intros H R Hr Hf Hk.
  destruct o as [[]| | |]; cbn [relocates] in R; try contradiction; cbn [xcall];
    unfold no_answer, position_answer, xpush_back, xinsert1, xinsert_n, xinsert_range, xresize_val.
  - destruct R as [-> R]. apply cut_short_bind.
    erewrite bind_ok by (apply msize_spec; apply H). apply cut_short_bind.
    apply (grow_cut_short s xs (length xs) 1 k); auto.
  - destruct R as (-> & R & R2). do 2 apply cut_short_bind.
    now apply (grow_cut_short s xs pos 1 k).
  - destruct R as (-> & R & R2). do 2 apply cut_short_bind.
    now apply grow_cut_short.
  - destruct R as (-> & R & R2). do 2 apply cut_short_bind.
    now apply grow_cut_short.
  - destruct R as [-> R]. do 2 apply cut_short_bind. now apply reserve_cut_short.
  - destruct R as [-> R]. do 2 apply cut_short_bind. now apply reserve_cut_short.
  - destruct R as [-> R]. apply cut_short_bind. now apply reserve_cut_short.
Qed.

(** ** In the same buffer *)

Lemma xgrow_loop_throw (ys : list V) : forall bs vb0 ve0 c b (A T : list slot) zs x position num k,
  nth_error bs b = Some (Blk (A ++ map Live (zs ++ x :: ys) ++ repeat Raw (S num) ++ T)) ->
  position = length A -> k = length (zs ++ x :: ys) ->
  xgrow_loop moved b position (S num) k (mkVec bs vb0 ve0 c (Some (length ys))) =
  Throw ElemThrow
    (mkVec (upd bs b (Blk (A ++ map Live (zs ++ [x]) ++ repeat Raw (S num) ++ map Live ys ++ T)))
       vb0 ve0 c None).
Proof.
  induction ys as [|y ys IH] using rev_ind; intros bs vb0 ve0 c b A T zs x position num k H -> ->.
  - rewrite app_length. cbn [length]. rewrite Nat.add_1_r. cbn [xgrow_loop map app].
    apply bind_throw. rewrite upd_nth_id by exact H.
    rewrite map_app in H. cbn [map] in H.
    eapply xmove_to_throw with (A := A ++ map Live zs) (v := x).
    + rewrite H. rewrite <- !app_assoc. reflexivity.
    + len.
  - replace (length (zs ++ x :: ys ++ [y])) with (S (length (zs ++ x :: ys))) by len.
    replace (length (ys ++ [y])) with (S (length ys)) by len.
    cbn [xgrow_loop].
    replace (zs ++ x :: ys ++ [y]) with ((zs ++ x :: ys) ++ [y]) in H by (now rewrite <- app_assoc).
    set (mid := zs ++ x :: ys) in *. rewrite map_app in H. cbn [map] in H.
    pose proof (nth_lt _ _ _ H) as L.
    erewrite bind_ok.
    2:{ erewrite xmove_to_ok with (A := A ++ map Live mid) (v := y);
          [|rewrite H; rewrite <- !app_assoc; reflexivity|len].
        eapply move_to_same with (A := A ++ map Live mid)
          (C := (A ++ map Live mid) ++ Live (moved y) :: repeat Raw num) (D := T)
          (B := repeat Raw (S num) ++ T).
        - rewrite H. rewrite <- !app_assoc. reflexivity.
        - len.
        - rewrite repeat_S_end. repeat (rewrite <- app_assoc; cbn [app]). reflexivity.
        - len.
        - reflexivity. }
    erewrite bind_ok.
    2:{ eapply destroy_mid with (A := A ++ map Live mid) (B := repeat Raw num ++ Live y :: T).
        - rewrite nth_error_upd_eq by exact L. rewrite <- !app_assoc. reflexivity.
        - len. }
    unfold mid in *.
    erewrite (IH _ _ _ _ _ A (Live y :: T) zs x).
    + rewrite !upd_upd_same. do 4 f_equal. rewrite (map_app Live ys), <- !app_assoc. reflexivity.
    + rewrite nth_error_upd_eq by (now rewrite upd_length). rewrite <- !app_assoc. reflexivity.
    + reflexivity.
    + reflexivity.
Qed.

Lemma destructor_raw bs b n c f (xs : list V) B :
  nth_error bs b = Some (Blk (map Live xs ++ Raw :: B)) -> length xs < n ->
  destructor (mkVec bs b (b, n) c f) = UB.
Proof.
  intros H Hn. unfold destructor. apply bind_ub.
  unfold destroy_all. rewrite bind_get. cbn [vb ve fst snd]. rewrite Nat.eqb_refl.
  eapply dfraw with (A := []) (xs := xs); [exact H|reflexivity|exact Hn].
Qed.

(** A call which throws and leaves a vector which cannot be destroyed. *)
Definition broken {A} (r : res vec A) : Prop :=
  exists s', r = Throw ElemThrow s' /\ destructor s' = UB.

Lemma broken_bind {A B} (r : M vec A) (h : A -> M vec B) s :
  broken (r s) -> broken ((let* a := r in h a) s).
Proof. intros (s' & E & H). exists s'. split; [|exact H]. now apply bind_throw. Qed.

Lemma grow_broken (s : vec) (xs : list V) pos num k :
  holds SC s xs -> pos <= length xs -> room maxn (length xs + num) -> 0 < num ->
  ~ elsewhere RB s (length xs + num) -> vfuse s = Some k -> k < length xs - pos ->
  broken (xgrow_at moved SC RB maxn (Z.of_nat pos) (N.of_nat num) s).
Proof.
  intros H Hp Hroom Hnum He Hf Hk. apply howns in H. destruct H as (Hend & Hc & Hown).
  unfold xgrow_at. erewrite bind_ok by (apply msize_spec; exact Hend).
  replace ((Z.of_nat pos <? 0) || (Z.of_nat (length xs) <? Z.of_nat pos))%Z with false
    by (symmetry; apply orb_false_iff; split; apply Z.ltb_ge; lia).
  erewrite bind_ok by reflexivity. rewrite bind_get. rewrite Nat2Z.id.
  assert (Hm : ((N.of_nat (length xs) + N.of_nat num) mod two64 = N.of_nat (length xs + num))%N).
  { destruct (rbounds _ Hroom) as [Hr _]. rewrite <- Nat2N.inj_add.
    apply N.mod_small. unfold two64 in *. lia. }
  rewrite Hm. rewrite Nat2N.id.
  destruct (cds s _ (length xs + num) Hown ltac:(auto))
    as [(Hd & Hstay & E)|(db & c' & bs' & E & Hd & HT & Hsame & Hcase)].
  2:{ exfalso. apply He. unfold elsewhere. destruct Hcase as [(_ & ? & ? & _)|(_ & ?)]; lia. }
  erewrite bind_ok by exact E. cbn [fst]. rewrite Nat.eqb_refl.
  destruct s as [bs b e c f]. cbn [blocks vb ve vcap vfuse] in *. subst e f.
  destruct (split_at (skipn pos xs) (length xs - pos - 1 - k)) as (zs & x & ys & Ex & Lz & Ez & Ey); [len|].
  assert (Ly : length ys = k).
  { apply (f_equal (@length V)) in Ex. rewrite skipn_length, app_length in Ex. cbn [length] in Ex. lia. }
  assert (Hnth : nth_error bs b = Some (Blk (map Live (firstn pos xs) ++ map Live (zs ++ x :: ys) ++
             repeat Raw num ++ repeat Raw (c - (length xs + num))))).
  { destruct Hown as (Hn & _). cbn [blocks vb] in Hn. rewrite Hn. unfold buf.
    rewrite <- (firstn_skipn pos xs) at 1. rewrite map_app, <- app_assoc.
    rewrite <- repeat_app, Ex. do 5 f_equal. lia. }
  pose proof (nth_lt _ _ _ Hnth) as L. destruct num as [|num]; [lia|].
  unfold set_end at 1. erewrite bind_ok by reflexivity.
  unfold with_end; cbn [blocks vb ve vcap vfuse].
  eexists. split.
  - apply bind_throw. rewrite <- Ly at 1.
    apply xgrow_loop_throw with (A := map Live (firstn pos xs)) (zs := zs) (x := x)
      (T := repeat Raw (c - (length xs + S num))); [exact Hnth|len|rewrite <- Ex; len].
  - eapply destructor_raw with (xs := firstn pos xs ++ zs ++ [x]).
    + rewrite nth_error_upd_eq by exact L. rewrite (map_app Live (firstn pos xs)), <- app_assoc. reflexivity.
    + len.
Qed.

Lemma shift_fact o (s : vec) (xs : list V) m k :
  holds SC s xs -> shifts_up RB s xs o m -> small_ok maxn xs o -> vfuse s = Some k -> k < m ->
  broken (xcall moved dflt SC RB maxn o s).
Proof.
  intros H R Hr Hf Hk.
  destruct o as [[]| | |]; cbn [shifts_up small_ok] in R, Hr; try contradiction; cbn [xcall];
    unfold no_answer, position_answer, xpush_back, xinsert1, xinsert_n, xinsert_range.
  - destruct R as (R1 & R2 & ->). do 2 apply broken_bind. now apply (grow_broken s xs pos 1 k); auto.
  - destruct R as (R0 & R1 & R2 & ->). do 2 apply broken_bind. now apply (grow_broken s xs pos n k).
  - destruct R as (R0 & R1 & R2 & ->). do 2 apply broken_bind.
    apply (grow_broken s xs pos (length l) k); try tauto. destruct l; [contradiction|cbn; lia].
Qed.

Lemma xshrink_loop_throw (ys : list V) : forall x zs bs vb0 ve0 c b (A T : list slot) (gone : list V) p np k,
  gone <> [] ->
  nth_error bs b = Some (Blk (A ++ map Live gone ++ map Live (ys ++ x :: zs) ++ T)) ->
  p = length A -> np = p + length gone -> k = length (ys ++ x :: zs) ->
  exists rest : list slot,
  xshrink_loop moved b p np k (mkVec bs vb0 ve0 c (Some (length ys))) =
  Throw ElemThrow (mkVec (upd bs b (Blk (A ++ map Live ys ++ Raw :: rest))) vb0 ve0 c None).
Proof.
  induction ys as [|y ys IH]; intros x zs bs vb0 ve0 c b A T gone p np k Hg H -> -> ->;
    (destruct gone as [|g gone]; [contradiction|]); pose proof (nth_lt _ _ _ H) as L.
  - cbn [length xshrink_loop map app] in *. eexists.
    erewrite bind_ok by (eapply destroy_mid; eauto).
    apply bind_throw. apply xmove_to_throw with (A := A ++ Raw :: map Live gone) (v := x)
      (B := map Live zs ++ T).
    + rewrite nth_error_upd_eq by exact L. rewrite <- !app_assoc. reflexivity.
    + len.
  - cbn [length xshrink_loop map app] in *.
    destruct (IH x zs (upd bs b (Blk ((A ++ [Live y]) ++ map Live (gone ++ [moved y]) ++
                  map Live (ys ++ x :: zs) ++ T)))
                vb0 ve0 c b (A ++ [Live y]) T (gone ++ [moved y])
                (S (length A)) (S (length A + S (length gone))) (length (ys ++ x :: zs)))
      as (rest & E).
    + destruct gone; discriminate.
    + now rewrite nth_error_upd_eq.
    + len.
    + len.
    + reflexivity.
    + exists rest.
      erewrite bind_ok by (eapply destroy_mid; eauto).
      erewrite bind_ok.
      2:{ erewrite xmove_to_ok with (A := A ++ Raw :: map Live gone) (v := y);
            [|rewrite nth_error_upd_eq by exact L; rewrite <- !app_assoc; reflexivity|len].
          eapply move_to_same with (A := A ++ Raw :: map Live gone)
            (B := map Live (ys ++ x :: zs) ++ T)
            (C := A) (D := map Live gone ++ Live (moved y) :: map Live (ys ++ x :: zs) ++ T) (v := y).
          - rewrite nth_error_upd_eq by exact L. rewrite <- !app_assoc. reflexivity.
          - len.
          - rewrite <- !app_assoc. reflexivity.
          - reflexivity.
          - reflexivity. }
      rewrite upd_upd_same.
      replace (A ++ Live y :: map Live gone ++ Live (moved y) :: map Live (ys ++ x :: zs) ++ T)
        with ((A ++ [Live y]) ++ map Live (gone ++ [moved y]) ++ map Live (ys ++ x :: zs) ++ T)
        by (rewrite (map_app Live gone), <- !app_assoc; reflexivity).
      rewrite E. rewrite upd_upd_same. rewrite <- !app_assoc. reflexivity.
Qed.

(** ** Erasing *)

Lemma xrelocate_range_ok (xs : list V) : forall bs vb0 ve0 c f db di sb si k (A B C D : list slot),
  db <> sb ->
  nth_error bs sb = Some (Blk (A ++ map Live xs ++ B)) -> si = length A ->
  nth_error bs db = Some (Blk (C ++ repeat Raw (length xs) ++ D)) -> di = length C ->
  k = length xs ->
  xrelocate_range moved db di sb si k (mkVec bs vb0 ve0 c (Some (length xs + f))) =
  Ok tt (mkVec (upd (upd bs sb (Blk (A ++ repeat Raw (length xs) ++ B)))
                    db (Blk (C ++ map Live xs ++ D))) vb0 ve0 c (Some f)).
Proof.
  induction xs as [|x xs IH]; intros bs vb0 ve0 c f db di sb si k A B C D Hne Hs -> Hd -> ->.
  - cbn [xrelocate_range length repeat map app Nat.add] in *.
    rewrite (upd_nth_id _ _ _ Hs). now rewrite upd_nth_id by exact Hd.
  - cbn [xrelocate_range length Nat.add]. cbn [map app repeat length] in Hs, Hd.
    pose proof (nth_lt _ _ _ Hs) as Ls. pose proof (nth_lt _ _ _ Hd) as Ld.
    erewrite bind_ok by (erewrite xmove_to_ok by (exact Hs || reflexivity); eapply move_to_mid; eauto).
    erewrite bind_ok.
    2:{ eapply destroy_mid; [|reflexivity]. nthu. reflexivity. }
    erewrite (IH _ _ _ _ _ _ _ _ _ _ (A ++ [Raw]) B (C ++ [Live x]) D).
    + rewrite upd_upd_same. rewrite upd_comm with (i := sb) by auto. rewrite upd_upd_same.
      rewrite upd_comm with (i := db) by auto. rewrite upd_upd_same.
      rewrite <- !app_assoc. cbn [map app repeat]. reflexivity.
    + exact Hne.
    + nthu. rewrite <- app_assoc. reflexivity.
    + len.
    + nthu. rewrite <- app_assoc. reflexivity.
    + len.
    + reflexivity.
Qed.

Lemma xrelocate_range_app db sb a b : forall di si s,
  xrelocate_range moved db di sb si (a + b) s =
  (xrelocate_range moved db di sb si a ;;; xrelocate_range moved db (di + a) sb (si + a) b) s.
Proof.
  induction a as [|a IH]; intros di si s; cbn [xrelocate_range Nat.add].
  - rewrite !Nat.add_0_r. reflexivity.
  - rewrite !bind_assoc. unfold bind at 1 3. destruct (xmove_to _ _ _ _); auto.
    rewrite !bind_assoc. unfold bind at 1 2. destruct (destroy _ _); auto.
    rewrite IH. now rewrite !Nat.add_succ_comm.
Qed.

Lemma xrelocate_range_throw (ys : list V) x zs bs vb0 ve0 c db di sb si k (A B C D : list slot) :
  db <> sb ->
  nth_error bs sb = Some (Blk (A ++ map Live (ys ++ x :: zs) ++ B)) -> si = length A ->
  nth_error bs db = Some (Blk (C ++ repeat Raw (length ys) ++ D)) -> di = length C ->
  k = length (ys ++ x :: zs) ->
  xrelocate_range moved db di sb si k (mkVec bs vb0 ve0 c (Some (length ys))) =
  Throw ElemThrow (mkVec (upd (upd bs sb (Blk (A ++ repeat Raw (length ys) ++ map Live (x :: zs) ++ B)))
                    db (Blk (C ++ map Live ys ++ D))) vb0 ve0 c None).
Proof.
  intros Hne Hs -> Hd -> ->. rewrite app_length. rewrite xrelocate_range_app.
  pose proof (nth_lt _ _ _ Hs) as Ls. pose proof (nth_lt _ _ _ Hd) as Ld.
  erewrite bind_ok.
  2:{ rewrite <- (Nat.add_0_r (length ys)) at 2.
      apply xrelocate_range_ok with (A := A) (C := C) (B := map Live (x :: zs) ++ B) (D := D); auto.
      rewrite Hs. rewrite map_app, <- app_assoc. reflexivity. }
  cbn [length xrelocate_range]. apply bind_throw.
  erewrite xmove_to_throw.
  - reflexivity.
  - nthu. rewrite app_assoc. cbn [map app]. reflexivity.
  - len.
Qed.

Lemma shrink_broken (s : vec) (xs : list V) pos num k :
  holds SC s xs -> pos + num <= length xs -> 0 < num -> vfuse s = Some k ->
  (stays RB s (length xs - num) -> k < length xs - (pos + num) ->
   broken (xshrink_at moved SC RB maxn (Z.of_nat pos) (N.of_nat num) s)) /\
  (~ stays RB s (length xs - num) -> k < length xs - num -> (0 < k \/ pos = 0) ->
   broken (xshrink_at moved SC RB maxn (Z.of_nat pos) (N.of_nat num) s)) /\
  (~ stays RB s (length xs - num) -> k = 0 -> 0 < pos -> num < length xs ->
   xshrink_at moved SC RB maxn (Z.of_nat pos) (N.of_nat num) s = Throw ElemThrow (with_fuse None s)).
Proof.
  intros H Hp Hnum Hf. apply howns in H. destruct H as (He & Hc & Hown).
  assert (Start : length xs - num <> 0 ->
    xshrink_at moved SC RB maxn (Z.of_nat pos) (N.of_nat num) s =
    (let* cdr := choose_data SC RB maxn (N.of_nat (length xs - num)) in
     if fst cdr =? vb s then
      xshrink_loop moved (vb s) pos (pos + num) (length xs - (pos + num)) ;;;
      destroy_from (vb s) (length xs - num) num ;;;
      set_end (vb s, length xs - num) ;;;
      ret pos
     else
      xrelocate_range moved (fst cdr) 0 (vb s) 0 pos ;;;
      destroy_from (vb s) pos num ;;;
      xrelocate_range moved (fst cdr) pos (vb s) (pos + num) (length xs - num - pos) ;;;
      deallocate (vb s) (vcap s) ;;;
      set_buf (fst cdr) (fst cdr, length xs - num) SC ;;;
      ret pos) s).
  { intros E0. unfold xshrink_at. erewrite bind_ok by (apply msize_spec; exact He).
    replace ((Z.of_nat pos <? 0) || (Z.of_nat (length xs) <? Z.of_nat pos)
             || (Z.of_nat (length xs) <? Z.of_nat pos + Z.of_N (N.of_nat num)))%Z with false
      by (symmetry; rewrite !orb_false_iff, !Z.ltb_ge; lia).
    erewrite bind_ok by reflexivity. rewrite bind_get. rewrite Nat2Z.id, Nat2N.id.
    replace (length xs - num =? 0) with false by (symmetry; now apply Nat.eqb_neq). reflexivity. }
  set (x1 := firstn pos xs) in *. set (gone := firstn num (skipn pos xs)) in *.
  set (x2 := skipn (pos + num) xs) in *.
  assert (Hx : xs = x1 ++ gone ++ x2).
  { subst x1 gone x2. rewrite (firstn_skipn_split3 xs pos (pos + num)) at 1 by lia.
    do 3 f_equal. lia. }
  assert (L1 : length x1 = pos) by (subst x1; len).
  assert (Lg : length gone = num) by (subst gone; len).
  assert (L2 : length x2 = length xs - num - pos) by (subst x2; len).
  split.
  { intros Hs Hk. rewrite Start by lia. clear Start.
    destruct (cds s _ (length xs - num) Hown ltac:(lia))
      as [(Hd & Hstay & E)|(db & c' & bs' & E & Hd & HT & Hsame & Hcase)].
    2:{ exfalso. unfold stays in Hs. destruct Hcase as [(_ & ? & ? & _)|(_ & ?)]; lia. }
    erewrite bind_ok by exact E. cbn [fst]. rewrite Nat.eqb_refl.
    destruct s as [bs b e c f]. cbn [blocks vb ve vcap vfuse] in *. subst e f.
    assert (Hnth : nth_error bs b = Some (Blk (map Live x1 ++ map Live gone ++ map Live x2 ++
                     repeat Raw (c - length xs)))).
    { destruct Hown as (Hn & _). cbn [blocks vb] in Hn. rewrite Hn. unfold buf.
      rewrite Hx at 1. rewrite !map_app, <- !app_assoc. reflexivity. }
    pose proof (nth_lt _ _ _ Hnth) as L.
    destruct (split_at x2 k ltac:(lia)) as (ys & x & zs & Ex & Ly & _ & _).
    rewrite Ex in Hnth.
    destruct (xshrink_loop_throw ys x zs bs b (b, length xs) c b (map Live x1)
                (repeat Raw (c - length xs)) gone pos (pos + num) (length xs - (pos + num)))
      as (rest & Er); [destruct gone; [cbn in Lg; lia|discriminate]|exact Hnth|len|lia|rewrite <- Ex; lia|].
    rewrite Ly in Er. eexists. split; [apply bind_throw; exact Er|].
    eapply destructor_raw with (xs := x1 ++ ys).
    - rewrite nth_error_upd_eq by exact L. rewrite map_app, <- app_assoc. reflexivity.
    - len. }
  assert (Else : ~ stays RB s (length xs - num) -> length xs - num <> 0 ->
    exists bs', choose_data SC RB maxn (N.of_nat (length xs - num)) s = Ok (0, SC) (with_blocks bs' s) /\
      target SC bs' (vb s) 0 SC /\ nth_error bs' (vb s) = nth_error (blocks s) (vb s) /\
      bs' = blocks s /\ length xs - num <= SC).
  { intros Hs E0. unfold stays in Hs.
    destruct (cds s _ (length xs - num) Hown ltac:(lia))
      as [(Hd & Hstay & E)|(db & c' & bs' & E & Hd & HT & Hsame & Hcase)]; [tauto|].
    destruct Hcase as [(-> & Hb0 & Hlt & Hle)|(_ & ?)]; [|lia].
    pose proof HT as (T1 & T2 & T3 & T4 & T5 & T6). rewrite (T3 eq_refl) in *.
    exists bs'. repeat split; auto.
    clear - E Hb0 Hlt Hle. destruct s as [bs b e c f]. unfold choose_data in E.
    rewrite bind_get in E. unfold is_static in E. cbn [vb vcap blocks] in *.
    replace (b =? 0) with false in E by (symmetry; now apply Nat.eqb_neq). cbn [negb] in E.
    replace (N.of_nat c <? N.of_nat (length xs - num))%N with false in E by (symmetry; apply N.ltb_ge; lia).
    replace (N.of_nat (length xs - num) <? N.of_nat RB)%N with true in E by (symmetry; apply N.ltb_lt; lia).
    unfold ret, with_blocks in E. cbn [vb ve vcap vfuse] in E. congruence. }
  split.
  - intros Hs Hk Hor. rewrite Start by lia. clear Start.
    destruct (Else Hs ltac:(lia)) as (bs' & E & HT & Hsame & _ & Hle).
    erewrite bind_ok by exact E. cbn [fst snd].
    pose proof HT as (T1 & T2 & T3 & T4 & T5 & T6).
    destruct s as [bs b e c f]. unfold with_blocks. cbn [blocks vb ve vcap vfuse] in *. subst e f.
    replace (0 =? b) with false by (symmetry; apply Nat.eqb_neq; lia).
    destruct Hown as (Hn & Hl & O3 & O4 & O5). cbn [blocks vb ve vcap] in *.
    rewrite <- Hsame in Hn.
    pose proof (nth_lt _ _ _ Hn) as Lb. pose proof (nth_lt _ _ _ T2) as Ld.
    assert (T1' : b <> 0) by congruence.
    assert (Hn1 : nth_error bs' b = Some (Blk (map Live x1 ++ map Live gone ++ map Live x2 ++
                     repeat Raw (c - length xs)))).
    { rewrite Hn. unfold buf. rewrite Hx at 1. rewrite !map_app, <- !app_assoc. reflexivity. }
    destruct (Nat.lt_ge_cases k pos) as [Hkp|Hkp].
    + destruct (split_at x1 k ltac:(lia)) as (ys & x & zs & Ex & Ly & _ & _). rewrite Ex in Hn1.
      eexists. split.
      * apply bind_throw. rewrite <- Ly at 1.
        apply xrelocate_range_throw with (A := []) (C := []) (ys := ys) (x := x) (zs := zs)
          (B := map Live gone ++ map Live x2 ++ repeat Raw (c - length xs)) (D := repeat Raw (SC - k)).
        -- exact T1.
        -- exact Hn1.
        -- reflexivity.
        -- rewrite T2. cbn [app]. rewrite <- repeat_app. do 3 f_equal. lia.
        -- reflexivity.
        -- rewrite <- Ex. lia.
      * eapply destructor_raw with (xs := []); [|cbn [length]; lia].
        nthu. cbn [app]. replace (length ys) with (S (length ys - 1)) by lia.
        cbn [repeat app map]. reflexivity.
    + assert (L22 : k - pos < length x2) by lia.
      destruct (split_at x2 (k - pos) L22) as (ys & x & zs & Ex & Ly & _ & _).
      eexists. split.
      * replace (Some k) with (Some (length x1 + length ys)) by (f_equal; lia).
        erewrite bind_ok.
        2:{ apply xrelocate_range_ok with (xs := x1) (A := []) (C := [])
              (B := map Live gone ++ map Live x2 ++ repeat Raw (c - length xs))
              (D := repeat Raw (SC - pos)).
            - exact T1.
            - exact Hn1.
            - reflexivity.
            - rewrite T2. cbn [app]. rewrite <- repeat_app. do 3 f_equal. lia.
            - reflexivity.
            - lia. }
        erewrite bind_ok.
        2:{ apply dfs with (xs := gone) (A := repeat Raw pos)
              (B := map Live x2 ++ repeat Raw (c - length xs)).
            - nthu. cbn [app]. rewrite L1. reflexivity.
            - len.
            - lia. }
        apply bind_throw.
        apply xrelocate_range_throw with (ys := ys) (x := x) (zs := zs)
          (A := repeat Raw pos ++ repeat Raw num)
          (C := map Live x1) (B := repeat Raw (c - length xs))
          (D := repeat Raw (SC - k)).
        -- exact T1.
        -- nthu. rewrite Lg, <- app_assoc, Ex. reflexivity.
        -- len.
        -- nthu. cbn [app]. rewrite <- repeat_app. do 4 f_equal. lia.
        -- len.
        -- rewrite <- Ex. lia.
      * eapply destructor_raw with (xs := []); [|cbn [length]; lia].
        nthu. rewrite <- repeat_app. replace (pos + num) with (S (pos + num - 1)) by lia.
        cbn [map app repeat]. reflexivity.
  - intros Hs -> Hpos Hlt. rewrite Start by lia. clear Start.
    destruct (Else Hs ltac:(lia)) as (bs' & E & HT & Hsame & -> & Hle).
    erewrite bind_ok by exact E. cbn [fst snd].
    pose proof HT as (T1 & T2 & T3 & T4 & T5 & T6).
    destruct s as [bs b e c f]. unfold with_blocks. cbn [blocks vb ve vcap vfuse] in *. subst e f.
    replace (0 =? b) with false by (symmetry; apply Nat.eqb_neq; lia).
    destruct Hown as (Hn & Hl & O3 & O4 & O5). cbn [blocks vb ve vcap] in *.
    apply bind_throw. destruct pos as [|pos]; [lia|]. cbn [xrelocate_range]. apply bind_throw.
    destruct xs as [|x xs]; [cbn in Hlt; lia|].
    eapply xmove_to_throw with (A := []); [exact Hn|reflexivity].
Qed.

(** ** shrink_to_fit *)

Lemma xshrink_transfer_ok (xs : list V) : forall bs vb0 c f db di sb si k (A B C D : list slot),
  db <> sb ->
  nth_error bs sb = Some (Blk (A ++ map Live xs ++ B)) -> si = length A ->
  nth_error bs db = Some (Blk (C ++ repeat Raw (length xs) ++ D)) -> di = length C ->
  k = length xs ->
  xshrink_transfer moved sb si k (mkVec bs vb0 (db, di) c (Some (length xs + f))) =
  Ok tt (mkVec (upd (upd bs sb (Blk (A ++ repeat Raw (length xs) ++ B)))
                    db (Blk (C ++ map Live xs ++ D))) vb0 (db, di + length xs) c (Some f)).
Proof.
  induction xs as [|x xs IH]; intros bs vb0 c f db di sb si k A B C D Hne Hs -> Hd -> ->.
  - cbn [xshrink_transfer length repeat map app Nat.add] in *. rewrite Nat.add_0_r.
    rewrite (upd_nth_id _ _ _ Hs). now rewrite upd_nth_id by exact Hd.
  - cbn [xshrink_transfer length Nat.add]. cbn [map app repeat length] in Hs, Hd.
    pose proof (nth_lt _ _ _ Hs) as Ls. pose proof (nth_lt _ _ _ Hd) as Ld.
    assert (Hne' : sb <> db) by congruence.
    rewrite bind_get. cbn [ve fst snd].
    erewrite bind_ok by (erewrite xmove_to_ok by (exact Hs || reflexivity); eapply move_to_mid; eauto).
    unfold set_end at 1. erewrite bind_ok by reflexivity.
    unfold with_end; cbn [blocks vb ve vcap vfuse].
    erewrite bind_ok.
    2:{ eapply destroy_mid; [|reflexivity]. nthu. reflexivity. }
    erewrite (IH _ _ _ _ _ _ _ _ _ (A ++ [Raw]) B (C ++ [Live x]) D).
    + rewrite upd_upd_same. rewrite upd_comm with (i := sb) by auto. rewrite upd_upd_same.
      rewrite upd_comm with (i := db) by auto. rewrite upd_upd_same.
      rewrite <- !app_assoc. cbn [map app repeat]. do 3 f_equal. lia.
    + exact Hne.
    + nthu. rewrite <- app_assoc. reflexivity.
    + len.
    + nthu. rewrite <- app_assoc. reflexivity.
    + len.
    + reflexivity.
Qed.

Lemma xshrink_transfer_app sb a b : forall si s,
  xshrink_transfer moved sb si (a + b) s =
  (xshrink_transfer moved sb si a ;;; xshrink_transfer moved sb (si + a) b) s.
Proof.
  induction a as [|a IH]; intros si s; cbn [xshrink_transfer Nat.add].
  - rewrite !Nat.add_0_r. reflexivity.
  - unfold bind, get, set_end. destruct (xmove_to _ _ _ _) as [u s1| | |]; auto.
    destruct (destroy _ _) as [u' s2| | |]; auto.
    rewrite IH. unfold bind. now rewrite !Nat.add_succ_comm.
Qed.

Lemma xshrink_transfer_throw (ys : list V) x zs bs vb0 c db sb k (B D : list slot) :
  db <> sb ->
  nth_error bs sb = Some (Blk (map Live (ys ++ x :: zs) ++ B)) ->
  nth_error bs db = Some (Blk (repeat Raw (length ys) ++ D)) ->
  k = length (ys ++ x :: zs) ->
  xshrink_transfer moved sb 0 k (mkVec bs vb0 (db, 0) c (Some (length ys))) =
  Throw ElemThrow (mkVec (upd (upd bs sb (Blk (repeat Raw (length ys) ++ map Live (x :: zs) ++ B)))
                    db (Blk (map Live ys ++ D))) vb0 (db, length ys) c None).
Proof.
  intros Hne Hs Hd ->. rewrite app_length. rewrite xshrink_transfer_app.
  pose proof (nth_lt _ _ _ Hs) as Ls. pose proof (nth_lt _ _ _ Hd) as Ld.
  erewrite bind_ok.
  2:{ rewrite <- (Nat.add_0_r (length ys)) at 2.
      apply xshrink_transfer_ok with (A := []) (C := []) (B := map Live (x :: zs) ++ B) (D := D); auto.
      rewrite Hs. rewrite map_app, <- app_assoc. reflexivity. }
  cbn [length xshrink_transfer]. rewrite bind_get. apply bind_throw.
  erewrite xmove_to_throw.
  - reflexivity.
  - nthu. cbn [map app]. reflexivity.
  - len.
Qed.

Lemma shrink_to_fit_fact (s : vec) (xs : list V) k :
  holds SC s xs -> room maxn (length xs) -> vb s <> 0 -> length xs <> vcap s ->
  vfuse s = Some k -> k < length xs ->
  exists s' s'' b c,
    xshrink_to_fit moved SC maxn s = Throw ElemThrow s' /\
    in_buffer s' b c (firstn k xs) /\ (length xs < SC -> b = 0) /\
    destructor s' = Ok tt s'' /\ alive s'' = length xs - k /\ held s'' = 1.
Proof.
  clear dflt.
  intros H Hr Hb Hfit Hf Hk. apply howns in H. destruct H as (He & Hc & Hown).
  unfold xshrink_to_fit. erewrite bind_ok by (apply msize_spec; exact He). rewrite bind_get.
  replace (length xs =? vcap s) with false by (symmetry; now apply Nat.eqb_neq).
  destruct s as [bs b e c f]. unfold is_static; cbn [blocks vb ve vcap vfuse] in *. subst e f.
  replace (b =? 0) with false by (symmetry; now apply Nat.eqb_neq).
  destruct Hown as (Hn & Hl & O3 & O4 & O5). cbn [blocks vb ve vcap] in *.
  pose proof (nth_lt _ _ _ Hn) as Lb. destruct (O4 Hb) as [Hsc Hz].
  pose proof (nth_lt _ _ _ Hz) as Lz.
  assert (HB : exists db c' bs',
    (if length xs <? SC then set_buf 0 (0, 0) SC
     else let* b0 := allocate maxn (N.of_nat (length xs)) in set_buf b0 (b0, 0) (length xs))
      (mkVec bs b (b, length xs) c (Some k)) = Ok tt (mkVec bs' db (db, 0) c' (Some k)) /\
    target SC bs' b db c' /\ nth_error bs' b = nth_error bs b /\ length xs <= c' /\
    (length xs < SC -> db = 0)).
  { destruct (Nat.ltb_spec (length xs) SC) as [Hlt|Hge].
    - exists 0, SC, bs. split; [reflexivity|]. split; [|repeat split; auto; lia].
      unfold target. repeat split; auto; lia.
    - exists (length bs), (length xs), (bs ++ [Blk (repeat Raw (length xs))]).
      destruct (rbounds _ Hr) as [_ Hm].
      split.
      { erewrite bind_ok.
        2:{ unfold allocate. replace (maxn <? N.of_nat (length xs))%N with false
              by (symmetry; apply N.ltb_ge; lia). reflexivity. }
        unfold set_buf, with_buf, with_blocks; cbn [blocks vb ve vcap vfuse].
        rewrite Nat2N.id. reflexivity. }
      split; [|rewrite nth_error_app1 by lia; repeat split; auto; lia].
      unfold target. repeat split; try lia.
      + now rewrite nth_error_app_mid.
      + rewrite nth_error_app1 by lia. auto.
      + intros j J1 J2 J3 J4. rewrite app_length in J4; cbn [length] in J4.
        rewrite nth_error_app1 by lia. apply O5; auto. lia. }
  destruct HB as (db & c' & bs' & EB & HT & Hsame & Hle & D1).
  erewrite bind_ok by exact EB. rewrite <- Hsame in Hn.
  pose proof HT as (T1 & T2 & T3 & T4 & T5 & T6).
  assert (T1' : b <> db) by congruence.
  pose proof (nth_lt _ _ _ Hn) as Lb'. pose proof (nth_lt _ _ _ T2) as Ld.
  destruct (split_at xs k Hk) as (ys & x & zs & Ex & Ly & Ey & Ez).
  (* the vector is in db, b is the buffer left behind *)
  assert (HT' : target SC (upd bs' b (Blk (repeat Raw c))) db b c).
  { unfold target. split; [exact T1'|]. split; [nthu; reflexivity|]. split; [lia|].
    split; [intros _; exact Hsc|]. split.
    - intros Hd0. nthu. now apply T5.
    - intros j J1 J2 J3 J4. rewrite upd_length in J4. nthu. now apply T6. }
  assert (Lys : length ys <= c') by lia.
  destruct (abandoned (upd bs' b (Blk (repeat Raw c))) db c' b c ys
              (repeat Raw (length ys) ++ map Live (x :: zs) ++ repeat Raw (c - length xs))
              Lys ltac:(now rewrite upd_length) T3 HT') as (s'' & P1 & P2 & P3 & P4).
  rewrite upd_comm with (i := db), upd_upd_same in P1 by auto.
  rewrite upd_comm with (i := db), upd_upd_same in P2 by auto.
  eexists _, s'', db, c'. split.
  - apply bind_throw. replace (Some k) with (Some (length ys)) by (f_equal; lia).
    apply xshrink_transfer_throw with (ys := ys) (x := x) (zs := zs)
      (B := repeat Raw (c - length xs)) (D := repeat Raw (c' - length ys)).
    + exact T1.
    + rewrite Hn. unfold buf. rewrite Ex at 1. reflexivity.
    + rewrite T2. rewrite <- repeat_app. do 3 f_equal. lia.
    + now rewrite <- Ex.
  - unfold buf in P1, P2. rewrite <- Ey. split; [exact P1|]. split; [exact D1|].
    split; [exact P2|]. split.
    + rewrite P3, !live_in_app, !live_in_raw, live_in_live, Ez. len.
    + rewrite P4. replace (b =? 0) with false by (symmetry; now apply Nat.eqb_neq). reflexivity.
Qed.

Lemma erase_broken o (s : vec) (xs : list V) pos num k :
  holds SC s xs -> erases xs o pos num -> vfuse s = Some k ->
  (stays RB s (length xs - num) -> k < length xs - (pos + num) ->
   broken (xcall moved dflt SC RB maxn o s)) /\
  (~ stays RB s (length xs - num) -> k < length xs - num -> (0 < k \/ pos = 0) ->
   broken (xcall moved dflt SC RB maxn o s)) /\
  (~ stays RB s (length xs - num) -> k = 0 -> 0 < pos -> num < length xs ->
   xcall moved dflt SC RB maxn o s = Throw ElemThrow (with_fuse None s)).
Proof.
  intros H R Hf.
  assert (Hend : ve s = (vb s, length xs)) by apply H.
  destruct o as [[]| | |]; cbn [erases] in R; try contradiction; cbn [xcall];
    unfold no_answer, position_answer, xpop_back, xerase, xerase_range.
  - destruct R as (R & -> & ->).
    assert (Hl : 0 < length xs) by (destruct xs; [contradiction|cbn; lia]).
    destruct (shrink_broken s xs (length xs - 1) 1 k H ltac:(lia) ltac:(lia) Hf) as (P1 & P2 & P3).
    assert (E : Z.of_nat (length xs - 1) = (Z.of_nat (length xs) - 1)%Z) by lia.
    rewrite E in *. change (N.of_nat 1) with 1%N in *.
    split; [|split]; intros; try (apply broken_bind; erewrite bind_ok by (apply msize_spec; exact Hend);
      apply broken_bind; auto).
    apply bind_throw. erewrite bind_ok by (apply msize_spec; exact Hend). apply bind_throw. auto.
  - destruct R as (R & -> & ->).
    destruct (shrink_broken s xs pos0 1 k H ltac:(lia) ltac:(lia) Hf) as (P1 & P2 & P3).
    change (N.of_nat 1) with 1%N in *.
    split; [|split]; intros; try (apply broken_bind; auto). apply bind_throw. auto.
  - destruct R as (R1 & R2 & -> & ->).
    destruct (shrink_broken s xs first (last - first) k H ltac:(lia) ltac:(lia) Hf) as (P1 & P2 & P3).
    replace (Z.of_nat last <? Z.of_nat first)%Z with false by (symmetry; apply Z.ltb_ge; lia).
    replace (Z.to_N (Z.of_nat last - Z.of_nat first)) with (N.of_nat (last - first)) by lia.
    split; [|split]; intros; try (apply broken_bind; erewrite bind_ok by reflexivity; auto).
    apply bind_throw. erewrite bind_ok by reflexivity. auto.
Qed.

Lemma released_none (s : vec) : all_released SC s -> alive s = 0 /\ held s = 0.
Proof.
  intros [H0 H]. split.
  - unfold alive. erewrite list_sum_one; [apply live_in_raw|exact H0|].
    intros j x J E. rewrite H in E by (auto; eapply nth_lt; eauto). injection E as <-. reflexivity.
  - unfold held. fold blocky. apply (filter_tl (blocks s) 0); [|now left].
    intros j x J _ E. rewrite H in E by (auto; eapply nth_lt; eauto). now injection E as <-.
Qed.

Lemma relocation_left o (s : vec) (xs : list V) m k :
  holds SC s xs -> relocates RB s xs o m -> room maxn m -> vfuse s = Some k -> k < length xs ->
  0 < k \/ vcap s < m ->
  exists s' s'', xcall moved dflt SC RB maxn o s = Throw ElemThrow s' /\
    destructor s' = Ok tt s'' /\ ~ all_released SC s''.
Proof.
  intros H R Hr Hf Hk Hor. destruct (relocation_fact o s xs m k H R Hr Hf Hk) as (s' & s'' & E & _ & D & A & B).
  exists s', s''. split; [exact E|]. split; [exact D|]. intros Q. apply released_none in Q.
  destruct Q as [Q1 Q2]. destruct Hor as [Hor|Hor]; [lia|].
  replace (vcap s <? m) with true in B by (symmetry; now apply Nat.ltb_lt). lia.
Qed.

Lemma fit_fact o (s : vec) (xs : list V) k :
  holds SC s xs -> (o = ShrinkToFit \/ (o = RevertToStatic /\ length xs <= SC)) ->
  room maxn (length xs) -> vb s <> 0 -> length xs <> vcap s ->
  vfuse s = Some k -> k < length xs ->
  exists s' s'' b c,
    xcall moved dflt SC RB maxn o s = Throw ElemThrow s' /\
    in_buffer s' b c (firstn k xs) /\
    destructor s' = Ok tt s'' /\ alive s'' = length xs - k /\ held s'' = 1.
Proof.
  intros H Ho Hr Hb Hc Hf Hk.
  destruct (shrink_to_fit_fact s xs k H Hr Hb Hc Hf Hk) as (s' & s'' & b & c & E & I & _ & R).
  exists s', s'', b, c. split; [|auto].
  destruct Ho as [->|(-> & Hle)]; cbn [xcall]; apply bind_throw; [exact E|].
  unfold xrevert_to_static. erewrite bind_ok by (apply msize_spec; apply H). rewrite bind_get.
  unfold is_static. replace (vb s =? 0) with false by (symmetry; now apply Nat.eqb_neq).
  replace (SC <? length xs) with false by (symmetry; apply Nat.ltb_ge; lia).
  now apply bind_throw.
Qed.

Lemma bind_cong {S A B} (m1 m2 : M S A) (h : A -> M S B) s : m1 s = m2 s -> bind m1 h s = bind m2 h s.
Proof. intros E. unfold bind. now rewrite E. Qed.

Lemma grow_end_same (s : vec) (xs : list V) :
  holds SC s xs -> ~ elsewhere RB s (length xs + 1) -> (N.of_nat (length xs + 1) < two64)%N ->
  xgrow_at moved SC RB maxn (Z.of_nat (length xs)) 1 s =
  grow_at moved SC RB maxn (Z.of_nat (length xs)) 1 s.
Proof.
  intros H Hn Hlt. apply howns in H. destruct H as (He & Hc & Hown). unfold elsewhere in Hn.
  unfold xgrow_at, grow_at. eapply bind_both; [apply msize_spec; exact He|].
  replace ((Z.of_nat (length xs) <? 0) || (Z.of_nat (length xs) <? Z.of_nat (length xs)))%Z with false
    by (symmetry; apply orb_false_iff; split; apply Z.ltb_ge; lia).
  eapply bind_both; [reflexivity|]. rewrite !bind_get. rewrite Nat2Z.id.
  change 1%N with (N.of_nat 1). rewrite <- Nat2N.inj_add, N.mod_small by exact Hlt.
  destruct (cds s _ (length xs + 1) Hown ltac:(lia))
    as [(Hd & Hstay & E)|(db & c' & bs' & E & Hd & HT & Hsame & Hcase)].
  2:{ exfalso. apply Hn. destruct Hcase as [(_ & ? & ? & _)|(_ & ?)]; lia. }
  eapply bind_both; [exact E|]. cbn [fst]. rewrite Nat.eqb_refl. rewrite Nat.sub_diag. reflexivity.
Qed.

Lemma nothing_fact o (s : vec) (xs : list V) :
  holds SC s xs -> (N.of_nat (length xs + 1) < two64)%N -> moves_nothing RB s xs o ->
  xcall moved dflt SC RB maxn o s = call moved dflt SC RB maxn o s.
Proof.
  intros H Hlt R. assert (Hend : ve s = (vb s, length xs)) by apply H.
  destruct o as [[]| | |]; cbn [moves_nothing] in R; try contradiction; cbn [xcall call]; try reflexivity;
    unfold no_answer, position_answer, xpush_back, push_back, xpop_back, pop_back, xinsert1, insert1,
      resize, xresize_val, resize_val.
  - apply bind_cong. eapply bind_both; [apply msize_spec; exact Hend|].
    apply bind_cong. now apply grow_end_same.
  - destruct R as [R1 R2]. apply bind_cong. eapply bind_both; [apply msize_spec; exact Hend|].
    apply bind_cong. unfold xshrink_at, shrink_at.
    eapply bind_both; [apply msize_spec; exact Hend|].
    assert (Hl : 0 < length xs) by (destruct xs; [contradiction|cbn; lia]).
    replace (Z.of_nat (length xs) - 1)%Z with (Z.of_nat (length xs - 1)) by lia.
    replace ((Z.of_nat (length xs - 1) <? 0) || (Z.of_nat (length xs) <? Z.of_nat (length xs - 1))
             || (Z.of_nat (length xs) <? Z.of_nat (length xs - 1) + Z.of_N 1))%Z with false
      by (symmetry; rewrite !orb_false_iff, !Z.ltb_ge; lia).
    eapply bind_both; [reflexivity|]. rewrite !bind_get. rewrite Nat2Z.id.
    change (N.to_nat 1) with 1.
    destruct (Nat.eqb_spec (length xs - 1) 0); [reflexivity|].
    apply howns in H. destruct H as (He & Hc & Hown).
    destruct (cds s _ (length xs - 1) Hown ltac:(lia))
      as [(Hd & Hstay & E)|(db & c' & bs' & E & Hd & HT & Hsame & Hcase)].
    2:{ exfalso. unfold stays in R2. destruct Hcase as [(_ & ? & ? & _)|(_ & ?)]; lia. }
    eapply bind_both; [exact E|]. cbn [fst]. rewrite Nat.eqb_refl.
    replace (length xs - (length xs - 1 + 1)) with 0 by lia. reflexivity.
  - destruct R as [-> R]. do 2 apply bind_cong. now apply grow_end_same.
  - do 2 apply bind_cong. unfold xreserve, reserve. rewrite !bind_get.
    replace (N.of_nat n <=? N.of_nat (vcap s))%N with true by (symmetry; apply N.leb_le; lia). reflexivity.
  - do 2 apply bind_cong. unfold xreserve, reserve. rewrite !bind_get.
    replace (N.of_nat n <=? N.of_nat (vcap s))%N with true by (symmetry; apply N.leb_le; lia). reflexivity.
  - apply bind_cong. unfold xreserve, reserve. rewrite !bind_get.
    replace (N.of_nat n <=? N.of_nat (vcap s))%N with true by (symmetry; apply N.leb_le; lia). reflexivity.
  - apply bind_cong. unfold xshrink_to_fit, shrink_to_fit.
    eapply bind_both; [apply msize_spec; exact Hend|]. rewrite !bind_get.
    destruct (Nat.eqb_spec (length xs) (vcap s)); [reflexivity|].
    destruct R as [R|R]; [|contradiction]. unfold is_static. rewrite R. reflexivity.
Qed.

End Proofs.
