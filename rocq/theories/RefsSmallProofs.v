(** What calls of small_vector leave alone. *)
From Coq Require Import List Arith NArith ZArith Bool Lia.
From Verif Require Import Base SeqSpec VecCommon SmallVectorModel RefsSpec RefsProofs.
Import ListNotations.

Section Small.
Context {V : Type}.
Variable moved : V -> V.
Variable dflt : V.
Variable SC RB : nat.
Variable maxn : N.
Notation vec := (@vec V).

Lemma slot_put_ne p q (x : slot V) bs : p <> q -> slot_at p (put_slot q x bs) = slot_at p bs.
Proof.
  intros H. destruct p as [pb0 po], q as [qb qo]. unfold slot_at, put_slot. cbn.
  destruct (nth_error bs qb) as [[l|]|] eqn:Q; auto. destruct (Nat.eq_dec pb0 qb) as [->|E].
  - rewrite nth_error_upd_eq by (apply nth_error_Some; congruence). rewrite Q. apply nth_error_upd_neq. congruence.
  - rewrite nth_error_upd_neq by congruence. reflexivity.
Qed.
Lemma put_put_ne p q (x y : slot V) bs : p <> q -> put_slot p x (put_slot q y bs) = put_slot q y (put_slot p x bs).
Proof.
  intros H. destruct p as [pb0 po], q as [qb qo]. unfold put_slot. cbn.
  destruct (Nat.eq_dec pb0 qb) as [->|E].
  - destruct (nth_error bs qb) as [[l|]|] eqn:Q; try (rewrite Q; reflexivity).
    rewrite !nth_error_upd_eq by (apply nth_error_Some; congruence). rewrite !upd_twice. f_equal. f_equal.
    apply upd_comm. congruence.
  - destruct (nth_error bs qb) as [[l|]|] eqn:Q, (nth_error bs pb0) as [[m|]|] eqn:P;
    rewrite ?(nth_error_upd_neq bs qb pb0) by congruence; rewrite ?(nth_error_upd_neq bs pb0 qb) by congruence;
    rewrite ?P, ?Q; auto. apply upd_comm. congruence.
Qed.

Variable b i : nat.
Notation unt := (untouched (put_vec (b, i))).

(** The buffer and its capacity stay too. *)
Definition keeps {A} (m : M vec A) (s : vec) : Prop :=
  match m s with
  | Ok _ s' | Throw _ s' => vb s' = vb s /\ vcap s' = vcap s /\ slot_at (b, i) (blocks s') = slot_at (b, i) (blocks s)
  | _ => True
  end.
Definition good {A} (m : M vec A) (s : vec) : Prop := unt m s /\ keeps m s.

Lemma good_ret {A} (a : A) s : good (ret a) s.
Proof. split; [apply unt_ret|repeat split; reflexivity]. Qed.
Lemma good_ub {A} s : good (ub (A := A)) s.
Proof. split; [apply unt_ub|exact I]. Qed.
Lemma good_throw_if c e s : good (throw_if c e) s.
Proof. split; [apply unt_throw_if|unfold keeps, throw_if; destruct c; repeat split; reflexivity]. Qed.
Lemma good_bind {A B} (m : M vec A) (f : A -> M vec B) s :
  good m s -> (forall a s', m s = Ok a s' -> vb s' = vb s -> vcap s' = vcap s -> good (f a) s') -> good (bind m f) s.
Proof.
  intros [H1 H2] K. split.
  - apply unt_bind; auto. intros a s' Q. unfold keeps in H2. rewrite Q in H2. destruct H2 as (E1 & E2 & E3). now apply K.
  - unfold keeps, bind in *. destruct (m s) as [a s'|e s'| |] eqn:Q; auto. destruct H2 as (E1 & E2 & E3).
    destruct (K a s' eq_refl E1 E2) as [_ K2]. unfold keeps in K2. rewrite E1, E2, E3 in K2. exact K2.
Qed.
Lemma good_get {B} (f : vec -> M vec B) s :
  (forall x, f (put_vec (b, i) x s) = f s) -> good (f s) s -> good (bind get f) s.
Proof. intros H [K1 K2]. split; [now apply unt_get|exact K2]. Qed.

Ltac prim Np :=
  split; [intros x; unfold put_vec, read, destroy, move_from, begin_life; cbn; rewrite slot_put_ne by exact Np;
          match goal with |- context [slot_at ?p ?bs] => destruct (slot_at p bs) as [[|v]|] end; cbn; auto;
          unfold with_blocks; cbn; rewrite put_put_ne by exact Np; reflexivity
         |unfold keeps, read, destroy, move_from, begin_life;
          match goal with |- context [slot_at ?p ?bs] => destruct (slot_at p bs) as [[|v]|] end; cbn; rewrite ?slot_put_ne by (intros QQ; apply Np; congruence); auto].

Lemma good_destroy p s : p <> (b, i) -> good (destroy p) s.
Proof. intros Np. prim Np. Qed.
Lemma good_move_from p s : p <> (b, i) -> good (move_from moved p) s.
Proof. intros Np. prim Np. Qed.
Lemma good_begin_life p v s : p <> (b, i) -> good (begin_life p v) s.
Proof. intros Np. split; [intros x; unfold put_vec, begin_life; cbn; rewrite slot_put_ne by exact Np;
          destruct (slot_at p (blocks s)) as [[|w]|]; cbn; auto;
          unfold with_blocks; cbn; rewrite put_put_ne by exact Np; reflexivity
         |unfold keeps, begin_life; destruct (slot_at p (blocks s)) as [[|w]|]; cbn; rewrite ?slot_put_ne by (intros QQ; apply Np; congruence); auto]. Qed.
Lemma good_tick s : good tick s.
Proof. split; [intros x|unfold keeps]; unfold tick, put_vec; cbn; destruct (vfuse s) as [[|k]|]; cbn; auto. Qed.
Lemma good_set_end e s : good (set_end e) s.
Proof. split; [intros x; reflexivity|repeat split; reflexivity]. Qed.
Lemma good_construct p v s : p <> (b, i) -> good (construct p (CopyOf v)) s.
Proof. intros Np. apply good_bind; [apply good_tick|]. intros. now apply good_begin_life. Qed.
Lemma good_move_to p q s : p <> (b, i) -> q <> (b, i) -> good (move_to moved p q) s.
Proof. intros Np Nq. apply good_bind; [now apply good_move_from|]. intros. now apply good_begin_life. Qed.
Lemma good_msize s : good msize s.
Proof. split; [intros x|unfold keeps]; unfold msize, put_vec; cbn; destruct (_ =? _); cbn; auto. Qed.

Lemma ne_snd c j : i < j -> (c, j) <> (b, i).
Proof. intros H Q. injection Q. lia. Qed.
Hint Resolve ne_snd : core.

Lemma good_destroy_from k : forall c j s, i < j -> good (destroy_from c j k) s.
Proof.
  induction k as [|k IH]; intros c j s Hj; cbn [destroy_from]; [apply good_ret|].
  apply good_bind; [apply good_destroy; auto|]. intros. apply IH. lia.
Qed.
Lemma good_grow_loop k : forall c pos num s, i < pos -> good (grow_loop moved c pos num k) s.
Proof.
  induction k as [|k IH]; intros c pos num s Hp; cbn [grow_loop]; [apply good_ret|].
  apply good_bind; [apply good_move_to; apply ne_snd; lia|]. intros.
  apply good_bind; [apply good_destroy; apply ne_snd; lia|]. intros. now apply IH.
Qed.
Lemma good_shrink_loop k : forall c p np s, i < p -> i < np -> good (shrink_loop moved c p np k) s.
Proof.
  induction k as [|k IH]; intros c p np s Hp Hnp; cbn [shrink_loop]; [apply good_ret|].
  apply good_bind; [apply good_destroy; auto|]. intros.
  apply good_bind; [apply good_move_to; auto|]. intros. apply IH; lia.
Qed.
Lemma good_fill_loop k : forall c j v s, i < j -> good (fill_loop c j (CopyOf v) k) s.
Proof.
  induction k as [|k IH]; intros c j v s Hj; cbn [fill_loop]; [apply good_ret|].
  apply good_bind; [apply good_construct; auto|]. intros. apply IH. lia.
Qed.
Lemma good_copy_loop l : forall c j s, i < j -> good (copy_loop c j l) s.
Proof.
  induction l as [|v l IH]; intros c j s Hj; cbn [copy_loop]; [apply good_ret|].
  apply good_bind; [apply good_construct; auto|]. intros. apply IH. lia.
Qed.

Lemma choose_keeps (s : vec) k : room SC RB s k -> choose_data SC RB maxn (N.of_nat k) s = Ok (vb s, vcap s) s.
Proof.
  unfold room, choose_data, bind, get. intros H. destruct (is_static s); cbn [negb].
  - destruct (N.ltb_spec (N.of_nat SC) (N.of_nat k)); [lia|reflexivity].
  - destruct (N.ltb_spec (N.of_nat (vcap s)) (N.of_nat k)); [lia|].
    destruct (N.ltb_spec (N.of_nat k) (N.of_nat RB)); [lia|reflexivity].
Qed.
Lemma good_choose (s : vec) k : room SC RB s k -> good (choose_data SC RB maxn (N.of_nat k)) s.
Proof.
  intros H. split; [|unfold keeps; rewrite choose_keeps by auto; auto]. intros x.
  rewrite (choose_keeps s k H). cbn. apply (choose_keeps (put_vec (b, i) x s)). exact H.
Qed.

Lemma msize_inv (s : vec) n s' : msize s = Ok n s' -> s' = s /\ n = snd (ve s) /\ fst (ve s) = vb s.
Proof. unfold msize. destruct (Nat.eqb_spec (fst (ve s)) (vb s)); [|discriminate]. intros Q. injection Q as <- <-. auto. Qed.
Lemma throw_if_inv c e (s : vec) a s' : throw_if c e s = Ok a s' -> s' = s /\ c = false.
Proof. unfold throw_if, throw, ret. destruct c; [discriminate|]. intros Q. injection Q as _ <-. auto. Qed.

Lemma good_grow_at pos num (s : vec) : i < pos -> pos <= snd (ve s) ->
  room SC RB s (snd (ve s) + N.to_nat num) -> (N.of_nat (snd (ve s)) + num < two64)%N ->
  good (grow_at moved SC RB maxn (Z.of_nat pos) num) s.
Proof.
  intros Hp Hn R W. unfold grow_at. apply good_bind; [apply good_msize|]. intros n s' Q _ _. apply msize_inv in Q as (-> & -> & F).
  apply good_bind; [apply good_throw_if|]. intros a s' Q _ _. apply throw_if_inv in Q as [-> _].
  apply good_get; [reflexivity|]. rewrite N.mod_small by auto.
  replace (N.of_nat (snd (ve s)) + num)%N with (N.of_nat (snd (ve s) + N.to_nat num)) by lia.
  apply good_bind; [now apply good_choose|]. intros cdr s' Q _ _. rewrite choose_keeps in Q by auto. injection Q as <- <-.
  cbn. rewrite Nat.eqb_refl. apply good_bind; [apply good_set_end|]. intros.
  apply good_bind; [apply good_grow_loop; lia|]. intros. apply good_ret.
Qed.
Lemma grow_at_answer pos num (s : vec) a s' : grow_at moved SC RB maxn (Z.of_nat pos) num s = Ok a s' -> a = pos.
Proof.
  unfold grow_at, bind, get, set_end, ret, throw_if, throw. destruct (msize s) as [n s1| | |]; try discriminate.
  destruct (_ || _); [discriminate|]. rewrite Nat2Z.id.
  destruct (choose_data _ _ _ _ s1) as [c s2| | |]; try discriminate. destruct (_ =? _).
  - destruct (grow_loop _ _ _ _ _ _) as [u s3| | |]; try discriminate. congruence.
  - destruct (move_range _ _ _ _ _ _ s2) as [u s3| | |]; try discriminate.
    destruct (move_range _ _ _ _ _ _ s3) as [u2 s4| | |]; try discriminate.
    destruct (destroy_from _ _ _ s4) as [u3 s5| | |]; try discriminate.
    destruct (is_static s1); [|destruct (deallocate _ _ s5) as [u4 s6| | |]; try discriminate]; unfold set_buf; congruence.
Qed.

Lemma good_shrink_at pos num (s : vec) : i < pos -> pos + N.to_nat num <= snd (ve s) -> room SC RB s (snd (ve s) - N.to_nat num) ->
  good (shrink_at moved SC RB maxn (Z.of_nat pos) num) s.
Proof.
  intros Hp Hn R. unfold shrink_at. apply good_bind; [apply good_msize|]. intros n s' Q _ _. apply msize_inv in Q as (-> & -> & F).
  apply good_bind; [apply good_throw_if|]. intros a s' Q _ _. apply throw_if_inv in Q as [-> _].
  apply good_get; [reflexivity|]. rewrite Nat2Z.id. destruct (Nat.eqb_spec (snd (ve s) - N.to_nat num) 0); [lia|].
  apply good_bind; [now apply good_choose|]. intros cdr s' Q _ _. rewrite choose_keeps in Q by auto. injection Q as <- <-.
  cbn. rewrite Nat.eqb_refl. apply good_bind; [apply good_shrink_loop; lia|]. intros.
  apply good_bind; [apply good_destroy_from; lia|]. intros. apply good_bind; [apply good_set_end|]. intros. apply good_ret.
Qed.

Lemma good_cut_loop k : forall s, i < snd (ve s) - k -> good (cut_loop k) s.
Proof.
  induction k as [|k IH]; intros s Hk; cbn [cut_loop]; [apply good_ret|].
  apply good_get; [reflexivity|].
  apply good_bind; [apply good_set_end|]. intros a s1 Q _ _. injection Q as _ <-.
  apply good_bind; [apply good_destroy; apply ne_snd; lia|]. intros a1 s2 Q _ _.
  apply IH. unfold destroy in Q. destruct (slot_at _ _) as [[|v]|]; try discriminate. injection Q as _ <-. cbn. lia.
Qed.
Lemma cut_loop_end k : forall (s : vec) a s', cut_loop k s = Ok a s' -> snd (ve s') = snd (ve s) - k.
Proof.
  induction k as [|k IH]; intros s a s'; cbn [cut_loop].
  - intros Q. injection Q as _ <-. lia.
  - unfold bind, get, set_end. destruct (destroy _ _) as [u s1| | |] eqn:D; try discriminate. intros Q. apply IH in Q. rewrite Q.
    unfold destroy in D. destruct (slot_at _ _) as [[|v]|]; try discriminate. injection D as _ <-. cbn. lia.
Qed.
Lemma good_extend_loop k : forall v s, i < snd (ve s) -> good (extend_loop k (CopyOf v)) s.
Proof.
  induction k as [|k IH]; intros v s Hk; cbn [extend_loop]; [apply good_ret|].
  apply good_get; [reflexivity|].
  apply good_bind; [apply good_set_end|]. intros a s1 Q _ _. injection Q as _ <-.
  apply good_bind; [apply good_construct; rewrite (surjective_pairing (ve s)); now apply ne_snd|]. intros a1 s2 Q _ _.
  apply IH. unfold construct, tick, bind, begin_life in Q. cbn in Q. destruct (vfuse s) as [[|m]|]; try discriminate; cbn in Q;
  (destruct (slot_at _ _) as [[|w]|]; try discriminate); injection Q as _ <-; cbn; lia.
Qed.

Lemma good_resize n v s : i < n -> i < snd (ve s) -> n <= vcap s -> good (resize_val moved SC RB maxn (N.of_nat n) (CopyOf v)) s.
Proof.
  intros Hn Hs Hc. unfold resize_val.
  assert (reserve moved SC RB maxn (N.of_nat n) s = Ok tt s) as E.
  { unfold reserve, bind, get. destruct (N.leb_spec (N.of_nat n) (N.of_nat (vcap s))); [reflexivity|lia]. }
  apply good_bind.
  { split; [|unfold keeps; rewrite E; auto]. intros x. rewrite E. unfold reserve, bind, get. cbn.
    destruct (N.leb_spec (N.of_nat n) (N.of_nat (vcap s))); [reflexivity|lia]. }
  intros a s1 Q _ _. rewrite E in Q. injection Q as _ <-. rewrite Nat2N.id.
  apply good_bind; [apply good_msize|]. intros m s' Q _ _. apply msize_inv in Q as (-> & -> & F).
  apply good_bind; [apply good_cut_loop; lia|]. intros a1 s1 Q _ _. apply cut_loop_end in Q.
  apply good_bind; [apply good_msize|]. intros m s' Q' _ _. apply msize_inv in Q' as (-> & -> & F').
  apply good_extend_loop. lia.
Qed.

Theorem good_call o (s : vec) : positions_in o (snd (ve s)) -> i < first_touched o (snd (ve s)) -> buffer_stays SC RB o s ->
  (N.of_nat (new_size o (snd (ve s))) < two64)%N -> good (call moved dflt SC RB maxn (Seq o)) s.
Proof.
  unfold buffer_stays. intros Ho Hi R W.
  destruct o as [v| |pos v|pos n v|pos l|pos|f l|n|n v| |n v|l]; cbn -[room two64] in *; try lia;
  unfold no_answer, position_answer; apply good_bind; try (intros; apply good_ret).
  - unfold push_back. apply good_bind; [apply good_msize|]. intros n s' Q _ _. apply msize_inv in Q as (-> & -> & F).
    apply good_bind; [apply good_grow_at; auto; lia|]. intros a s' Q _ _. apply grow_at_answer in Q as ->.
    apply good_get; [reflexivity|]. apply good_construct. auto.
  - unfold pop_back. apply good_bind; [apply good_msize|]. intros n s' Q _ _. apply msize_inv in Q as (-> & -> & F).
    replace (Z.of_nat (snd (ve s)) - 1)%Z with (Z.of_nat (snd (ve s) - 1)) by lia.
    apply good_bind; [apply good_shrink_at; auto; cbn; lia|]. intros. apply good_ret.
  - unfold insert1. apply good_bind; [apply good_grow_at; auto; cbn; lia|]. intros a s' Q _ _. apply grow_at_answer in Q as ->.
    apply good_get; [reflexivity|]. apply good_bind; [apply good_construct; auto|]. intros. apply good_ret.
  - unfold insert_n. apply good_bind; [apply good_grow_at; rewrite ?Nat2N.id; auto; lia|]. intros a s' Q _ _. apply grow_at_answer in Q as ->.
    apply good_get; [reflexivity|]. apply good_bind; [apply good_fill_loop; auto|]. intros. apply good_ret.
  - unfold insert_range. apply good_bind; [apply good_grow_at; rewrite ?Nat2N.id; auto; lia|]. intros a s' Q _ _. apply grow_at_answer in Q as ->.
    apply good_get; [reflexivity|]. apply good_bind; [apply good_copy_loop; auto|]. intros. apply good_ret.
  - unfold erase. apply good_shrink_at; auto; cbn; lia.
  - unfold erase_range. apply good_bind; [apply good_throw_if|]. intros a s' Q _ _. apply throw_if_inv in Q as [-> _].
    apply good_shrink_at; auto; replace (N.to_nat (Z.to_N (Z.of_nat l - Z.of_nat f))) with (l - f) by lia; auto; lia.
  - unfold resize. apply good_resize; lia.
  - apply good_resize; lia.
Qed.
End Small.

(** ** When the buffer does not stay *)
Section Leaves.
Context {V : Type}.
Variable moved : V -> V.
Variable dflt : V.
Variable SC RB : nat.
Variable maxn : N.
Notation vec := (@vec V).

Definition gone (b : nat) (s : vec) : Prop := nth_error (blocks s) b = Some Freed.
Lemma gone_slot b i (s : vec) : gone b s -> slot_at (b, i) (blocks s) = None.
Proof. unfold gone, slot_at. cbn. now intros ->. Qed.
Definition stays_gone {A} (b : nat) (m : M vec A) : Prop := forall s a s', gone b s -> m s = Ok a s' -> gone b s'.

Lemma gone_put b p (x : slot V) bs : nth_error bs b = Some Freed -> nth_error (put_slot p x bs) b = Some Freed.
Proof.
  intros G. unfold put_slot. destruct (nth_error bs (fst p)) as [[l|]|] eqn:Q; auto.
  rewrite nth_error_upd_neq; auto. intros E. rewrite E in Q. congruence.
Qed.
Lemma sg_bind {A B} b (m : M vec A) (f : A -> M vec B) : stays_gone b m -> (forall a, stays_gone b (f a)) -> stays_gone b (bind m f).
Proof. intros H K s a s' G. unfold bind. destruct (m s) as [x s1| | |] eqn:Q; try discriminate. apply K. eapply H; eauto. Qed.
Lemma sg_ret {A} b (a : A) : stays_gone b (ret a).
Proof. intros s x s' G Q. injection Q as _ <-. exact G. Qed.
Lemma sg_begin_life b p v : stays_gone b (begin_life p v).
Proof. intros s a s' G. unfold begin_life. destruct (slot_at _ _) as [[|w]|]; try discriminate. intros Q. injection Q as _ <-. now apply gone_put. Qed.
Lemma sg_tick b : stays_gone b tick.
Proof. intros s a s' G. unfold tick. destruct (vfuse s) as [[|k]|]; try discriminate; intros Q; injection Q as _ <-; exact G. Qed.
Lemma sg_construct b p v : stays_gone b (construct p (CopyOf v)).
Proof. apply sg_bind; [apply sg_tick|intros; apply sg_begin_life]. Qed.
Lemma sg_set_buf b x y z : stays_gone b (set_buf x y z).
Proof. intros s a s' G Q. injection Q as _ <-. exact G. Qed.
Lemma sg_fill b k : forall c j v, stays_gone b (fill_loop c j (CopyOf v) k).
Proof. induction k; intros; cbn [fill_loop]; [apply sg_ret|apply sg_bind; [apply sg_construct|auto]]. Qed.
Lemma sg_copy b l : forall c j, stays_gone b (copy_loop c j l).
Proof. induction l; intros; cbn [copy_loop]; [apply sg_ret|apply sg_bind; [apply sg_construct|auto]]. Qed.

Lemma deallocate_gone b n (s : vec) a s' : deallocate b n s = Ok a s' -> gone b s'.
Proof.
  unfold deallocate, gone. destruct b as [|b]; [discriminate|]. destruct (nth_error (blocks s) (S b)) as [[l|]|] eqn:Q; try discriminate.
  destruct (_ && _); [|discriminate]. intros E. injection E as _ <-. cbn [blocks with_blocks].
  apply nth_error_upd_eq. apply nth_error_Some. congruence.
Qed.

Lemma choose_reverts (s : vec) k : is_static s = false -> k <= vcap s -> k < RB -> choose_data SC RB maxn (N.of_nat k) s = Ok (0, SC) s.
Proof.
  intros S C R. unfold choose_data, bind, get. rewrite S. cbn [negb].
  destruct (N.ltb_spec (N.of_nat (vcap s)) (N.of_nat k)); [lia|]. destruct (N.ltb_spec (N.of_nat k) (N.of_nat RB)); [reflexivity|lia].
Qed.

Lemma grow_at_gone pos num (s : vec) a s' : is_static s = false -> snd (ve s) + N.to_nat num <= vcap s -> snd (ve s) + N.to_nat num < RB ->
  (N.of_nat (snd (ve s)) + num < two64)%N ->
  grow_at moved SC RB maxn pos num s = Ok a s' -> gone (vb s) s'.
Proof.
  intros S C R W. unfold grow_at. unfold bind at 1. destruct (msize s) as [n s1| | |] eqn:Q; try discriminate.
  apply msize_inv in Q as (-> & -> & F). unfold bind at 1, throw_if, throw, ret. destruct (_ || _); [discriminate|].
  unfold bind at 1. unfold get. rewrite N.mod_small by auto.
  replace (N.of_nat (snd (ve s)) + num)%N with (N.of_nat (snd (ve s) + N.to_nat num)) by lia.
  unfold bind at 1. rewrite choose_reverts by auto. cbn [fst snd].
  assert ((0 =? vb s) = false) as -> by (unfold is_static in S; rewrite Nat.eqb_sym; exact S).
  unfold bind at 1. destruct (move_range _ _ _ _ _ _ s) as [u s1| | |]; try discriminate.
  unfold bind at 1. destruct (move_range _ _ _ _ _ _ s1) as [u2 s2| | |]; try discriminate.
  unfold bind at 1. destruct (destroy_from _ _ _ s2) as [u3 s3| | |]; try discriminate. rewrite S.
  unfold bind at 1. destruct (deallocate _ _ s3) as [u4 s4| | |] eqn:D; try discriminate. apply deallocate_gone in D.
  intros Q. injection Q as _ <-. exact D.
Qed.
Lemma shrink_at_gone pos num (s : vec) a s' : is_static s = false -> snd (ve s) - N.to_nat num <= vcap s -> snd (ve s) - N.to_nat num < RB ->
  shrink_at moved SC RB maxn pos num s = Ok a s' -> gone (vb s) s'.
Proof.
  intros S C R. unfold shrink_at. unfold bind at 1. destruct (msize s) as [n s1| | |] eqn:Q; try discriminate.
  apply msize_inv in Q as (-> & -> & F). unfold bind at 1, throw_if, throw, ret. destruct (_ || _); [discriminate|].
  unfold bind at 1. unfold get. destruct (_ =? 0) eqn:Z0.
  - unfold bind at 1, clear. unfold bind at 1. unfold destroy_all. unfold bind at 1, get. rewrite F, Nat.eqb_refl.
    destruct (destroy_from _ _ _ s) as [u s1| | |] eqn:D; try discriminate.
    assert (vb s1 = vb s /\ vcap s1 = vcap s) as [E1 E2].
    { assert (forall k b j (s : vec) a s', destroy_from b j k s = Ok a s' -> vb s' = vb s /\ vcap s' = vcap s) as K.
      { induction k as [|k IH]; intros b j t x t'; cbn [destroy_from]; [intros Q; injection Q as _ <-; auto|].
        unfold bind, destroy. destruct (slot_at _ _) as [[|w]|]; try discriminate. intros Q. apply IH in Q. exact Q. }
      eapply K; eauto. }
    unfold bind, get. assert ((0 <? RB) = true) as -> by (apply Nat.ltb_lt; lia).
    assert (is_static s1 = false) as -> by (unfold is_static in *; rewrite E1; exact S). cbn [andb negb]. rewrite E1, E2.
    destruct (deallocate _ _ s1) as [u4 s4| | |] eqn:D4; try discriminate. apply deallocate_gone in D4.
    intros Q. injection Q as _ <-. exact D4.
  - unfold bind at 1. rewrite choose_reverts by auto. cbn [fst snd].
    assert ((0 =? vb s) = false) as -> by (unfold is_static in S; rewrite Nat.eqb_sym; exact S).
    unfold bind at 1. destruct (relocate_range _ _ _ _ _ _ s) as [u s1| | |]; try discriminate.
    unfold bind at 1. destruct (destroy_from _ _ _ s1) as [u3 s3| | |]; try discriminate.
    unfold bind at 1. destruct (relocate_range _ _ _ _ _ _ s3) as [u2 s2| | |]; try discriminate.
    unfold bind at 1. destruct (deallocate _ _ s2) as [u4 s4| | |] eqn:D; try discriminate. apply deallocate_gone in D.
    intros Q. injection Q as _ <-. exact D.
Qed.

(** An insertion or erasure on a dynamic buffer after which there are less than RevertToStaticBelow
    elements gives the buffer up. *)
Theorem call_gone o (s : vec) a s' : is_insertion o = true \/ is_erasure o = true -> positions_in o (snd (ve s)) ->
  is_static s = false -> new_size o (snd (ve s)) <= vcap s -> new_size o (snd (ve s)) < RB ->
  (N.of_nat (new_size o (snd (ve s))) < two64)%N ->
  call moved dflt SC RB maxn (Seq o) s = Ok a s' -> gone (vb s) s'.
Proof.
  intros K P S C R W. destruct o as [v| |pos v|pos n v|pos l|pos|f l|n|n v| |n v|l]; cbn -[two64] in *;
  try (destruct K; discriminate); unfold no_answer, position_answer; unfold bind at 1.
  - unfold push_back. unfold bind at 1. destruct (msize s) as [n s1| | |] eqn:Q; try discriminate. apply msize_inv in Q as (-> & -> & F).
    unfold bind at 1. destruct (grow_at _ _ _ _ _ _ s) as [u s1| | |] eqn:G; try discriminate.
    apply grow_at_gone in G; auto; try (cbn; lia).
    unfold bind, get. destruct (construct _ _ s1) as [w s2| | |] eqn:Q; try discriminate. apply sg_construct with (b := vb s) in Q; auto.
    intros E. injection E as _ <-. exact Q.
  - unfold pop_back. unfold bind at 1. destruct (msize s) as [n s1| | |] eqn:Q; try discriminate. apply msize_inv in Q as (-> & -> & F).
    unfold bind at 1. destruct (shrink_at _ _ _ _ _ _ s) as [u s1| | |] eqn:G; try discriminate.
    apply shrink_at_gone in G; auto. intros E. injection E as _ <-. exact G.
  - unfold insert1. unfold bind at 1. destruct (grow_at _ _ _ _ _ _ s) as [u s1| | |] eqn:G; try discriminate.
    apply grow_at_gone in G; auto; try (cbn; lia).
    unfold bind, get. destruct (construct _ _ s1) as [w s2| | |] eqn:Q; try discriminate. apply sg_construct with (b := vb s) in Q; auto.
    intros E. injection E as _ <-. exact Q.
  - unfold insert_n. unfold bind at 1. destruct (grow_at _ _ _ _ _ _ s) as [u s1| | |] eqn:G; try discriminate.
    apply grow_at_gone in G; auto; try lia.
    unfold bind, get. destruct (fill_loop _ _ _ _ s1) as [w s2| | |] eqn:Q; try discriminate. apply sg_fill with (b := vb s) in Q; auto.
    intros E. injection E as _ <-. exact Q.
  - unfold insert_range. unfold bind at 1. destruct (grow_at _ _ _ _ _ _ s) as [u s1| | |] eqn:G; try discriminate.
    apply grow_at_gone in G; auto; try lia.
    unfold bind, get. destruct (copy_loop _ _ _ s1) as [w s2| | |] eqn:Q; try discriminate. apply sg_copy with (b := vb s) in Q; auto.
    intros E. injection E as _ <-. exact Q.
  - unfold erase. destruct (shrink_at _ _ _ _ _ _ s) as [u s1| | |] eqn:G; try discriminate.
    apply shrink_at_gone in G; auto. intros E. injection E as _ <-. exact G.
  - unfold erase_range. unfold bind, throw_if, throw, ret. destruct (_ <? _)%Z; [discriminate|].
    destruct (shrink_at _ _ _ _ _ _ s) as [u s1| | |] eqn:G; try discriminate.
    apply shrink_at_gone in G; auto; replace (N.to_nat (Z.to_N (Z.of_nat l - Z.of_nat f))) with (l - f) by lia; auto.
    intros E. injection E as _ <-. exact G.
Qed.
End Leaves.
