(** Which calls of small_vector change m_begin and m_capacity, and how. *)
From Coq Require Import List Arith NArith ZArith Bool Lia.
From Verif Require Import Base SeqSpec VecCommon SmallVectorModel SmallVectorSpec SmallVectorProofs SmallBufSpec.
Import ListNotations.

Section Proofs.
Context {V : Type}.
Variable moved : V -> V.
Variable dflt : V.
Variable SC RB : nat.
Variable maxn : N.

(** * Steps which leave the buffer alone *)
Definition quiet (s s' : @vec V) : Prop :=
  vb s' = vb s /\ vcap s' = vcap s /\ length (blocks s') = length (blocks s).
Definition keeps {A} (m : M (@vec V) A) : Prop := forall s a s', m s = Ok a s' -> quiet s s'.

Lemma quiet_refl s : quiet s s. Proof. repeat split. Qed.
Lemma quiet_trans s1 s2 s3 : quiet s1 s2 -> quiet s2 s3 -> quiet s1 s3.
Proof. unfold quiet. intuition congruence. Qed.
Lemma bind_inv {S A B} (m : M S A) (k : A -> M S B) s b s' :
  bind m k s = Ok b s' -> exists a s1, m s = Ok a s1 /\ k a s1 = Ok b s'.
Proof. unfold bind. destruct (m s); try discriminate. eauto. Qed.

Lemma keeps_bind {A B} (m : M vec A) (k : A -> M vec B) : keeps m -> (forall a, keeps (k a)) -> keeps (bind m k).
Proof.
  intros Hm Hk s b s' E. apply bind_inv in E. destruct E as (a & s1 & E1 & E2).
  eapply quiet_trans; [eapply Hm; eauto|eapply Hk; eauto].
Qed.
Lemma keeps_ret {A} (a : A) : keeps (ret a).
Proof. intros s b s' E. injection E as _ <-. apply quiet_refl. Qed.
Lemma keeps_get : keeps get.
Proof. intros s b s' E. injection E as _ <-. apply quiet_refl. Qed.
Lemma put_slot_length p x (bs : list (block V)) : length (put_slot p x bs) = length bs.
Proof. unfold put_slot. destruct (nth_error bs (fst p)) as [[l|]|]; auto. apply upd_length. Qed.
Lemma keeps_destroy p : keeps (destroy p).
Proof.
  intros s a s' E. unfold destroy in E. destruct (slot_at p (blocks s)) as [[|v]|]; try discriminate.
  injection E as _ <-. repeat split. cbn. apply put_slot_length.
Qed.
Lemma keeps_read p : keeps (read p).
Proof.
  intros s a s' E. unfold read in E. destruct (slot_at p (blocks s)) as [[|v]|]; try discriminate.
  injection E as _ <-. apply quiet_refl.
Qed.
Lemma keeps_move_from p : keeps (move_from moved p).
Proof.
  intros s a s' E. unfold move_from in E. destruct (slot_at p (blocks s)) as [[|v]|]; try discriminate.
  injection E as _ <-. repeat split. cbn. apply put_slot_length.
Qed.
Lemma keeps_tick : keeps tick.
Proof.
  intros s a s' E. unfold tick in E. destruct (vfuse s) as [[|k]|]; try discriminate; injection E as _ <-; repeat split.
Qed.
Lemma keeps_begin_life p v : keeps (begin_life p v).
Proof.
  intros s a s' E. unfold begin_life in E. destruct (slot_at p (blocks s)) as [[|w]|]; try discriminate.
  injection E as _ <-. repeat split. cbn. apply put_slot_length.
Qed.
Lemma keeps_construct p x : keeps (construct p x).
Proof.
  destruct x; cbn [construct].
  - apply keeps_bind; [apply keeps_tick|intros; apply keeps_begin_life].
  - apply keeps_begin_life.
  - apply keeps_bind; [apply keeps_read|intros]. apply keeps_bind; [apply keeps_tick|intros; apply keeps_begin_life].
Qed.
Lemma keeps_move_to p q : keeps (move_to moved p q).
Proof. apply keeps_bind; [apply keeps_move_from|intros; apply keeps_construct]. Qed.
Lemma keeps_set_end e : keeps (set_end e).
Proof. intros s a s' E. injection E as _ <-. repeat split. Qed.
Lemma keeps_deallocate b n : keeps (deallocate b n).
Proof.
  intros s a s' E. unfold deallocate in E. destruct b; [discriminate|].
  destruct (nth_error (blocks s) (S b)) as [[l|]|]; try discriminate.
  destruct ((length l =? n) && forallb is_raw l); [|discriminate].
  injection E as _ <-. repeat split. cbn. apply upd_length.
Qed.
Lemma keeps_msize : keeps msize.
Proof. intros s a s' E. unfold msize in E. destruct (fst (ve s) =? vb s); [|discriminate]. injection E as _ <-. apply quiet_refl. Qed.
Lemma keeps_throw_if c e : keeps (throw_if c e).
Proof. intros s a s' E. unfold throw_if in E. destruct c; [discriminate|]. injection E as _ <-. apply quiet_refl. Qed.
Lemma keeps_ub {A} : keeps (@ub vec A).
Proof. intros s a s' E. discriminate. Qed.
Lemma keeps_if {A} (c : bool) (m k : M vec A) : keeps m -> keeps k -> keeps (if c then m else k).
Proof. now destruct c. Qed.

Ltac keeps1 :=
  first [apply keeps_ret | apply keeps_get | apply keeps_destroy | apply keeps_read | apply keeps_move_from
        | apply keeps_construct | apply keeps_move_to | apply keeps_set_end | apply keeps_deallocate
        | apply keeps_msize | apply keeps_throw_if | apply keeps_ub | apply keeps_if
        | apply keeps_bind; [|intros] | assumption].
Ltac keep := repeat keeps1.

Lemma keeps_destroy_from b k : forall i, keeps (destroy_from b i k).
Proof. induction k; intros i; cbn [destroy_from]; keep. apply IHk. Qed.
Lemma keeps_destroy_all : keeps destroy_all.
Proof. unfold destroy_all. keep. apply keeps_destroy_from. Qed.
Lemma keeps_move_range db sb k : forall di si, keeps (move_range moved db di sb si k).
Proof. induction k; intros; cbn [move_range]; keep. apply IHk. Qed.
Lemma keeps_relocate_range db sb k : forall di si, keeps (relocate_range moved db di sb si k).
Proof. induction k; intros; cbn [relocate_range]; keep. apply IHk. Qed.
Lemma keeps_shrink_transfer sb k : forall si, keeps (shrink_transfer moved sb si k).
Proof. induction k; intros; cbn [shrink_transfer]; keep. apply IHk. Qed.
Lemma keeps_grow_loop b p num k : keeps (grow_loop moved b p num k).
Proof. induction k; intros; cbn [grow_loop]; keep. Qed.
Lemma keeps_shrink_loop b k : forall p np, keeps (shrink_loop moved b p np k).
Proof. induction k; intros; cbn [shrink_loop]; keep. apply IHk. Qed.
Lemma keeps_fill_loop b x k : forall i, keeps (fill_loop b i x k).
Proof. induction k; intros; cbn [fill_loop]; keep. apply IHk. Qed.
Lemma keeps_copy_loop b l : forall i, keeps (copy_loop b i l).
Proof. induction l; intros; cbn [copy_loop]; keep. apply IHl. Qed.
Lemma keeps_cut_loop k : keeps (cut_loop k).
Proof. induction k; cbn [cut_loop]; keep. Qed.
Lemma keeps_extend_loop x k : keeps (extend_loop k x).
Proof. induction k; cbn [extend_loop]; keep. Qed.
Lemma keeps_append_loop l : keeps (append_loop l).
Proof. induction l; cbn [append_loop]; keep. Qed.

(** * Steps which choose a buffer *)
Definition anchored (s : @vec V) : Prop := vb s < length (blocks s) /\ (vb s = 0 -> vcap s = SC) /\ 0 < vcap s.
Lemma holds_anchored s (xs : list V) : 0 < SC -> holds SC s xs -> anchored s.
Proof.
  intros HSC (H1 & H2 & H3 & H4 & H5 & H6). apply nth_lt in H3. split; [lia|]. split; [exact H4|].
  destruct (Nat.eq_dec (vb s) 0) as [e|ne]; [rewrite H4 by auto; lia|]. destruct (H5 ne). lia.
Qed.
Lemma quiet_anchored s s' : quiet s s' -> anchored s -> anchored s'.
Proof. unfold quiet, anchored. intros (-> & -> & ->). auto. Qed.
Lemma quiet_place s s' : quiet s s' -> place_of s' = place_of s.
Proof. intros (E1 & E2 & _). unfold place_of, is_static, capacity. now rewrite E1, E2. Qed.

Definition made (b c : nat) : place := if b =? 0 then None else Some c.

Lemma choose_inv d s db c s1 : anchored s -> (vcap s < d -> (3 * N.of_nat d <= two64 - 1)%N) ->
  choose_data SC RB maxn (N.of_nat d) s = Ok (db, c) s1 ->
  suits SC RB (place_of s) d (made db c) /\ vb s1 = vb s /\ vcap s1 = vcap s /\ ve s1 = ve s /\
  length (blocks s) <= length (blocks s1) /\
  (db = vb s -> c = vcap s) /\ (db = 0 -> c = SC) /\ (db = vb s \/ db = 0 \/ vcap s < d).
Proof.
  intros (L & A & P) B E. unfold choose_data in E. rewrite bind_get in E. unfold place_of, capacity.
  destruct (is_static s) eqn:St; cbn [negb] in E.
  - unfold is_static in St. apply Nat.eqb_eq in St. destruct (N.ltb_spec (N.of_nat SC) (N.of_nat d)) as [Lt|Ge].
    + apply bind_inv in E. destruct E as (b & s2 & E1 & E2). injection E2 as <- <- <-.
      unfold allocate in E1. destruct (maxn <? N.of_nat d)%N; [discriminate|]. injection E1 as <- <-.
      cbn [vb vcap ve blocks with_blocks]. rewrite app_length, Nat2N.id. unfold suits, made.
      rewrite (proj2 (Nat.eqb_neq (length (blocks s)) 0)) by lia. rewrite (proj2 (Nat.leb_gt d SC)) by lia.
      pose proof (A St). repeat split; auto; lia.
    + injection E as <- <- <-. unfold suits, made. rewrite St, Nat.eqb_refl, (proj2 (Nat.leb_le d SC)) by lia.
      repeat split; auto.
  - unfold is_static in St. apply Nat.eqb_neq in St. destruct (N.ltb_spec (N.of_nat (vcap s)) (N.of_nat d)) as [Lt|Ge].
    + destruct (grow_cap_grows (S (N.to_nat (N.of_nat d))) (N.of_nat (vcap s)) (N.of_nat d)) as (g & Eg & G); [lia|apply B; lia|lia|].
      rewrite Eg in E. apply bind_inv in E. destruct E as (b & s2 & E1 & E2). injection E2 as <- <- <-.
      unfold allocate in E1. destruct (maxn <? g)%N; [discriminate|]. injection E1 as <- <-.
      cbn [vb vcap ve blocks with_blocks]. rewrite app_length. unfold suits, made.
      rewrite (proj2 (Nat.eqb_neq (length (blocks s)) 0)) by lia. rewrite (proj2 (Nat.leb_gt d (vcap s))) by lia.
      split; [exists (N.to_nat g); rewrite N2Nat.id; auto|]. 
      split; [reflexivity|]. split; [reflexivity|]. split; [reflexivity|]. split; [lia|].
      split; [lia|split; [lia|right; right; lia]].
    + unfold suits, made. rewrite (proj2 (Nat.leb_le d (vcap s))) by lia.
      destruct (N.ltb_spec (N.of_nat d) (N.of_nat RB)) as [Lr|Gr]; injection E as <- <- <-.
      * rewrite (proj2 (Nat.ltb_lt d RB)) by lia. cbn [Nat.eqb]. repeat split; auto; congruence.
      * rewrite (proj2 (Nat.eqb_neq (vb s) 0)) by lia. rewrite (proj2 (Nat.ltb_ge d RB)) by lia. repeat split; auto; congruence.
Qed.

(** After set_buf. *)
Definition lands (p : place) (s s' : @vec V) : Prop :=
  place_of s' = p /\ length (blocks s) <= length (blocks s').

Lemma quiet_len s s' : quiet s s' -> length (blocks s') = length (blocks s).
Proof. now intros (_ & _ & E). Qed.

Ltac inv E :=
  let a := fresh "a" in let s1 := fresh "t" in let E1 := fresh "E" in
  apply bind_inv in E; destruct E as (a & s1 & E1 & E).

Lemma msize_at (s : @vec V) n a s' : ve s = (vb s, n) -> msize s = Ok a s' -> a = n /\ s' = s.
Proof. intros E H. rewrite (msize_spec s n E) in H. injection H as <- <-. auto. Qed.

Lemma mod_sum a b : (3 * N.of_nat (a + b) <= two64 - 1)%N ->
  ((N.of_nat a + N.of_nat b) mod two64 = N.of_nat (a + b))%N.
Proof. intros B. unfold two64 in *. rewrite <- Nat2N.inj_add. apply N.mod_small. lia. Qed.

Lemma lands_set_buf b e c (s s1 : @vec V) s' u : length (blocks s) <= length (blocks s1) ->
  set_buf b e c s1 = Ok u s' -> lands (made b c) s s'.
Proof. intros L E. injection E as _ <-. split; [reflexivity|exact L]. Qed.

Lemma grow_at_place (s : @vec V) n pos num p s' : anchored s -> ve s = (vb s, n) -> pos <= n ->
  (3 * N.of_nat (n + num) <= two64 - 1)%N ->
  grow_at moved SC RB maxn (Z.of_nat pos) (N.of_nat num) s = Ok p s' ->
  exists q, suits SC RB (place_of s) (n + num) q /\ lands q s s'.
Proof.
  intros A Ev Hp B E. unfold grow_at in E. inv E. destruct (msize_at _ _ _ _ Ev E0) as (-> & ->). clear E0.
  inv E. pose proof (keeps_throw_if _ _ _ _ _ E0) as Q0.
  assert (t = s) as ->. { unfold throw_if in E0. destruct (_ || _)%bool; [discriminate|]. now injection E0 as _ <-. }
  rewrite bind_get in E. inv E. rewrite mod_sum in E1 by auto. destruct a0 as [db c].
  destruct (choose_inv _ _ _ _ _ A (fun _ => B) E1) as (C1 & C2 & C3 & C4 & C5 & C6 & C7 & C8). cbn [fst snd] in E.
  exists (made db c). split; [exact C1|].
  destruct (Nat.eqb_spec db (vb s)) as [e|ne].
  - inv E. inv E. injection E as _ <-. apply keeps_set_end in E2. apply keeps_grow_loop in E3.
    pose proof (quiet_trans _ _ _ E2 E3) as (Q1 & Q2 & Q3).
    split; [|lia]. unfold place_of, is_static, capacity, made. rewrite Q1, Q2, C2, C3, e, (C6 e). reflexivity.
  - inv E. inv E. inv E. inv E. inv E. injection E as _ <-.
    apply keeps_move_range in E2, E3. apply keeps_destroy_from in E4.
    assert (keeps (if is_static s then ret tt else deallocate (vb s) (vcap s))) as K by (keep).
    apply K in E5. pose proof (quiet_len _ _ (quiet_trans _ _ _ (quiet_trans _ _ _ E2 E3) (quiet_trans _ _ _ E4 E5))).
    eapply lands_set_buf; [|exact E6]. lia.
Qed.

Lemma clear_place (s : @vec V) s' u : clear SC RB s = Ok u s' -> lands (emptied RB (place_of s)) s s'.
Proof.
  intros E. unfold clear in E. inv E. apply keeps_destroy_all in E0. rewrite bind_get in E.
  unfold emptied. pose proof (quiet_place _ _ E0) as P. pose proof (quiet_len _ _ E0) as L.
  destruct (Nat.eqb_spec RB 0) as [e|ne].
  - rewrite e in E. cbn [Nat.ltb Nat.leb andb] in E. apply keeps_set_end in E.
    split; [rewrite (quiet_place _ _ E); exact P|rewrite (quiet_len _ _ E); lia].
  - rewrite (proj2 (Nat.ltb_lt 0 RB)) in E by lia. cbn [andb] in E. destruct (is_static t) eqn:St; cbn [negb] in E.
    + apply keeps_set_end in E. split; [|rewrite (quiet_len _ _ E); lia].
      rewrite (quiet_place _ _ E). unfold place_of. now rewrite St.
    + inv E. apply keeps_deallocate in E1. pose proof (quiet_len _ _ E1).
      eapply lands_set_buf in E; [exact E|]. lia.
Qed.

Lemma shrink_at_place (s : @vec V) n pos num p s' : anchored s -> ve s = (vb s, n) -> num <= n -> n <= vcap s ->
  shrink_at moved SC RB maxn (Z.of_nat pos) (N.of_nat num) s = Ok p s' ->
  exists q, lessened SC RB (place_of s) (n - num) q /\ lands q s s'.
Proof.
  intros A Ev Hn Hc E. unfold shrink_at in E. inv E. destruct (msize_at _ _ _ _ Ev E0) as (-> & ->). clear E0.
  inv E. assert (t = s) as ->. { unfold throw_if in E0. destruct (_ || _)%bool; [discriminate|]. now injection E0 as _ <-. }
  clear E0. rewrite bind_get, Nat2N.id in E. unfold lessened. destruct (Nat.eqb_spec (n - num) 0) as [e|ne].
  { inv E. injection E as _ <-. apply clear_place in E0. eauto. }
  inv E. destruct a0 as [db c].
  destruct (choose_inv (n - num) _ _ _ _ A ltac:(lia) E0) as (C1 & C2 & C3 & C4 & C5 & C6 & C7 & C8). cbn [fst snd] in E.
  exists (made db c). split; [exact C1|].
  destruct (Nat.eqb_spec db (vb s)) as [e|nb].
  - inv E. inv E. inv E. injection E as _ <-. apply keeps_shrink_loop in E1. apply keeps_destroy_from in E2. apply keeps_set_end in E3.
    pose proof (quiet_trans _ _ _ E1 (quiet_trans _ _ _ E2 E3)) as (Q1 & Q2 & Q3).
    split; [|lia]. unfold place_of, is_static, capacity, made. rewrite Q1, Q2, C2, C3, e, (C6 e). reflexivity.
  - inv E. inv E. inv E. inv E. inv E. injection E as _ <-.
    apply keeps_relocate_range in E1, E3. apply keeps_destroy_from in E2. apply keeps_deallocate in E4.
    pose proof (quiet_len _ _ (quiet_trans _ _ _ (quiet_trans _ _ _ E1 E2) (quiet_trans _ _ _ E3 E4))).
    apply (lands_set_buf _ _ _ s) in E5; [|lia]. destruct E5 as (P & L). split; [|exact L].
    rewrite P. unfold made. destruct (Nat.eqb_spec db 0) as [e0|n0]; [reflexivity|].
    exfalso. destruct C8 as [?|[?|C8]]; [contradiction|contradiction|lia].
Qed.

Lemma reserve_place (s : @vec V) n k u s' : anchored s -> ve s = (vb s, n) -> (3 * N.of_nat k <= two64 - 1)%N ->
  reserve moved SC RB maxn (N.of_nat k) s = Ok u s' ->
  exists q, enlarged SC RB (place_of s) k q /\ lands q s s'.
Proof.
  intros A Ev B E. unfold reserve in E. rewrite bind_get in E. unfold enlarged.
  assert (room_of SC (place_of s) = vcap s) as R.
  { unfold place_of, is_static, capacity. destruct (Nat.eqb_spec (vb s) 0) as [e|ne]; cbn [room_of]; [|reflexivity].
    destruct A as (_ & A & _). symmetry. auto. }
  rewrite R. destruct (N.leb_spec (N.of_nat k) (N.of_nat (vcap s))) as [Le|Gt].
  { injection E as _ <-. rewrite (proj2 (Nat.leb_le k (vcap s))) by lia. exists (place_of s). repeat split; auto. }
  rewrite (proj2 (Nat.leb_gt k (vcap s))) by lia. inv E. destruct a as [db c].
  destruct (choose_inv _ _ _ _ _ A (fun _ => B) E0) as (C1 & C2 & C3 & C4 & C5 & C6 & C7 & C8). cbn [fst snd] in E.
  exists (made db c). split; [exact C1|]. inv E. apply keeps_msize in E1. inv E. inv E. inv E.
  apply keeps_move_range in E2. apply keeps_destroy_from in E3.
  assert (keeps (if is_static s then ret tt else deallocate (vb s) (vcap s))) as K by keep. apply K in E4.
  pose proof (quiet_len _ _ (quiet_trans _ _ _ (quiet_trans _ _ _ E1 E2) (quiet_trans _ _ _ E3 E4))).
  eapply lands_set_buf; [|exact E]. lia.
Qed.

Lemma shrink_to_fit_place (s : @vec V) n r s' : 0 < SC -> anchored s -> ve s = (vb s, n) ->
  shrink_to_fit moved SC maxn s = Ok r s' -> lands (shrunk SC (place_of s) n) s s'.
Proof.
  intros HSC A Ev E. unfold shrink_to_fit in E. inv E. destruct (msize_at _ _ _ _ Ev E0) as (-> & ->). clear E0.
  rewrite bind_get in E. unfold place_of at 1, capacity. destruct (Nat.eqb_spec n (vcap s)) as [e|ne].
  { injection E as _ <-. split; [|lia]. unfold place_of, shrunk, capacity. destruct (is_static s); [reflexivity|].
    rewrite e at 1. now rewrite Nat.eqb_refl. }
  destruct (is_static s) eqn:St.
  { injection E as _ <-. split; [|lia]. unfold place_of. now rewrite St. }
  unfold shrunk. rewrite (proj2 (Nat.eqb_neq n (vcap s))) by auto.
  inv E. inv E. inv E. injection E as _ <-. apply keeps_shrink_transfer in E1. apply keeps_deallocate in E2.
  pose proof (quiet_trans _ _ _ E1 E2) as Q. assert (lands (if n <? SC then None else Some n) s t) as (P & L).
  { destruct (n <? SC).
    - injection E0 as _ <-. split; [reflexivity|]. cbn. lia.
    - inv E0. unfold allocate in E. destruct (maxn <? N.of_nat n)%N; [discriminate|]. injection E as <- <-.
      injection E0 as _ <-. destruct A as (A & _). split.
      + unfold place_of, is_static, capacity. cbn [with_buf vb vcap]. rewrite (proj2 (Nat.eqb_neq _ 0)) by lia. reflexivity.
      + cbn. rewrite app_length. lia. }
  split; [rewrite (quiet_place _ _ Q); exact P|rewrite (quiet_len _ _ Q); exact L].
Qed.

Lemma revert_place (s : @vec V) n r s' : 0 < SC -> anchored s -> ve s = (vb s, n) ->
  revert_to_static moved SC maxn s = Ok r s' -> lands (if SC <? n then place_of s else shrunk SC (place_of s) n) s s'.
Proof.
  intros HSC A Ev E. unfold revert_to_static in E. inv E. destruct (msize_at _ _ _ _ Ev E0) as (-> & ->). clear E0.
  rewrite bind_get in E. destruct (is_static s) eqn:St.
  { injection E as _ <-. unfold place_of at 1 2. rewrite St. cbn [shrunk]. split; [|lia].
    unfold place_of. rewrite St. now destruct (SC <? n). }
  destruct (SC <? n) eqn:L.
  { injection E as _ <-. split; [reflexivity|lia]. }
  inv E. injection E as _ <-. now apply (shrink_to_fit_place s n) in E0.
Qed.

Lemma assign_copy_place (s : @vec V) l u s' : anchored s -> (3 * N.of_nat (length l) <= two64 - 1)%N ->
  assign_copy SC RB maxn l s = Ok u s' ->
  exists q, suits SC RB (place_of s) (length l) q /\ lands q s s'.
Proof.
  intros A B E. unfold assign_copy in E. inv E. destruct a as [db c].
  destruct (choose_inv _ _ _ _ _ A (fun _ => B) E0) as (C1 & C2 & C3 & C4 & C5 & C6 & C7 & C8). cbn [fst snd] in E.
  exists (made db c). split; [exact C1|]. inv E. inv E. rewrite bind_get in E. inv E. rewrite bind_get in E.
  apply keeps_set_end in E1. apply keeps_append_loop in E2.
  assert (forall b : bool, keeps (if b then deallocate (vb t1) (vcap t1) else ret tt)) as K by (intros []; keep).
  apply K in E3. pose proof (quiet_len _ _ (quiet_trans _ _ _ E1 (quiet_trans _ _ _ E2 E3))).
  eapply lands_set_buf; [|exact E]. lia.
Qed.
Lemma assign_range_place (s : @vec V) l u s' : anchored s -> (3 * N.of_nat (length l) <= two64 - 1)%N ->
  assign_range SC RB maxn l s = Ok u s' ->
  exists q, suits SC RB (place_of s) (length l) q /\ lands q s s'.
Proof.
  intros A B E. unfold assign_range in E. inv E. apply keeps_destroy_all in E0.
  destruct (assign_copy_place _ _ _ _ (quiet_anchored _ _ E0 A) B E) as (q & S & P & L).
  exists q. rewrite (quiet_place _ _ E0) in S. rewrite (quiet_len _ _ E0) in L. repeat split; auto.
Qed.

Lemma resize_place (s : @vec V) n k x u s' : anchored s -> ve s = (vb s, n) -> (3 * N.of_nat k <= two64 - 1)%N ->
  resize_val moved SC RB maxn (N.of_nat k) x s = Ok u s' ->
  exists q, enlarged SC RB (place_of s) k q /\ lands q s s'.
Proof.
  intros A Ev B E. unfold resize_val in E. inv E. destruct (reserve_place _ _ _ _ _ A Ev B E0) as (q & S & P & L).
  inv E. apply keeps_msize in E1. inv E. apply keeps_cut_loop in E2. inv E. apply keeps_msize in E3.
  apply keeps_extend_loop in E. pose proof (quiet_trans _ _ _ (quiet_trans _ _ _ E1 E2) (quiet_trans _ _ _ E3 E)) as Q.
  exists q. split; [exact S|]. split; [rewrite (quiet_place _ _ Q); exact P|rewrite (quiet_len _ _ Q); exact L].
Qed.

(** * Calls *)
Hypothesis HSC : 0 < SC.
Hypothesis HRB : RB <= SC + 1.
Hypothesis Hmax : (maxn < two63)%N.

Lemma observe_ok (r : res (@vec V) (option nat)) s' x : observe r = Some (s', x) ->
  (forall e, x <> RThrow e) -> exists a, r = Ok a s'.
Proof.
  destruct r as [[p|] q|e q| |]; cbn; intros E N; try discriminate; injection E as <- <-; eauto.
  destruct (N e eq_refl).
Qed.
Lemma observe_throw (r : res (@vec V) (option nat)) s' e : observe r = Some (s', RThrow e) -> r = Throw e s'.
Proof. destruct r as [[p|] q|e' q| |]; cbn; intros E; try discriminate; injection E as <- <-; auto. Qed.

Lemma holds_size (s : @vec V) xs : holds SC s xs -> ve s = (vb s, length xs) /\ length xs <= vcap s.
Proof. intros (H1 & H2 & _). auto. Qed.
Lemma bound_of d : room maxn d -> (3 * N.of_nat d <= two64 - 1)%N.
Proof. intros R. now destruct (room_bounds SC RB maxn HSC HRB Hmax d R). Qed.

Lemma no_answer_inv {A} (m : M (@vec V) A) s a s' : no_answer m s = Ok a s' -> exists u, m s = Ok u s'.
Proof. intros E. unfold no_answer in E. inv E. injection E as _ <-. eauto. Qed.
Lemma position_inv (m : M (@vec V) nat) s a s' : position_answer m s = Ok a s' -> exists u, m s = Ok u s'.
Proof. intros E. unfold position_answer in E. inv E. injection E as _ <-. eauto. Qed.

Lemma grow_then (s : @vec V) n pos num (k : nat -> @vec V -> M (@vec V) nat) p s' :
  anchored s -> ve s = (vb s, n) -> pos <= n -> (3 * N.of_nat (n + num) <= two64 - 1)%N ->
  (forall a t, keeps (k a t)) ->
  (let* a := grow_at moved SC RB maxn (Z.of_nat pos) (N.of_nat num) in let* t := get in k a t) s = Ok p s' ->
  exists q, suits SC RB (place_of s) (n + num) q /\ lands q s s'.
Proof.
  intros A Ev Hp B K E. inv E. destruct (grow_at_place _ _ _ _ _ _ A Ev Hp B E0) as (q & S & P & L).
  rewrite bind_get in E. apply K in E. exists q. split; [exact S|].
  split; [rewrite (quiet_place _ _ E); exact P|rewrite (quiet_len _ _ E); exact L].
Qed.

Lemma call_place (s : @vec V) xs o s' r :
  holds SC s xs -> vfuse s = None -> small_ok maxn xs o ->
  observe (call moved dflt SC RB maxn o s) = Some (s', r) ->
  exists q, place_step SC RB (place_of s) (length xs) o q /\ lands q s s'.
Proof.
  intros H Hf Ho E.
  destruct (call_spec moved dflt SC RB maxn HSC HRB Hmax s xs o H Hf Ho) as (s2 & E2 & H2 & F2).
  rewrite E in E2. injection E2 as <- Er. clear F2.
  pose proof (holds_anchored _ _ HSC H) as A. pose proof (holds_size _ _ H) as (Ev & Hc).
  assert (same : s' = s -> exists q, q = place_of s /\ lands q s s') by (intros ->; eexists; repeat split; auto).
  destruct o as [o|k| |].
  - destruct o as [v| |pos v|pos n v|pos l|pos|first last|n|n v| |n v|l];
      cbn [place_step small_step valid_pos spec_step fits snd small_ok] in *.
    + apply observe_ok in E; [|subst r; discriminate]. destruct E as (a & E). cbn [call] in E. apply no_answer_inv in E.
      destruct E as (u & E). unfold push_back in E. inv E. destruct (msize_at _ _ _ _ Ev E0) as (-> & ->).
      change 1%N with (N.of_nat 1) in E. inv E.
      destruct (grow_at_place _ _ _ _ _ _ A Ev (le_n _) (bound_of _ Ho) E1) as (q & S & P & L).
      rewrite bind_get in E. apply keeps_construct in E. exists q. split; [exact S|].
      split; [rewrite (quiet_place _ _ E); exact P|rewrite (quiet_len _ _ E); exact L].
    + destruct (Nat.eqb_spec (length xs) 0) as [e|ne].
      * destruct xs; [|discriminate]. cbn [snd] in Er. subst r. apply same. apply observe_throw in E.
        cbn [call] in E. unfold no_answer, pop_back in E.
        erewrite bind_throw in E.
        2:{ erewrite bind_ok by (apply msize_spec; apply H).
        erewrite bind_throw; [reflexivity|]. eapply shrink_at_bad; eauto; cbn; lia. }
        congruence.
      * apply observe_ok in E; [|subst r; destruct xs; [now destruct ne|discriminate]]. destruct E as (a & E). cbn [call] in E. apply no_answer_inv in E.
        destruct E as (u & E). unfold pop_back in E. inv E. destruct (msize_at _ _ _ _ Ev E0) as (-> & ->).
        inv E. injection E as _ <-. change 1%N with (N.of_nat 1) in E1.
        replace (Z.of_nat (length xs) - 1)%Z with (Z.of_nat (length xs - 1)) in E1 by lia.
        apply (shrink_at_place _ _ _ _ _ _ A Ev) in E1; auto; lia.
    + destruct (Nat.leb_spec pos (length xs)) as [Hp|Hp].
      * apply observe_ok in E; [|subst r; discriminate]. destruct E as (a & E). cbn [call] in E. apply position_inv in E.
        destruct E as (u & E). unfold insert1 in E. change 1%N with (N.of_nat 1) in E.
        eapply grow_then in E; eauto; [apply bound_of; exact Ho|]. intros; keep.
      * cbn [snd] in Er. subst r. apply same. apply observe_throw in E. cbn [call] in E. unfold position_answer, insert1 in E.
        erewrite bind_throw in E.
        2:{ erewrite bind_throw; [reflexivity|]. eapply grow_at_bad; eauto; lia. }
        congruence.
    + destruct Ho as [Ho _]. destruct (Nat.leb_spec pos (length xs)) as [Hp|Hp].
      * apply observe_ok in E; [|subst r; discriminate]. destruct E as (a & E). cbn [call] in E. apply position_inv in E.
        destruct E as (u & E). unfold insert_n in E.
        eapply grow_then in E; eauto; [apply bound_of; exact Ho|]. intros; keep. apply keeps_fill_loop.
      * cbn [snd] in Er. subst r. apply same. apply observe_throw in E. cbn [call] in E. unfold position_answer, insert_n in E.
        erewrite bind_throw in E.
        2:{ erewrite bind_throw; [reflexivity|]. eapply grow_at_bad; eauto; lia. }
        congruence.
    + destruct Ho as [Ho _]. destruct (Nat.leb_spec pos (length xs)) as [Hp|Hp].
      * apply observe_ok in E; [|subst r; discriminate]. destruct E as (a & E). cbn [call] in E. apply position_inv in E.
        destruct E as (u & E). unfold insert_range in E.
        eapply grow_then in E; eauto; [apply bound_of; exact Ho|]. intros; keep. apply keeps_copy_loop.
      * cbn [snd] in Er. subst r. apply same. apply observe_throw in E. cbn [call] in E. unfold position_answer, insert_range in E.
        erewrite bind_throw in E.
        2:{ erewrite bind_throw; [reflexivity|]. eapply grow_at_bad; eauto; lia. }
        congruence.
    + destruct (Nat.ltb_spec pos (length xs)) as [Hp|Hp].
      * apply observe_ok in E; [|subst r; discriminate]. destruct E as (a & E). cbn [call] in E. apply position_inv in E.
        destruct E as (u & E). unfold erase in E. change 1%N with (N.of_nat 1) in E.
        apply (shrink_at_place _ _ _ _ _ _ A Ev) in E; auto; lia.
      * cbn [snd] in Er. subst r. apply same. apply observe_throw in E. cbn [call] in E. unfold position_answer, erase in E.
        erewrite bind_throw in E.
        2:{ eapply shrink_at_bad; eauto; lia. }
        congruence.
    + destruct (Nat.ltb_spec last first) as [Hlf|Hlf]; cbn [orb snd] in Er.
      * rewrite (proj2 (Nat.leb_gt first last)) by lia. cbn [andb]. subst r. apply same. apply observe_throw in E.
        cbn [call] in E. unfold position_answer, erase_range in E.
        erewrite bind_throw in E.
        2:{ replace (Z.of_nat last <? Z.of_nat first)%Z with true by (symmetry; apply Z.ltb_lt; lia).
        erewrite bind_throw; reflexivity. }
        congruence.
      * rewrite (proj2 (Nat.leb_le first last)) by lia. cbn [andb]. destruct (Nat.leb_spec last (length xs)) as [Hp|Hp].
        -- apply observe_ok in E; [|subst r; discriminate]. destruct E as (a & E). cbn [call] in E. apply position_inv in E.
           destruct E as (u & E). unfold erase_range in E.
           replace (Z.of_nat last <? Z.of_nat first)%Z with false in E by (symmetry; apply Z.ltb_ge; lia).
           replace (Z.to_N (Z.of_nat last - Z.of_nat first)) with (N.of_nat (last - first)) in E by lia.
           inv E. injection E0 as _ <-.
           apply (shrink_at_place _ _ _ _ _ _ A Ev) in E; auto; lia.
        -- cbn [snd] in Er. subst r. apply same. apply observe_throw in E. cbn [call] in E. unfold position_answer, erase_range in E.
           replace (Z.of_nat last <? Z.of_nat first)%Z with false in E by (symmetry; apply Z.ltb_ge; lia).
           erewrite bind_throw in E.
        2:{ erewrite bind_ok by reflexivity. eapply shrink_at_bad; eauto; lia. }
        congruence.
    + apply observe_ok in E; [|subst r; discriminate]. destruct E as (a & E). cbn [call] in E. apply no_answer_inv in E.
      destruct E as (u & E). unfold resize in E. eapply resize_place; eauto. now apply bound_of.
    + apply observe_ok in E; [|subst r; discriminate]. destruct E as (a & E). cbn [call] in E. apply no_answer_inv in E.
      destruct E as (u & E). eapply resize_place; eauto. now apply bound_of.
    + apply observe_ok in E; [|subst r; discriminate]. destruct E as (a & E). cbn [call] in E. apply no_answer_inv in E.
      destruct E as (u & E). apply clear_place in E. eauto.
    + apply observe_ok in E; [|subst r; discriminate]. destruct E as (a & E). cbn [call] in E. apply no_answer_inv in E.
      destruct E as (u & E). change (assign_n SC RB maxn n v) with (assign_range SC RB maxn (repeat v n)) in E.
      apply assign_range_place in E; auto; rewrite repeat_length in *; auto. now apply bound_of.
    + apply observe_ok in E; [|subst r; discriminate]. destruct E as (a & E). cbn [call] in E. apply no_answer_inv in E.
      destruct E as (u & E). apply assign_range_place in E; auto. now apply bound_of.
  - apply observe_ok in E; [|subst r; discriminate]. destruct E as (a & E). cbn [call] in E. apply no_answer_inv in E.
    destruct E as (u & E). cbn [place_step]. eapply reserve_place; eauto. now apply bound_of.
  - apply observe_ok in E; [|subst r; discriminate]. destruct E as (a & E). cbn [call] in E. apply no_answer_inv in E.
    destruct E as (u & E). cbn [place_step]. apply (shrink_to_fit_place _ _ _ _ HSC A Ev) in E. eauto.
  - apply observe_ok in E; [|subst r; discriminate]. destruct E as (a & E). cbn [call] in E. apply no_answer_inv in E.
    destruct E as (u & E). cbn [place_step]. apply (revert_place _ _ _ _ HSC A Ev) in E. eauto.
Qed.

(** * Two vectors *)
Lemma onL_inv {A} (m : M (@vec V) A) a b r st : onL m (a, b) = Ok r st -> exists a', m a = Ok r a' /\ st = (a', b).
Proof. unfold onL. cbn [fst snd]. destruct (m a); intros E; inversion E; subst. eauto. Qed.
Lemma onR_inv {A} (m : M (@vec V) A) a b r st : onR m (a, b) = Ok r st -> exists b', m b = Ok r b' /\ st = (a, b').
Proof. unfold onR. cbn [fst snd]. destruct (m b); intros E; inversion E; subst. eauto. Qed.

Lemma copy_assign_place (a b a' b' : @vec V) xs ys u : holds SC a xs -> holds SC b ys -> room maxn (length ys) ->
  copy_assign SC RB maxn (a, b) = Ok u (a', b') ->
  exists q, suits SC RB (place_of a) (length ys) q /\ lands q a a' /\ b' = b.
Proof.
  intros Ha Hb R E. unfold copy_assign in E. inv E. apply onL_inv in E0. destruct E0 as (x1 & E0 & ->).
  inv E. apply onR_inv in E1. destruct E1 as (b1 & E1 & ->).
  erewrite read_all_spec in E1; eauto. injection E1 as <- <-.
  apply onL_inv in E. destruct E as (x3 & E & Eq). injection Eq as <- <-.
  apply keeps_destroy_all in E0. pose proof (holds_anchored _ _ HSC Ha) as A.
  destruct (assign_copy_place _ _ _ _ (quiet_anchored _ _ E0 A) (bound_of _ R) E) as (q & S & P & L).
  exists q. rewrite (quiet_place _ _ E0) in S. rewrite (quiet_len _ _ E0) in L. repeat split; auto.
Qed.

Definition keeps2 {A} (m : M (@vec V * @vec V) A) : Prop :=
  forall a b r a' b', m (a, b) = Ok r (a', b') -> quiet a a' /\ quiet b b'.
Lemma keeps2_bind {A B} (m : M (@vec V * @vec V) A) (k : A -> M (@vec V * @vec V) B) :
  keeps2 m -> (forall a, keeps2 (k a)) -> keeps2 (bind m k).
Proof.
  intros Hm Hk a b r a' b' E. inv E. destruct t as [x1 b1]. destruct (Hm _ _ _ _ _ E0), (Hk _ _ _ _ _ _ E).
  split; eapply quiet_trans; eauto.
Qed.
Lemma keeps2_L {A} (m : M (@vec V) A) : keeps m -> keeps2 (onL m).
Proof. intros K a b r a' b' E. apply onL_inv in E. destruct E as (x1 & E & Eq). injection Eq as -> ->. split; [eapply K; eauto|apply quiet_refl]. Qed.
Lemma keeps2_R {A} (m : M (@vec V) A) : keeps m -> keeps2 (onR m).
Proof. intros K a b r a' b' E. apply onR_inv in E. destruct E as (x1 & E & Eq). injection Eq as -> ->. split; [apply quiet_refl|eapply K; eauto]. Qed.
Lemma keeps2_get : keeps2 get.
Proof. intros a b r a' b' E. injection E as _ -> ->. split; apply quiet_refl. Qed.
Lemma keeps2_ret {A} (x : A) : keeps2 (ret x).
Proof. intros a b r a' b' E. injection E as _ -> ->. split; apply quiet_refl. Qed.
Lemma keeps2_take_loop sb k : forall si, keeps2 (take_loop moved sb si k).
Proof.
  induction k; intros si; cbn [take_loop]; [apply keeps2_ret|].
  apply keeps2_bind; [apply keeps2_R, keeps_move_from|intros]. apply keeps2_bind; [apply keeps2_get|intros].
  apply keeps2_bind; [apply keeps2_L, keeps_construct|intros]. apply keeps2_bind; [apply keeps2_L, keeps_set_end|intros]. apply IHk.
Qed.

(** m_begin and m_end of the target are written before they are used. *)
Lemma take_impl_place (a b a' b' : @vec V) u : anchored b -> 0 < length (blocks a) -> vcap a = vcap b ->
  take_impl moved SC (a, b) = Ok u (a', b') ->
  lands (place_of b) a a' /\ lands None b b'.
Proof.
  intros (A1 & A2 & A3) La Ec E. unfold take_impl in E. rewrite bind_get in E. cbn [fst snd] in E.
  inv E. destruct t as [x1 b1]. apply onR_inv in E. destruct E as (b2 & E & Eq). injection Eq as -> ->.
  injection E as _ <-. unfold place_of at 1, capacity. destruct (is_static b) eqn:St.
  - inv E0. apply onL_inv in E. destruct E as (x2 & E & ->). injection E as _ <-.
    inv E0. apply onR_inv in E. destruct E as (b3 & E & ->). apply keeps_msize in E.
    inv E0. destruct t as [x4 b4]. apply keeps2_take_loop in E1. destruct E1 as (Q1 & Q2).
    apply onR_inv in E0. destruct E0 as (b5 & E0 & Eq). injection Eq as <- <-. apply keeps_destroy_all in E0.
    split; split.
    + rewrite (quiet_place _ _ Q1). reflexivity.
    + rewrite (quiet_len _ _ Q1). cbn. lia.
    + reflexivity.
    + cbn [with_buf blocks]. rewrite (quiet_len _ _ E0), (quiet_len _ _ Q2), (quiet_len _ _ E). lia.
  - unfold take_block in E0. destruct (nth_error (blocks b) (vb b)) as [[l|]|]; try discriminate.
    destruct (fst (ve b) =? vb b); [|discriminate]. injection E0 as _ <- <-. split; split.
    + unfold place_of, is_static, capacity. cbn [with_buf vb vcap]. rewrite (proj2 (Nat.eqb_neq _ 0)) by lia. now rewrite Ec.
    + cbn. rewrite app_length. lia.
    + reflexivity.
    + cbn. rewrite upd_length. lia.
Qed.

Lemma move_assign_place (a b a' b' : @vec V) xs ys u : holds SC a xs -> holds SC b ys ->
  move_assign moved SC (a, b) = Ok u (a', b') ->
  lands (place_of b) a a' /\ lands None b b'.
Proof.
  intros Ha Hb E. unfold move_assign in E. inv E. apply onL_inv in E0. destruct E0 as (x1 & E0 & ->). apply keeps_destroy_all in E0.
  rewrite bind_get in E. inv E. cbn [fst snd] in E1.
  assert (exists x2, t = (x2, b) /\ quiet x1 x2) as (x2 & -> & Q).
  { destruct (is_static x1).
    - injection E1 as _ <-. exists x1. split; [reflexivity|apply quiet_refl].
    - apply onL_inv in E1. destruct E1 as (x2 & E1 & ->). apply keeps_deallocate in E1. eauto. }
  clear E1. rewrite bind_get in E. inv E. apply onL_inv in E1. destruct E1 as (x3 & E1 & ->). injection E1 as _ <-. cbn [fst snd] in E.
  pose proof (holds_anchored _ _ HSC Ha) as (La & _).
  pose proof (quiet_len _ _ E0) as L1. pose proof (quiet_len _ _ Q) as L2.
  apply take_impl_place in E; [|now apply (holds_anchored _ ys)|cbn; lia|reflexivity].
  destruct E as ((P1 & L3) & P2). cbn [with_buf blocks] in L3. split; [split; [exact P1|lia]|exact P2].
Qed.

(** * Histories *)
Lemma map_upd {A B} (f : A -> B) l i x : map f (upd l i x) = upd (map f l) i (f x).
Proof. revert i; induction l as [|y l IH]; intros [|i]; cbn; auto. now rewrite IH. Qed.

Lemma sys_place (st : list (@vec V)) cs o st' r :
  Forall2 (good SC) st cs -> small_sys_ok maxn cs o ->
  observe (sys_call moved dflt SC RB maxn o st) = Some (st', r) ->
  places_step SC RB cs (map place_of st) o (map place_of st').
Proof.
  intros G Ho E. destruct o as [i op|i j|i j]; cbn [sys_call small_sys_ok places_step] in *.
  - destruct Ho as (xs & Ei & Hok). destruct (Forall2_nth_r _ _ _ _ _ G Ei) as (s & Es & Hs & Hf).
    unfold on_one in E. rewrite Es in E.
    assert (exists s', observe (call moved dflt SC RB maxn op s) = Some (s', r) /\ st' = upd st i s') as (s' & E' & ->).
    { destruct (call moved dflt SC RB maxn op s) as [[p|] q|e q| |]; cbn [observe] in *; try discriminate; injection E as <- <-; eauto. }
    destruct (call_place s xs op s' r Hs Hf Hok E') as (q & P & L & _).
    exists xs, (place_of s), q. rewrite map_upd, L. repeat split; auto. now apply map_nth_error.
  - destruct Ho as (Hi & ys & Ej & Hr). destruct (Forall2_nth_r _ _ _ _ _ G Ej) as (b & Eb & Hb & Hfb).
    destruct (Nat.eqb_spec i j) as [e|Hij].
    + unfold on_one in E. subst i. rewrite Eb in E. cbn [ret observe] in E. injection E as <- _. now rewrite (upd_nth_id st j b Eb).
    + destruct (nth_some SC RB maxn HSC HRB Hmax cs i Hi) as (xs & Ei). destruct (Forall2_nth_r _ _ _ _ _ G Ei) as (a & Ea & Ha & Hfa).
      unfold on_two in E. rewrite Ea, Eb in E.
      destruct (copy_assign_spec SC RB maxn HSC HRB Hmax a b xs ys Ha Hfa Hb Hr) as (a' & E' & _). rewrite E' in E.
      cbn [observe] in E. injection E as <- _.
      destruct (copy_assign_place _ _ _ _ _ _ _ Ha Hb Hr E') as (q & S & (P & _) & _).
      exists ys, (place_of a), q. rewrite (upd_nth_id (upd st i a') j b) by now rewrite nth_error_upd_neq by exact Hij.
      rewrite map_upd, P. repeat split; auto. now apply map_nth_error.
  - destruct Ho as (Hi & Hj). destruct (nth_some SC RB maxn HSC HRB Hmax cs j Hj) as (ys & Ej). destruct (Forall2_nth_r _ _ _ _ _ G Ej) as (b & Eb & Hb & Hfb).
    destruct (Nat.eqb_spec i j) as [e|Hij].
    + unfold on_one in E. subst i. rewrite Eb in E. cbn [ret observe] in E. injection E as <- _. now rewrite (upd_nth_id st j b Eb).
    + destruct (nth_some SC RB maxn HSC HRB Hmax cs i Hi) as (xs & Ei). destruct (Forall2_nth_r _ _ _ _ _ G Ei) as (a & Ea & Ha & Hfa).
      unfold on_two in E. rewrite Ea, Eb in E.
      destruct (move_assign_spec moved SC RB maxn HSC HRB Hmax a b xs ys Ha Hb) as (a' & b' & E' & _). rewrite E' in E.
      cbn [observe] in E. injection E as <- _.
      destruct (move_assign_place _ _ _ _ _ _ _ Ha Hb E') as ((P1 & _) & (P2 & _)).
      exists (place_of b). rewrite !map_upd, P1, P2. split; [now apply map_nth_error|reflexivity].
Qed.

Lemma run_places os : forall (st : list (@vec V)) cs,
  Forall2 (good SC) st cs -> small_sys_along dflt maxn cs os ->
  exists st',
    run_calls (sys_call moved dflt SC RB maxn) st os = Some (st', snd (small_sys_run dflt cs os)) /\
    places_run SC RB dflt cs (map place_of st) os (map place_of st').
Proof.
  induction os as [|o os IH]; intros st cs G Al.
  - exists st. split; reflexivity.
  - destruct Al as [Ho Al]. cbn [run_calls small_sys_run places_run].
    destruct (sys_call_spec moved dflt SC RB maxn HSC HRB Hmax st cs o G Ho) as (st1 & E1 & G1). rewrite E1.
    pose proof (sys_place _ _ _ _ _ G Ho E1) as P.
    destruct (small_sys_step dflt cs o) as [cs' r] eqn:E. cbn [fst snd] in *.
    destruct (IH st1 cs' G1 Al) as (st2 & E2 & P2). rewrite E2.
    destruct (small_sys_run dflt cs' os) as [cs'' rs]. cbn [fst snd] in *. eauto.
Qed.
End Proofs.
