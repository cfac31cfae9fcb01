(** What calls of static_vector leave alone. *)
From Coq Require Import List Arith NArith Bool Lia.
From Verif Require Import Base SeqSpec VecCommon StaticVectorModel RefsSpec RefsProofs.
Import ListNotations.

Section Static.
Context {V : Type}.
Variable moved : V -> V.
Variable dflt : V.
Variable Capacity : nat.
Notation sv := (@sv V).

Variable i : nat.

Definition kept {A} (m : M sv A) (s : sv) : Prop :=
  match m s with
  | Ok _ s' | Throw _ s' => nth_error (data s') i = nth_error (data s) i
  | _ => True
  end.
Definition good {A} (m : M sv A) (s : sv) : Prop := untouched (put_sv i) m s /\ kept m s.
Notation unt := good.

Lemma unt_ret {A} (a : A) s : unt (ret a) s.
Proof. split; [apply RefsProofs.unt_ret|reflexivity]. Qed.
Lemma unt_diverge {A} s : unt (diverge (A := A)) s.
Proof. split; [apply RefsProofs.unt_diverge|exact I]. Qed.
Lemma unt_throw_if c e s : unt (throw_if c e) s.
Proof. split; [apply RefsProofs.unt_throw_if|unfold kept, throw_if; destruct c; reflexivity]. Qed.
Lemma unt_bind {A B} (m : M sv A) (f : A -> M sv B) s :
  unt m s -> (forall a s', m s = Ok a s' -> unt (f a) s') -> unt (bind m f) s.
Proof.
  intros [H1 H2] K. split.
  - apply RefsProofs.unt_bind; auto. intros a s' Q. now apply K.
  - unfold kept, bind in *. destruct (m s) as [a s'|e s'| |] eqn:Q; auto.
    destruct (K a s' eq_refl) as [_ K2]. unfold kept in K2. rewrite H2 in K2. exact K2.
Qed.
Lemma unt_get {B} (f : sv -> M sv B) s :
  (forall x, f (put_sv i x s) = f s) -> unt (f s) s -> unt (bind get f) s.
Proof. intros H [K1 K2]. split; [now apply RefsProofs.unt_get|exact K2]. Qed.

Lemma unt_destroy j s : j <> i -> unt (destroy j) s.
Proof.
  intros Nj. split.
  - intros x. unfold destroy, put_sv. cbn. rewrite nth_error_upd_neq by congruence.
    destruct (nth_error (data s) j) as [[|v]|]; cbn; auto. unfold with_data. cbn. f_equal. f_equal.
    apply upd_comm. congruence.
  - unfold kept, destroy. destruct (nth_error (data s) j) as [[|v]|]; cbn; auto. apply nth_error_upd_neq. congruence.
Qed.
Lemma unt_move_from j s : j <> i -> unt (move_from moved j) s.
Proof.
  intros Nj. split.
  - intros x. unfold move_from, put_sv. cbn. rewrite nth_error_upd_neq by congruence.
    destruct (nth_error (data s) j) as [[|v]|]; cbn; auto. unfold with_data. cbn. f_equal. f_equal.
    apply upd_comm. congruence.
  - unfold kept, move_from. destruct (nth_error (data s) j) as [[|v]|]; cbn; auto. apply nth_error_upd_neq. congruence.
Qed.
Lemma unt_begin_life j v s : j <> i -> unt (begin_life j v) s.
Proof.
  intros Nj. split.
  - intros x. unfold begin_life, put_sv. cbn. rewrite nth_error_upd_neq by congruence.
    destruct (nth_error (data s) j) as [[|w]|]; cbn; auto. unfold with_data. cbn. f_equal. f_equal.
    apply upd_comm. congruence.
  - unfold kept, begin_life. destruct (nth_error (data s) j) as [[|w]|]; cbn; auto. apply nth_error_upd_neq. congruence.
Qed.
Lemma unt_tick s : unt tick s.
Proof. split; [intros x|unfold kept]; unfold tick, put_sv; cbn; destruct (fuse s) as [[|k]|]; reflexivity. Qed.
Lemma unt_set_size n s : unt (set_size n) s.
Proof. split; [intros x|]; reflexivity. Qed.
Lemma unt_construct j v s : j <> i -> unt (construct j (CopyOf v)) s.
Proof. intros Nj. apply unt_bind; [apply unt_tick|intros; now apply unt_begin_life]. Qed.
Lemma unt_construct_move j v s : j <> i -> unt (construct j (MoveOf v)) s.
Proof. intros Nj. now apply unt_begin_life. Qed.

Lemma unt_destroy_range fuel : forall p e s, i < p -> unt (destroy_range fuel p e) s.
Proof.
  induction fuel as [|f IH]; intros p e s Hp; cbn; destruct (p =? e); try apply unt_ret; [apply unt_diverge|].
  apply unt_bind; [apply unt_destroy; lia|]. intros. apply IH. lia.
Qed.
Lemma unt_grow_loop position by_ k : forall s, i < position -> unt (grow_loop moved position by_ k) s.
Proof.
  induction k as [|k IH]; intros s Hp; cbn [grow_loop]; [apply unt_ret|].
  apply unt_bind; [apply unt_move_from; lia|]. intros.
  apply unt_bind; [apply unt_construct_move; lia|]. intros.
  apply unt_bind; [apply unt_destroy; lia|]. intros. now apply IH.
Qed.
Lemma unt_grow_at position by_ s : i < position -> unt (grow_at moved Capacity position by_) s.
Proof.
  intros Hp. unfold grow_at. apply unt_get; [reflexivity|].
  apply unt_bind; [apply unt_throw_if|]. intros. destruct (by_ =? 0)%N; [apply unt_ret|].
  apply unt_bind; [now apply unt_grow_loop|]. intros. apply unt_bind; [apply unt_set_size|]. intros. apply unt_ret.
Qed.
Lemma unt_shrink_loop fuel : forall p np e s, i < p -> i < np -> unt (shrink_loop moved fuel p np e) s.
Proof.
  induction fuel as [|f IH]; intros p np e s Hp Hnp; cbn [shrink_loop]; destruct (np =? e); try apply unt_ret; [apply unt_diverge|].
  apply unt_bind; [apply unt_destroy; lia|]. intros.
  apply unt_bind; [apply unt_move_from; lia|]. intros.
  apply unt_bind; [apply unt_construct_move; lia|]. intros. apply IH; lia.
Qed.
Lemma unt_shrink_at position num (s : sv) :
  i < position -> position + N.to_nat num <= size s \/ (N.of_nat (size s) < num)%N -> unt (shrink_at moved Capacity position num) s.
Proof.
  intros Hp Hn. unfold shrink_at. apply unt_get; [reflexivity|]. destruct Hn as [Hn|Hn].
  - apply unt_bind; [apply unt_throw_if|]. intros a s' E1. unfold throw_if in E1.
    destruct (N.of_nat (size s) <? num)%N; [discriminate|]. injection E1 as <- <-.
    destruct (Nat.eqb_spec (size s - N.to_nat num) 0) as [Q|Q]; [lia|].
    apply unt_bind; [apply unt_shrink_loop; lia|]. intros.
    apply unt_bind; [apply unt_destroy_range; lia|]. intros. apply unt_bind; [apply unt_set_size|]. intros. apply unt_ret.
  - apply N.ltb_lt in Hn. rewrite Hn. split; [intros x|]; reflexivity.
Qed.
Lemma unt_fill_loop k : forall p v s, i < p -> unt (fill_loop p (CopyOf v) k) s.
Proof.
  induction k as [|k IH]; intros p v s Hp; cbn [fill_loop]; [apply unt_ret|].
  apply unt_bind; [apply unt_construct; lia|]. intros. apply IH. lia.
Qed.
Lemma unt_copy_loop l : forall p s, i < p -> unt (copy_loop p l) s.
Proof.
  induction l as [|v l IH]; intros p s Hp; cbn [copy_loop]; [apply unt_ret|].
  apply unt_bind; [apply unt_construct; lia|]. intros. apply IH. lia.
Qed.
Lemma unt_push_back v (s : sv) : i < size s -> unt (push_back Capacity (CopyOf v)) s.
Proof.
  intros Hi. unfold push_back. apply unt_get; [reflexivity|].
  apply unt_bind; [apply unt_throw_if|]. intros. apply unt_bind; [apply unt_construct; lia|]. intros.
  apply unt_get; [reflexivity|]. apply unt_set_size.
Qed.
Lemma push_back_size v (s : sv) a s' : push_back Capacity (CopyOf v) s = Ok a s' -> size s' = S (size s).
Proof.
  unfold push_back, construct, bind, get, throw_if, throw, ret, tick, begin_life, set_size.
  destruct (Capacity <=? size s); [discriminate|].
  destruct (fuse s) as [[|k]|]; [discriminate| |]; cbn; destruct (nth_error (data s) (size s)) as [[|w]|]; try discriminate;
  intros Q; injection Q as _ <-; reflexivity.
Qed.
Lemma unt_pop_back (s : sv) : i < size s - 1 -> unt (pop_back moved Capacity) s.
Proof.
  intros Hi. unfold pop_back. apply unt_get; [reflexivity|].
  apply unt_bind; [apply unt_shrink_at; [lia|left; cbn; lia]|]. intros. apply unt_ret.
Qed.
Lemma pop_back_size (s : sv) a s' : 1 < size s -> pop_back moved Capacity s = Ok a s' -> size s' = size s - 1.
Proof.
  intros Hs. unfold pop_back, shrink_at, bind, get, ret. cbn [throw_if]. unfold throw_if, ret, throw.
  destruct (N.of_nat (size s) <? 1)%N; [discriminate|]. cbn [N.to_nat]. change (Pos.to_nat 1) with 1.
  destruct (Nat.eqb_spec (size s - 1) 0); [lia|].
  destruct (shrink_loop _ _ _ _ _ s) as [a1 s1| | |]; try discriminate.
  destruct (destroy_range _ _ _ s1) as [a2 s2| | |]; try discriminate.
  unfold set_size. cbn. intros Q. injection Q as _ <-. reflexivity.
Qed.
Lemma unt_pop_while fuel : forall n s, i < n -> unt (pop_while moved Capacity fuel n) s.
Proof.
  induction fuel as [|f IH]; intros n s Hn; cbn [pop_while]; apply unt_get; try reflexivity; destruct (Nat.ltb_spec n (size s)); try apply unt_ret.
  - apply unt_diverge.
  - apply unt_bind; [apply unt_pop_back; lia|]. intros. now apply IH.
Qed.
Lemma pop_while_size fuel : forall n (s : sv) a s', i < n -> i < size s -> pop_while moved Capacity fuel n s = Ok a s' -> i < size s'.
Proof.
  induction fuel as [|f IH]; intros n s a s' Hn Hs; cbn [pop_while]; unfold bind, get, ret, diverge;
  destruct (Nat.ltb_spec n (size s)); try discriminate; try (intros Q; injection Q as _ <-; auto).
  destruct (pop_back moved Capacity s) as [a1 s1| | |] eqn:P; try discriminate. apply (IH n s1 a s' Hn).
  apply pop_back_size in P; lia.
Qed.
Lemma unt_push_while fuel : forall n v (s : sv), i < size s -> unt (push_while Capacity fuel n (CopyOf v)) s.
Proof.
  induction fuel as [|f IH]; intros n v s Hs; cbn [push_while]; apply unt_get; try reflexivity; destruct (Nat.ltb_spec (size s) n); try apply unt_ret.
  - apply unt_diverge.
  - apply unt_bind; [now apply unt_push_back|]. intros a s' P. apply IH. apply push_back_size in P. lia.
Qed.
Lemma unt_resize n v (s : sv) : i < n -> i < size s -> unt (resize_val moved Capacity n (CopyOf v)) s.
Proof.
  intros Hn Hs. unfold resize_val. apply unt_bind; [apply unt_throw_if|]. intros a s1 E1.
  assert (s1 = s) as -> by (unfold throw_if, ret, throw in E1; destruct (Capacity <? n); congruence).
  apply unt_bind; [now apply unt_pop_while|]. intros a1 s1 P. apply unt_push_while. exact (pop_while_size _ _ _ _ _ Hn Hs P).
Qed.

Theorem unt_call o (s : sv) : positions_in o (size s) -> i < first_touched o (size s) -> (N.of_nat (size s) < two64)%N ->
  unt (call moved dflt Capacity o) s.
Proof.
  intros Ho Hi Hs. destruct o as [v| |pos v|pos n v|pos l|pos|f l|n|n v| |n v|l]; cbn in *; try lia;
  unfold no_answer, position_answer.
  - apply unt_bind; [now apply unt_push_back|]. intros. apply unt_ret.
  - apply unt_bind; [apply unt_pop_back; lia|]. intros. apply unt_ret.
  - apply unt_bind; [|intros; apply unt_ret]. unfold insert1. apply unt_bind; [now apply unt_grow_at|].
    intros a s' E1. assert (a = pos) as ->.
    { revert E1. unfold grow_at, bind, get, throw_if, throw, ret, set_size. destruct (_ <? _)%N; [discriminate|]. cbn.
      destruct (grow_loop _ _ _ _ s) as [a1 s1| | |]; try discriminate. congruence. }
    apply unt_bind; [apply unt_construct; lia|]. intros. apply unt_ret.
  - apply unt_bind; [|intros; apply unt_ret]. unfold insert_n. apply unt_bind; [now apply unt_grow_at|].
    intros a s' E1. assert (a = pos) as ->.
    { revert E1. unfold grow_at, bind, get, throw_if, throw, ret, set_size. destruct (_ <? _)%N; [discriminate|].
      destruct (_ =? 0)%N; [congruence|]. destruct (grow_loop _ _ _ _ s) as [a1 s1| | |]; try discriminate. congruence. }
    apply unt_bind; [apply unt_fill_loop; lia|]. intros. apply unt_ret.
  - apply unt_bind; [|intros; apply unt_ret]. unfold insert_range. apply unt_bind; [now apply unt_grow_at|].
    intros a s' E1. assert (a = pos) as ->.
    { revert E1. unfold grow_at, bind, get, throw_if, throw, ret, set_size. destruct (_ <? _)%N; [discriminate|].
      destruct (_ =? 0)%N; [congruence|]. destruct (grow_loop _ _ _ _ s) as [a1 s1| | |]; try discriminate. congruence. }
    apply unt_bind; [apply unt_copy_loop; lia|]. intros. apply unt_ret.
  - apply unt_bind; [|intros; apply unt_ret]. unfold erase. apply unt_shrink_at; [auto|left; cbn; lia].
  - apply unt_bind; [|intros; apply unt_ret]. unfold erase_range. apply unt_shrink_at; auto. left.
    assert ((N.of_nat l + two64 - N.of_nat f) mod two64 = N.of_nat (l - f))%N as ->.
    { replace (N.of_nat l + two64 - N.of_nat f)%N with (N.of_nat (l - f) + 1 * two64)%N by lia.
      rewrite N.mod_add by (unfold two64; lia). apply N.mod_small. lia. }
    rewrite Nat2N.id. lia.
  - apply unt_bind; [|intros; apply unt_ret]. unfold resize. apply unt_resize; lia.
  - apply unt_bind; [|intros; apply unt_ret]. apply unt_resize; lia.
Qed.
End Static.
