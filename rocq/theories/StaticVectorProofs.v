(** Proofs about the static_vector model. *)
From Coq Require Import List Arith NArith ZArith Bool Lia.
From Verif Require Import Base SeqSpec VecCommon StaticVectorModel StaticVectorSpec.
Import ListNotations.

Section Proofs.
Context {V : Type}.
Variable moved : V -> V.
Variable dflt : V.
Variable Capacity : nat.
Hypothesis Hcap63 : (N.of_nat Capacity < two63)%N.

Notation sv := (sv).
Notation slot := (slot V).

(** The representation of the sequence [xs]: the first slots are alive, the rest raw. *)
Definition repr (xs : list V) (f : option nat) : sv :=
  mkSv (map Live xs ++ repeat Raw (Capacity - length xs)) (length xs) f.

Lemma size_repr xs f : size (repr xs f) = length xs.
Proof. reflexivity. Qed.

Lemma destroy_mid (A B : list slot) (v : V) i n f :
  i = length A ->
  destroy i (mkSv (A ++ Live v :: B) n f) = Ok tt (mkSv (A ++ Raw :: B) n f).
Proof.
  intros ->. unfold destroy, with_data; cbn [data size fuse].
  rewrite nth_error_app_mid by reflexivity. now rewrite upd_app_mid.
Qed.

Lemma move_from_mid (A B : list slot) (v : V) i n f :
  i = length A ->
  move_from moved i (mkSv (A ++ Live v :: B) n f) =
  Ok v (mkSv (A ++ Live (moved v) :: B) n f).
Proof.
  intros ->. unfold move_from, with_data; cbn [data size fuse].
  rewrite nth_error_app_mid by reflexivity. now rewrite upd_app_mid.
Qed.

Lemma read_mid (A B : list slot) (v : V) i n f :
  i = length A ->
  read i (mkSv (A ++ Live v :: B) n f) = Ok v (mkSv (A ++ Live v :: B) n f).
Proof.
  intros ->. unfold read; cbn [data]. now rewrite nth_error_app_mid.
Qed.

Lemma begin_life_mid (A B : list slot) (v : V) i n f :
  i = length A ->
  begin_life i v (mkSv (A ++ Raw :: B) n f) = Ok tt (mkSv (A ++ Live v :: B) n f).
Proof.
  intros ->. unfold begin_life, with_data; cbn [data size fuse].
  rewrite nth_error_app_mid by reflexivity. now rewrite upd_app_mid.
Qed.

(** ** Destroying a range *)
Lemma destroy_range_spec (vs : list V) : forall (A B : list slot) fuel p e n f,
  p = length A -> e = p + length vs -> length vs <= fuel ->
  destroy_range fuel p e (mkSv (A ++ map Live vs ++ B) n f) =
  Ok tt (mkSv (A ++ repeat Raw (length vs) ++ B) n f).
Proof.
  induction vs as [|v vs IH]; intros A B fuel p e n f Hp He Hf; simpl in *.
  - destruct fuel; simpl; replace (p =? e) with true by (symmetry; apply Nat.eqb_eq; lia);
      reflexivity.
  - destruct fuel as [|fuel]; [lia|]. cbn [destroy_range].
    replace (p =? e) with false by (symmetry; apply Nat.eqb_neq; lia).
    erewrite bind_ok by (apply destroy_mid; exact Hp).
    replace (A ++ Raw :: map Live vs ++ B) with ((A ++ [Raw]) ++ map Live vs ++ B)
      by now rewrite <- app_assoc.
    rewrite IH; [|rewrite app_length; simpl; lia|lia|lia].
    now rewrite <- app_assoc.
Qed.

Lemma clear_spec xs f :
  length xs <= Capacity ->
  clear Capacity (repr xs f) = Ok tt (repr [] f).
Proof.
  intros Hx. unfold clear. rewrite bind_get. rewrite ?size_repr.
  erewrite bind_ok.
  2:{ apply (destroy_range_spec xs [] _); simpl; lia. }
  unfold set_size, with_size; cbn [data fuse app]. unfold repr; simpl.
  do 2 f_equal. rewrite <- repeat_app. f_equal. lia.
Qed.

(** ** Adding at the end *)
Definition src_val (xs : list V) (x : src V) : option V :=
  match x with
  | CopyOf v | MoveOf v => Some v
  | CopyOwn k => nth_error xs k
  end.

Lemma repr_snoc xs f : length xs < Capacity ->
  repr xs f = mkSv (map Live xs ++ Raw :: repeat Raw (Capacity - S (length xs))) (length xs) f.
Proof.
  intros H. unfold repr. replace (Capacity - length xs) with (S (Capacity - S (length xs))) by lia.
  reflexivity.
Qed.

Lemma read_repr xs f k v :
  nth_error xs k = Some v -> read k (repr xs f) = Ok v (repr xs f).
Proof.
  intros H. unfold read, repr; cbn [data].
  rewrite nth_error_app1.
  - now rewrite nth_error_map, H.
  - rewrite map_length. apply nth_error_Some. congruence.
Qed.

Lemma push_back_spec xs x v :
  length xs < Capacity -> src_val xs x = Some v ->
  push_back Capacity x (repr xs None) = Ok tt (repr (xs ++ [v]) None).
Proof.
  intros Hl Hx. unfold push_back. rewrite bind_get. rewrite ?size_repr.
  erewrite bind_ok.
  2:{ unfold throw_if. replace (Capacity <=? length xs) with false; [reflexivity|].
      symmetry. apply Nat.leb_gt. lia. }
  assert (E : construct (length xs) x (repr xs None) =
              Ok tt (with_size (length xs) (repr (xs ++ [v]) None))).
  { assert (B : begin_life (length xs) v (repr xs None) =
              Ok tt (with_size (length xs) (repr (xs ++ [v]) None))).
    { rewrite repr_snoc by lia. rewrite begin_life_mid by now rewrite map_length.
      unfold repr, with_size; cbn [data size fuse]. rewrite map_app, app_length; simpl.
      rewrite <- app_assoc. simpl. do 4 f_equal. f_equal. lia. }
    destruct x as [w|w|k]; simpl in Hx |- *.
    - injection Hx as ->. erewrite bind_ok by reflexivity. exact B.
    - injection Hx as ->. exact B.
    - erewrite bind_ok by (apply read_repr; exact Hx).
      erewrite bind_ok by reflexivity. exact B. }
  erewrite bind_ok by exact E. rewrite bind_get.
  unfold set_size, with_size; cbn [data size fuse repr]. unfold repr.
  do 2 f_equal. rewrite app_length; simpl; lia.
Qed.

Lemma push_back_full xs x f :
  Capacity <= length xs ->
  push_back Capacity x (repr xs f) = Throw OutOfRange (repr xs f).
Proof.
  intros Hl. unfold push_back. rewrite bind_get.
  erewrite bind_throw; [reflexivity|].
  unfold throw_if, repr; cbn [size]. replace (Capacity <=? length xs) with true; [reflexivity|].
  symmetry. now apply Nat.leb_le.
Qed.

(** ** Opening a gap *)
Lemma grow_loop_spec (mid : list V) : forall (pre : list V) (T : list slot) b n f,
  grow_loop moved (length pre) (S b) (length mid)
    (mkSv (map Live pre ++ map Live mid ++ repeat Raw (S b) ++ T) n f) =
  Ok tt (mkSv (map Live pre ++ repeat Raw (S b) ++ map Live mid ++ T) n f).
Proof.
  induction mid as [|x mid IH] using rev_ind; intros pre T b n f.
  - reflexivity.
  - rewrite app_length; simpl length. rewrite Nat.add_1_r. cbn [grow_loop].
    rewrite map_app. cbn [map].
    replace (map Live pre ++ (map Live mid ++ [Live x]) ++ repeat Raw (S b) ++ T)
      with ((map Live pre ++ map Live mid) ++ Live x :: repeat Raw (S b) ++ T)
      by (repeat rewrite <- app_assoc; reflexivity).
    erewrite bind_ok by (apply move_from_mid; len).
    rewrite repeat_S_end.
    replace ((map Live pre ++ map Live mid) ++ Live (moved x) :: (repeat Raw b ++ [Raw]) ++ T)
      with (((map Live pre ++ map Live mid) ++ Live (moved x) :: repeat Raw b) ++ Raw :: T)
      by (repeat rewrite <- app_assoc; simpl; repeat rewrite <- app_assoc; reflexivity).
    cbn [construct].
    erewrite bind_ok by (apply begin_life_mid; len).
    rewrite <- app_assoc. cbn [app].
    erewrite bind_ok by (apply destroy_mid; len).
    change (Raw :: repeat Raw b ++ Live x :: T) with (repeat Raw (S b) ++ Live x :: T).
    rewrite <- app_assoc. rewrite IH.
    do 2 f_equal. rewrite <- ?repeat_S_end. rewrite <- ?app_assoc. reflexivity.
Qed.

(** The state in which grow_at leaves the vector: a raw gap inside the range. *)
Definition gap (xs : list V) (pos by_ : nat) (f : option nat) : sv :=
  mkSv (map Live (firstn pos xs) ++ repeat Raw by_ ++ map Live (skipn pos xs) ++
        repeat Raw (Capacity - (length xs + by_))) (length xs + by_) f.

Lemma cap_lt : (N.of_nat Capacity < two64)%N.
Proof. eapply N.lt_trans; [exact Hcap63|]. reflexivity. Qed.

Lemma grow_at_spec xs pos by_ f :
  pos <= length xs -> length xs + by_ <= Capacity ->
  grow_at moved Capacity pos (N.of_nat by_) (repr xs f) = Ok pos (gap xs pos by_ f).
Proof.
  intros Hp Hf. unfold grow_at. rewrite bind_get.
  pose proof cap_lt as Hc.
  assert (Hm : ((N.of_nat (length xs) + N.of_nat by_) mod two64 =
                N.of_nat (length xs + by_))%N).
  { rewrite N.mod_small; [now rewrite Nat2N.inj_add|]. rewrite <- Nat2N.inj_add. lia. }
  rewrite ?size_repr. rewrite Hm.
  erewrite bind_ok.
  2:{ unfold throw_if. replace (N.of_nat Capacity <? N.of_nat (length xs + by_))%N with false;
      [reflexivity|]. symmetry. apply N.ltb_ge. lia. }
  rewrite !Nat2N.id.
  destruct by_ as [|b].
  - simpl (N.of_nat 0 =? 0)%N. cbv iota. unfold ret, repr, gap. simpl repeat at 2.
    rewrite !Nat.add_0_r. cbn [app].
    replace (map Live (firstn pos xs) ++ map Live (skipn pos xs) ++
             repeat Raw (Capacity - length xs))
      with (map Live xs ++ repeat (@Raw V) (Capacity - length xs)); [reflexivity|].
    rewrite app_assoc, <- map_app, firstn_skipn. reflexivity.
  - replace (N.of_nat (S b) =? 0)%N with false by (symmetry; apply N.eqb_neq; lia).
    assert (E : repr xs f = mkSv (map Live (firstn pos xs) ++ map Live (skipn pos xs) ++
                  repeat Raw (S b) ++ repeat Raw (Capacity - (length xs + S b))) (length xs) f).
    { unfold repr. f_equal. rewrite app_assoc, <- map_app, firstn_skipn. f_equal.
      rewrite <- repeat_app. f_equal. lia. }
    rewrite E.
    erewrite bind_ok.
    2:{ rewrite <- (skipn_length pos xs).
        replace pos with (length (firstn pos xs)) at 1 by (rewrite firstn_length; lia).
        apply grow_loop_spec. }
    unfold set_size, with_size, bind, ret; cbn [data size fuse]. reflexivity.
Qed.

Lemma grow_at_full xs pos by_ f :
  (N.of_nat (length xs) + by_ < two64)%N ->
  (N.of_nat Capacity < N.of_nat (length xs) + by_)%N ->
  grow_at moved Capacity pos by_ (repr xs f) = Throw OutOfRange (repr xs f).
Proof.
  intros Hw Hc. unfold grow_at. rewrite bind_get.
  erewrite bind_throw; [reflexivity|].
  unfold throw_if, repr; cbn [size]. rewrite N.mod_small by exact Hw.
  replace (N.of_nat Capacity <? _)%N with true; [reflexivity|].
  symmetry. now apply N.ltb_lt.
Qed.

(** ** Filling a gap *)
Lemma fill_loop_spec (v : V) k : forall (A B : list slot) p n,
  p = length A ->
  fill_loop p (CopyOf v) k (mkSv (A ++ repeat Raw k ++ B) n None) =
  Ok tt (mkSv (A ++ repeat (Live v) k ++ B) n None).
Proof.
  induction k as [|k IH]; intros A B p n Hp; simpl; [reflexivity|].
  erewrite bind_ok.
  2:{ erewrite bind_ok by reflexivity. now apply begin_life_mid. }
  replace (A ++ Live v :: repeat Raw k ++ B) with ((A ++ [Live v]) ++ repeat Raw k ++ B)
    by now rewrite <- app_assoc.
  rewrite IH by len. now rewrite <- app_assoc.
Qed.

Lemma copy_loop_spec (l : list V) : forall (A B : list slot) p n,
  p = length A ->
  copy_loop p l (mkSv (A ++ repeat Raw (length l) ++ B) n None) =
  Ok tt (mkSv (A ++ map Live l ++ B) n None).
Proof.
  induction l as [|v l IH]; intros A B p n Hp; simpl; [reflexivity|].
  erewrite bind_ok.
  2:{ erewrite bind_ok by reflexivity. now apply begin_life_mid. }
  replace (A ++ Live v :: repeat Raw (length l) ++ B)
    with ((A ++ [Live v]) ++ repeat Raw (length l) ++ B) by now rewrite <- app_assoc.
  rewrite IH by len. now rewrite <- app_assoc.
Qed.

Lemma insert_at_length (xs l : list V) pos :
  length (insert_at xs pos l) = length xs + length l.
Proof.
  unfold insert_at. rewrite !app_length.
  rewrite <- (firstn_skipn pos xs) at 3. rewrite app_length. lia.
Qed.

Lemma repr_insert xs pos l f :
  pos <= length xs ->
  repr (insert_at xs pos l) f =
  mkSv (map Live (firstn pos xs) ++ map Live l ++ map Live (skipn pos xs) ++
        repeat Raw (Capacity - (length xs + length l))) (length xs + length l) f.
Proof.
  intros Hp. unfold repr. rewrite insert_at_length. f_equal.
  unfold insert_at. rewrite !map_app, <- !app_assoc. reflexivity.
Qed.

Lemma insert_range_spec xs pos l :
  pos <= length xs -> length xs + length l <= Capacity ->
  insert_range moved Capacity pos l (repr xs None) = Ok pos (repr (insert_at xs pos l) None).
Proof.
  intros Hp Hc. unfold insert_range.
  erewrite bind_ok by (apply grow_at_spec; assumption).
  erewrite bind_ok.
  2:{ unfold gap. apply copy_loop_spec. len. }
  unfold ret. now rewrite repr_insert.
Qed.

Lemma insert_n_spec xs pos v n :
  pos <= length xs -> length xs + n <= Capacity ->
  insert_n moved Capacity pos (N.of_nat n) (CopyOf v) (repr xs None) =
  Ok pos (repr (insert_at xs pos (repeat v n)) None).
Proof.
  intros Hp Hc. unfold insert_n.
  erewrite bind_ok by (apply grow_at_spec; assumption).
  rewrite Nat2N.id.
  erewrite bind_ok.
  2:{ unfold gap. apply fill_loop_spec. len. }
  unfold ret. rewrite repr_insert by assumption.
  rewrite map_repeat', repeat_length. reflexivity.
Qed.

Lemma insert1_spec xs pos x v :
  pos <= length xs -> length xs + 1 <= Capacity -> (x = CopyOf v \/ x = MoveOf v) ->
  insert1 moved Capacity pos x (repr xs None) = Ok pos (repr (insert_at xs pos [v]) None).
Proof.
  intros Hp Hc Hx. unfold insert1.
  erewrite bind_ok.
  2:{ change 1%N with (N.of_nat 1). apply grow_at_spec; assumption. }
  erewrite bind_ok.
  2:{ unfold gap. assert (E : construct pos x = (tick ;;; begin_life pos v) \/
                              construct pos x = begin_life pos v)
        by (destruct Hx as [-> | ->]; simpl; auto).
      destruct E as [-> | ->]; [erewrite bind_ok by reflexivity|];
      simpl repeat at 1; cbn [app]; apply begin_life_mid; len. }
  unfold ret. now rewrite repr_insert.
Qed.

(** ** Closing a gap *)
Lemma shrink_loop_spec (mid : list V) : forall (pre gone : list V) (T : list slot) fuel n f m,
  length gone = S m -> length mid <= fuel ->
  shrink_loop moved fuel (length pre) (length pre + S m)
    (length pre + S m + length mid)
    (mkSv (map Live pre ++ map Live gone ++ map Live mid ++ T) n f) =
  Ok tt (mkSv (map Live pre ++ map Live mid ++
              map Live (skipn (length mid) gone ++
                        map moved (skipn (length mid - S m) mid)) ++ T) n f).
Proof.
  induction mid as [|x mid IH]; intros pre gone T fuel n f m Hg Hf; simpl in Hf.
  - assert (E : length pre + S m =? length pre + S m + length (@nil V) = true)
      by (apply Nat.eqb_eq; simpl; lia).
    destruct fuel; cbn [shrink_loop]; rewrite E; unfold ret; simpl;
      rewrite app_nil_r; reflexivity.
  - destruct fuel as [|fuel]; [lia|]. cbn [shrink_loop].
    assert (E : length pre + S m =? length pre + S m + length (x :: mid) = false)
      by (apply Nat.eqb_neq; simpl; lia).
    rewrite E.
    destruct gone as [|g gone]; [discriminate|]. simpl in Hg. injection Hg as Hg.
    cbn [map app].
    erewrite bind_ok by (apply destroy_mid; len).
    replace (map Live pre ++ Raw :: map Live gone ++ Live x :: map Live mid ++ T)
      with ((map Live pre ++ Raw :: map Live gone) ++ Live x :: map Live mid ++ T)
      by (rewrite <- app_assoc; reflexivity).
    erewrite bind_ok by (apply move_from_mid; len).
    rewrite <- app_assoc; cbn [app construct].
    erewrite bind_ok by (apply begin_life_mid; len).
    replace (map Live pre ++ Live x :: map Live gone ++ Live (moved x) :: map Live mid ++ T)
      with (map Live (pre ++ [x]) ++ map Live (gone ++ [moved x]) ++ map Live mid ++ T)
      by (rewrite !map_app, <- !app_assoc; reflexivity).
    replace (S (length pre)) with (length (pre ++ [x])) by len.
    replace (S (length pre + S m)) with (length (pre ++ [x]) + S m) by len.
    replace (length pre + S m + length (x :: mid))
      with (length (pre ++ [x]) + S m + length mid) by (len; simpl; lia).
    rewrite (IH _ _ _ _ _ _ m); [|len|lia].
    do 2 f_equal. rewrite map_app, <- app_assoc. cbn [map app].
    do 4 f_equal.
    rewrite skipn_app. replace (length gone) with m by lia.
    destruct (Nat.le_gt_cases (length mid) m) as [Hle|Hgt].
    + replace (length mid - m) with 0 by lia. replace (length mid - S m) with 0 by lia.
      replace (length (x :: mid) - S m) with 0 by (simpl; lia).
      cbn [skipn map]. rewrite <- app_assoc. reflexivity.
    + replace (length (x :: mid) - S m) with (S (length mid - S m)) by (simpl; lia).
      destruct (length mid - m) as [|d] eqn:Ed; [lia|].
      replace (skipn (S d) [moved x]) with (@nil V) by (destruct d; reflexivity).
      rewrite app_nil_r. cbn [skipn]. reflexivity.
Qed.

Lemma erase_at_length (xs : list V) a b : a <= b -> b <= length xs ->
  length (erase_at xs a b) = length xs - (b - a).
Proof.
  intros H1 H2. unfold erase_at. rewrite app_length, firstn_length, skipn_length. lia.
Qed.

Lemma shrink_at_spec xs pos n f :
  0 < n -> pos + n <= length xs -> length xs <= Capacity ->
  shrink_at moved Capacity pos (N.of_nat n) (repr xs f) =
  Ok pos (repr (erase_at xs pos (pos + n)) f).
Proof.
  intros Hn Hp Hc. unfold shrink_at. rewrite bind_get.
  rewrite ?size_repr.
  erewrite bind_ok.
  2:{ unfold throw_if. replace (N.of_nat (length xs) <? N.of_nat n)%N with false;
      [reflexivity|]. symmetry. apply N.ltb_ge. lia. }
  rewrite Nat2N.id.
  destruct (length xs - n =? 0) eqn:E0.
  - apply Nat.eqb_eq in E0. assert (pos = 0) by lia. subst pos.
    erewrite bind_ok by (apply clear_spec; exact Hc).
    unfold ret, erase_at. simpl firstn. rewrite skipn_all2 by lia. reflexivity.
  - apply Nat.eqb_neq in E0.
    set (pre := firstn pos xs). set (gone := firstn n (skipn pos xs)).
    set (mid := skipn (pos + n) xs).
    assert (Exs : xs = pre ++ gone ++ mid).
    { unfold pre, gone, mid. rewrite <- (firstn_skipn pos xs) at 1. f_equal.
      rewrite <- (firstn_skipn n (skipn pos xs)) at 1. f_equal.
      rewrite skipn_skipn'. f_equal. lia. }
    assert (Hpre : length pre = pos) by (unfold pre; rewrite firstn_length; lia).
    assert (Hgone : length gone = n)
      by (unfold gone; rewrite firstn_length, skipn_length; lia).
    assert (Hmid : length mid = length xs - (pos + n))
      by (unfold mid; rewrite skipn_length; lia).
    assert (E : repr xs f = mkSv (map Live pre ++ map Live gone ++ map Live mid ++
                  repeat Raw (Capacity - length xs)) (length xs) f).
    { unfold repr. f_equal. rewrite Exs at 1. now rewrite !map_app, <- !app_assoc. }
    rewrite E. destruct n as [|m]; [lia|].
    erewrite bind_ok.
    2:{ replace (length xs) with (length pre + S m + length mid) at 1 by lia.
        rewrite <- Hpre.
        apply shrink_loop_spec; [exact Hgone|lia]. }
    set (junk := skipn (length mid) gone ++ map moved (skipn (length mid - S m) mid)).
    assert (Hj : length junk = S m).
    { unfold junk. rewrite app_length, map_length, !skipn_length. lia. }
    replace (map Live pre ++ map Live mid ++ map Live junk ++ repeat Raw (Capacity - length xs))
      with ((map Live (pre ++ mid)) ++ map Live junk ++ repeat (@Raw V) (Capacity - length xs))
      by (rewrite map_app, <- app_assoc; reflexivity).
    erewrite bind_ok.
    2:{ apply destroy_range_spec; [rewrite map_length, app_length; lia|lia|lia]. }
    unfold set_size, with_size, bind, ret; cbn [data size fuse].
    assert (El : erase_at xs pos (pos + S m) = pre ++ mid) by reflexivity.
    rewrite El. unfold repr. do 2 f_equal; [|rewrite app_length; lia].
    f_equal. rewrite <- repeat_app. f_equal. rewrite app_length. lia.
Qed.

Lemma shrink_at_toomany xs pos num f :
  (N.of_nat (length xs) < num)%N ->
  shrink_at moved Capacity pos num (repr xs f) = Throw OutOfRange (repr xs f).
Proof.
  intros H. unfold shrink_at. rewrite bind_get. erewrite bind_throw; [reflexivity|].
  unfold throw_if, repr; cbn [size].
  replace (N.of_nat (length xs) <? num)%N with true; [reflexivity|].
  symmetry. now apply N.ltb_lt.
Qed.

(** Erasing zero elements at the very end (or from an empty vector). *)
Lemma shrink_at_zero_end xs f :
  length xs <= Capacity ->
  shrink_at moved Capacity (length xs) 0%N (repr xs f) = Ok (length xs) (repr xs f).
Proof.
  intros Hc. unfold shrink_at. rewrite bind_get. erewrite bind_ok.
  2:{ unfold throw_if. replace (_ <? 0)%N with false; [reflexivity|].
      symmetry. apply N.ltb_ge. lia. }
  rewrite ?size_repr. simpl N.to_nat. rewrite Nat.sub_0_r, Nat.add_0_r.
  destruct xs as [|x xs].
  - simpl (length [] =? 0). cbv iota. erewrite bind_ok by (apply clear_spec; simpl; lia).
    reflexivity.
  - replace (length (x :: xs) =? 0) with false by reflexivity.
    erewrite bind_ok.
    2:{ cbn [shrink_loop]. rewrite Nat.eqb_refl. reflexivity. }
    erewrite bind_ok.
    2:{ cbn [destroy_range]. rewrite Nat.eqb_refl. reflexivity. }
    unfold set_size, with_size, bind, ret; cbn [data size fuse]. unfold repr.
    reflexivity.
Qed.

Lemma pop_back_spec xs x f :
  length xs + 1 <= Capacity ->
  pop_back moved Capacity (repr (xs ++ [x]) f) = Ok tt (repr xs f).
Proof.
  intros Hc. unfold pop_back. rewrite bind_get. rewrite ?size_repr.
  erewrite bind_ok.
  2:{ change 1%N with (N.of_nat 1). apply shrink_at_spec; rewrite ?app_length; simpl; lia. }
  unfold ret. do 2 f_equal. unfold erase_at. rewrite app_length; simpl.
  replace (length xs + 1 - 1) with (length xs) by lia.
  rewrite firstn_app, firstn_all, Nat.sub_diag; simpl.
  rewrite skipn_all2 by (rewrite app_length; simpl; lia).
  now rewrite !app_nil_r.
Qed.

Lemma pop_back_empty f :
  pop_back moved Capacity (repr [] f) = Throw OutOfRange (repr [] f).
Proof.
  unfold pop_back. rewrite bind_get. erewrite bind_throw; [reflexivity|].
  apply shrink_at_toomany. simpl. lia.
Qed.

(** ** resize *)
Lemma pop_while_spec n fuel : forall xs f,
  length xs <= Capacity -> length xs - n <= fuel ->
  pop_while moved Capacity fuel n (repr xs f) = Ok tt (repr (firstn n xs) f).
Proof.
  induction fuel as [|fuel IH]; intros xs f Hc Hf; cbn [pop_while]; rewrite bind_get;
    rewrite ?size_repr.
  - replace (n <? length xs) with false by (symmetry; apply Nat.ltb_ge; lia).
    unfold ret. now rewrite firstn_all2 by lia.
  - destruct (n <? length xs) eqn:E.
    + apply Nat.ltb_lt in E.
      destruct (list_snoc_cases xs) as [-> | (ys & y & ->)]; [simpl in E; lia|].
      rewrite app_length in *; simpl in *.
      erewrite bind_ok by (apply pop_back_spec; lia).
      rewrite IH by lia. rewrite firstn_app.
      replace (n - length ys) with 0 by lia. simpl. now rewrite app_nil_r.
    + apply Nat.ltb_ge in E. unfold ret. now rewrite firstn_all2 by lia.
Qed.

Lemma push_while_spec n x v fuel : forall xs,
  n <= Capacity -> n - length xs <= fuel ->
  (length xs < n -> src_val xs x = Some v) ->
  push_while Capacity fuel n x (repr xs None) =
  Ok tt (repr (xs ++ repeat v (n - length xs)) None).
Proof.
  induction fuel as [|fuel IH]; intros xs Hc Hf Hx; cbn [push_while]; rewrite bind_get;
    rewrite ?size_repr.
  - replace (length xs <? n) with false by (symmetry; apply Nat.ltb_ge; lia).
    unfold ret. replace (n - length xs) with 0 by lia. simpl. now rewrite app_nil_r.
  - destruct (length xs <? n) eqn:E.
    + apply Nat.ltb_lt in E. specialize (Hx E).
      erewrite bind_ok by (apply push_back_spec; [lia|exact Hx]).
      rewrite IH; [|lia|rewrite app_length; simpl; lia|].
      * rewrite <- app_assoc, app_length; simpl.
        replace (n - length xs) with (S (n - (length xs + 1))) by lia. reflexivity.
      * intros _. destruct x as [w|w|k]; simpl in *; auto.
        rewrite nth_error_app1; auto. apply nth_error_Some. congruence.
    + apply Nat.ltb_ge in E. unfold ret. replace (n - length xs) with 0 by lia. simpl.
      now rewrite app_nil_r.
Qed.

Lemma resize_val_spec xs n x v :
  length xs <= Capacity -> n <= Capacity ->
  (length xs < n -> src_val xs x = Some v) ->
  resize_val moved Capacity n x (repr xs None) = Ok tt (repr (resize_to xs n v) None).
Proof.
  intros Hc Hn Hx. unfold resize_val.
  erewrite bind_ok.
  2:{ unfold throw_if. replace (Capacity <? n) with false; [reflexivity|].
      symmetry. apply Nat.ltb_ge. lia. }
  erewrite bind_ok by (apply pop_while_spec; lia).
  erewrite push_while_spec with (v := v); [|lia|rewrite firstn_length; lia|].
  - unfold resize_to. rewrite firstn_length.
    replace (n - Init.Nat.min n (length xs)) with (n - length xs) by lia. reflexivity.
  - rewrite firstn_length. intros Hlt. rewrite firstn_all2 by lia. apply Hx. lia.
Qed.

Lemma resize_val_full n x s :
  Capacity < n -> resize_val moved Capacity n x s = Throw OutOfRange s.
Proof.
  intros H. unfold resize_val. erewrite bind_throw; [reflexivity|].
  unfold throw_if. replace (Capacity <? n) with true; [reflexivity|].
  symmetry. now apply Nat.ltb_lt.
Qed.

(** ** assign *)
Lemma push_n_spec v k : forall xs,
  length xs + k <= Capacity ->
  push_n Capacity k (CopyOf v) (repr xs None) = Ok tt (repr (xs ++ repeat v k) None).
Proof.
  induction k as [|k IH]; intros xs H; cbn [push_n repeat].
  - rewrite app_nil_r. reflexivity.
  - erewrite bind_ok by (apply push_back_spec; [lia|reflexivity]).
    rewrite IH by (rewrite app_length; simpl; lia). now rewrite <- app_assoc.
Qed.

Lemma push_list_spec l : forall xs,
  length xs + length l <= Capacity ->
  push_list Capacity l (repr xs None) = Ok tt (repr (xs ++ l) None).
Proof.
  induction l as [|v l IH]; intros xs H; cbn [push_list].
  - rewrite app_nil_r. reflexivity.
  - simpl in H. erewrite bind_ok by (apply push_back_spec; [lia|reflexivity]).
    rewrite IH by (rewrite app_length; simpl; lia). now rewrite <- app_assoc.
Qed.

Lemma assign_n_spec xs n v :
  length xs <= Capacity ->
  assign_n Capacity n v (repr xs None) =
  if Capacity <? n then Throw OutOfRange (repr [] None)
  else Ok tt (repr (repeat v n) None).
Proof.
  intros Hc. unfold assign_n. erewrite bind_ok by (apply clear_spec; exact Hc).
  destruct (Capacity <? n) eqn:E.
  - reflexivity.
  - apply Nat.ltb_ge in E. erewrite bind_ok by reflexivity.
    rewrite push_n_spec by (simpl; lia). reflexivity.
Qed.

Lemma assign_range_spec xs l :
  length xs <= Capacity ->
  assign_range Capacity l (repr xs None) =
  if Capacity <? length l then Throw OutOfRange (repr [] None)
  else Ok tt (repr l None).
Proof.
  intros Hc. unfold assign_range. erewrite bind_ok by (apply clear_spec; exact Hc).
  destruct (Capacity <? length l) eqn:E.
  - reflexivity.
  - apply Nat.ltb_ge in E. erewrite bind_ok by reflexivity.
    rewrite push_list_spec by (simpl; lia). reflexivity.
Qed.

(** ** All calls *)

Notation step := (spec_step dflt (Some Capacity)).

Lemma resize_to_length (xs : list V) n v : length (resize_to xs n v) = n.
Proof. unfold resize_to. len. Qed.

Lemma removelast_length (xs : list V) : length (removelast xs) <= length xs.
Proof.
  induction xs as [|x [|y xs] IH]; simpl in *; lia.
Qed.

Lemma step_length xs o :
  in_range xs o ->
  length xs <= Capacity -> length (fst (step xs o)) <= Capacity.
Proof.
  intros Hr Hc.
  destruct o; cbn [spec_step fits in_range] in *;
    repeat match goal with
    | |- context [if ?b then _ else _] => destruct b eqn:?
    | H : (_ <=? _) = true |- _ => apply Nat.leb_le in H
    | H : (_ <? _) = true |- _ => apply Nat.ltb_lt in H
    | H : (_ <? _) = false |- _ => apply Nat.ltb_ge in H
    end; cbn [fst]; rewrite ?insert_at_length, ?resize_to_length, ?repeat_length, ?app_length;
    cbn [length]; try lia.
  - eapply Nat.le_trans; [apply removelast_length|exact Hc].
  - unfold erase_at. rewrite app_length, firstn_length, skipn_length. lia.
  - unfold erase_at. rewrite app_length, firstn_length, skipn_length. lia.
Qed.

Lemma erase_range_count f l : f <= Capacity -> l <= Capacity ->
  ((N.of_nat l + two64 - N.of_nat f) mod two64 =
   if (l <? f)%nat then two64 - N.of_nat (f - l) else N.of_nat (l - f))%N.
Proof.
  intros Hf Hl. pose proof cap_lt; unfold two63 in Hcap63.
  destruct (l <? f) eqn:E.
  - apply Nat.ltb_lt in E.
    rewrite N.mod_small; unfold two64 in *; lia.
  - apply Nat.ltb_ge in E.
    replace (N.of_nat l + two64 - N.of_nat f)%N with (N.of_nat (l - f) + 1 * two64)%N by lia.
    rewrite N.mod_add by discriminate. apply N.mod_small. lia.
Qed.

Lemma call_spec xs o :
  length xs <= Capacity -> call_ok xs o ->
  observe (call moved dflt Capacity o (repr xs None)) =
  Some (repr (fst (step xs o)) None, snd (step xs o)).
Proof.
  intros Hc [Hr Hok].
  destruct o as [v| |pos v|pos n v|pos l|pos|a b|n|n v| |n v|l];
    cbn [call spec_step fits]; unfold no_answer, position_answer.
  - (* push_back *)
    destruct (length xs + 1 <=? Capacity) eqn:E.
    + apply Nat.leb_le in E. erewrite bind_ok by (apply push_back_spec; [lia|reflexivity]).
      reflexivity.
    + apply Nat.leb_gt in E. erewrite bind_throw by (apply push_back_full; lia). reflexivity.
  - (* pop_back *)
    destruct (list_snoc_cases xs) as [-> | (ys & y & ->)].
    + erewrite bind_throw by apply pop_back_empty. reflexivity.
    + rewrite app_length in Hc; simpl in Hc.
      erewrite bind_ok by (apply pop_back_spec; lia).
      cbn [ret observe]. rewrite removelast_last.
      destruct (ys ++ [y]) eqn:E; [destruct ys; discriminate|]. reflexivity.
  - (* insert one *)
    simpl in Hr. destruct (length xs + 1 <=? Capacity) eqn:E.
    + apply Nat.leb_le in E.
      erewrite bind_ok by (apply insert1_spec; [exact Hr|lia|now left]). reflexivity.
    + apply Nat.leb_gt in E. erewrite bind_throw.
      2:{ unfold insert1. erewrite bind_throw; [reflexivity|].
          apply grow_at_full; pose proof cap_lt; unfold two63 in Hcap63; unfold two64 in *; lia. }
      reflexivity.
  - (* insert n *)
    simpl in Hr, Hok. destruct (length xs + n <=? Capacity) eqn:E.
    + apply Nat.leb_le in E.
      erewrite bind_ok by (apply insert_n_spec; [exact Hr|lia]). reflexivity.
    + apply Nat.leb_gt in E. erewrite bind_throw.
      2:{ unfold insert_n. erewrite bind_throw; [reflexivity|].
          apply grow_at_full; [exact Hok|lia]. }
      reflexivity.
  - (* insert range *)
    simpl in Hr, Hok. destruct (length xs + length l <=? Capacity) eqn:E.
    + apply Nat.leb_le in E.
      erewrite bind_ok by (apply insert_range_spec; [exact Hr|lia]). reflexivity.
    + apply Nat.leb_gt in E. erewrite bind_throw.
      2:{ unfold insert_range. erewrite bind_throw; [reflexivity|].
          apply grow_at_full; [exact Hok|lia]. }
      reflexivity.
  - (* erase *)
    simpl in Hr. erewrite bind_ok.
    2:{ unfold erase. change 1%N with (N.of_nat 1). apply shrink_at_spec; lia. }
    replace (pos + 1) with (S pos) by lia. reflexivity.
  - (* erase range *)
    simpl in Hr, Hok. destruct Hr as [Ha Hb]. unfold erase_range.
    rewrite erase_range_count by lia.
    destruct (b <? a) eqn:E.
    + apply Nat.ltb_lt in E. erewrite bind_throw; [reflexivity|].
      apply shrink_at_toomany. cbn [fst].
      unfold two63, two64 in *. lia.
    + apply Nat.ltb_ge in E. destruct (Nat.eq_dec a b) as [->|Hne].
      * specialize (Hok eq_refl). subst b. rewrite Nat.sub_diag.
        erewrite bind_ok by (apply shrink_at_zero_end; exact Hc).
        unfold erase_at. rewrite firstn_all, skipn_all, app_nil_r. reflexivity.
      * erewrite bind_ok by (apply shrink_at_spec; lia).
        replace (a + (b - a)) with b by lia. reflexivity.
  - (* resize *)
    destruct (n <=? Capacity) eqn:E.
    + apply Nat.leb_le in E.
      erewrite bind_ok by (apply resize_val_spec; [exact Hc|exact E|reflexivity]). reflexivity.
    + apply Nat.leb_gt in E. erewrite bind_throw by (apply resize_val_full; lia). reflexivity.
  - (* resize val *)
    destruct (n <=? Capacity) eqn:E.
    + apply Nat.leb_le in E.
      erewrite bind_ok by (apply resize_val_spec; [exact Hc|exact E|reflexivity]). reflexivity.
    + apply Nat.leb_gt in E. erewrite bind_throw by (apply resize_val_full; lia). reflexivity.
  - erewrite bind_ok by (apply clear_spec; exact Hc). reflexivity.
  - (* assign n *)
    destruct (n <=? Capacity) eqn:E.
    + apply Nat.leb_le in E. erewrite bind_ok.
      2:{ rewrite assign_n_spec by exact Hc. replace (Capacity <? n) with false; [reflexivity|].
          symmetry; apply Nat.ltb_ge; lia. }
      reflexivity.
    + apply Nat.leb_gt in E. erewrite bind_throw.
      2:{ rewrite assign_n_spec by exact Hc. replace (Capacity <? n) with true; [reflexivity|].
          symmetry; apply Nat.ltb_lt; lia. }
      reflexivity.
  - (* assign range *)
    destruct (length l <=? Capacity) eqn:E.
    + apply Nat.leb_le in E. erewrite bind_ok.
      2:{ rewrite assign_range_spec by exact Hc.
          replace (Capacity <? length l) with false; [reflexivity|].
          symmetry; apply Nat.ltb_ge; lia. }
      reflexivity.
    + apply Nat.leb_gt in E. erewrite bind_throw.
      2:{ rewrite assign_range_spec by exact Hc.
          replace (Capacity <? length l) with true; [reflexivity|].
          symmetry; apply Nat.ltb_lt; lia. }
      reflexivity.
Qed.

Lemma run_spec os : forall xs,
  length xs <= Capacity -> along dflt call_ok (Some Capacity) xs os ->
  run_calls (call moved dflt Capacity) (repr xs None) os =
  Some (repr (fst (spec_run dflt (Some Capacity) xs os)) None,
        snd (spec_run dflt (Some Capacity) xs os)) /\
  length (fst (spec_run dflt (Some Capacity) xs os)) <= Capacity.
Proof.
  induction os as [|o os IH]; intros xs Hc Ha.
  - simpl. auto.
  - destruct Ha as [Ho Ha]. cbn [run_calls spec_run].
    rewrite call_spec by assumption.
    pose proof (step_length xs o (proj1 Ho) Hc) as Hl.
    destruct (step xs o) as [xs' r] eqn:E. cbn [fst snd] in *.
    destruct (IH xs' Hl Ha) as [IH1 IH2]. rewrite IH1.
    destruct (spec_run dflt (Some Capacity) xs' os) as [xs'' rs]. cbn [fst snd] in *. auto.
Qed.

Lemma init_repr : init_sv Capacity = repr [] None.
Proof. unfold init_sv, repr. simpl. now rewrite Nat.sub_0_r. Qed.

(** ** Two vectors *)

Lemma copy_from_loop_spec ys g k : forall i xs,
  i + k = length ys -> length xs + k <= Capacity ->
  copy_from_loop Capacity i k (repr xs None, repr ys g) =
  Ok tt (repr (xs ++ skipn i ys) None, repr ys g).
Proof.
  induction k as [|k IH]; intros i xs Hi Hc; cbn [copy_from_loop].
  - rewrite skipn_all2 by lia. rewrite app_nil_r. reflexivity.
  - destruct (nth_error ys i) as [v|] eqn:Ev.
    2:{ apply nth_error_None in Ev. lia. }
    erewrite bind_ok.
    2:{ unfold onR; cbn [fst snd]. rewrite (read_repr ys g i v Ev). reflexivity. }
    erewrite bind_ok.
    2:{ unfold onL; cbn [fst snd]. erewrite push_back_spec; [reflexivity|lia|reflexivity]. }
    rewrite IH; [|lia|len].
    rewrite (skipn_S_nth ys i v Ev), <- app_assoc. reflexivity.
Qed.

Lemma copy_assign_spec xs ys g :
  length xs <= Capacity -> length ys <= Capacity ->
  copy_assign Capacity (repr xs None, repr ys g) = Ok tt (repr ys None, repr ys g).
Proof.
  intros Hx Hy. unfold copy_assign. erewrite bind_ok.
  2:{ unfold onL; cbn [fst snd]. rewrite clear_spec by exact Hx. reflexivity. }
  rewrite bind_get. cbn [snd]. rewrite size_repr.
  rewrite copy_from_loop_spec by (simpl; lia). reflexivity.
Qed.

Lemma copy_construct_spec ys g :
  length ys <= Capacity ->
  copy_construct Capacity (repr ys g) = Ok tt (repr ys None, repr ys g).
Proof.
  intros Hy. unfold copy_construct. rewrite bind_get, init_repr. cbn [snd]. rewrite size_repr.
  rewrite copy_from_loop_spec by (simpl; lia). reflexivity.
Qed.

Lemma move_from_loop_spec ys g k : forall i xs,
  i + k = length ys -> length ys <= Capacity -> length xs + k <= Capacity ->
  move_from_loop moved Capacity i k
    (repr xs None, repr (map moved (firstn i ys) ++ skipn i ys) g) =
  Ok tt (repr (xs ++ skipn i ys) None, repr (map moved ys) g).
Proof.
  induction k as [|k IH]; intros i xs Hi Hy Hc; cbn [move_from_loop].
  - rewrite skipn_all2 by lia. rewrite firstn_all2 by lia. rewrite !app_nil_r. reflexivity.
  - destruct (nth_error ys i) as [v|] eqn:Ev.
    2:{ apply nth_error_None in Ev. lia. }
    rewrite (skipn_S_nth ys i v Ev).
    assert (Em : move_from moved i (repr (map moved (firstn i ys) ++ v :: skipn (S i) ys) g)
                 = Ok v (repr (map moved (firstn (S i) ys) ++ skipn (S i) ys) g)).
    { unfold repr. rewrite map_app. cbn [map].
      rewrite <- app_assoc. cbn [app].
      rewrite move_from_mid by len.
      f_equal. f_equal.
      - rewrite (firstn_S_nth ys i v Ev), !map_app, <- !app_assoc. cbn [map app].
        do 4 f_equal. len.
      - len. }
    erewrite bind_ok.
    2:{ unfold onR; cbn [fst snd]. rewrite Em. reflexivity. }
    erewrite bind_ok.
    2:{ unfold onL; cbn [fst snd]. erewrite push_back_spec; [reflexivity|lia|reflexivity]. }
    rewrite IH; [|lia|lia|len].
    rewrite <- app_assoc. reflexivity.
Qed.

Lemma move_assign_spec xs ys :
  length xs <= Capacity -> length ys <= Capacity ->
  move_assign moved Capacity (repr xs None, repr ys None) =
  Ok tt (repr ys None, repr [] None).
Proof.
  intros Hx Hy. unfold move_assign. erewrite bind_ok.
  2:{ unfold onL; cbn [fst snd]. rewrite clear_spec by exact Hx. reflexivity. }
  rewrite bind_get. cbn [snd]. rewrite size_repr.
  erewrite bind_ok.
  2:{ apply (move_from_loop_spec ys None (length ys) 0 []); simpl; lia. }
  unfold onR; cbn [fst snd skipn app].
  rewrite clear_spec by len. reflexivity.
Qed.

Lemma move_construct_spec ys :
  length ys <= Capacity ->
  move_construct moved Capacity (repr ys None) = Ok tt (repr ys None, repr [] None).
Proof.
  intros Hy. unfold move_construct. rewrite bind_get, init_repr. cbn [snd]. rewrite size_repr.
  erewrite bind_ok.
  2:{ apply (move_from_loop_spec ys None (length ys) 0 []); simpl; lia. }
  unfold onR; cbn [fst snd skipn app].
  rewrite clear_spec by len. reflexivity.
Qed.

Lemma self_move_assign_spec xs :
  length xs <= Capacity ->
  self_move_assign Capacity (repr xs None) = Ok tt (repr [] None).
Proof.
  intros Hx. unfold self_move_assign. erewrite bind_ok by (apply clear_spec; exact Hx).
  rewrite clear_spec by (simpl; lia). reflexivity.
Qed.

Lemma swap_loop_spec (bs : list V) : forall (as_ : list V) (A B C D : list slot) i n m f g,
  length as_ = length bs -> length A = length B -> i = length A ->
  swap_loop i (length bs)
    (mkSv (A ++ map Live as_ ++ C) n f, mkSv (B ++ map Live bs ++ D) m g) =
  Ok tt (mkSv (A ++ map Live bs ++ C) n f, mkSv (B ++ map Live as_ ++ D) m g).
Proof.
  induction bs as [|z bs IH]; intros as_ A B C D i n m f g Hl HAB Hi.
  - destruct as_; [|discriminate]. reflexivity.
  - destruct as_ as [|a as_]; [discriminate|]. simpl in Hl. cbn [length swap_loop].
    cbn [map app]. erewrite bind_ok.
    2:{ unfold swap_elems; cbn [fst snd data]. rewrite !nth_error_app_mid by lia.
        unfold with_data; cbn [data size fuse]. rewrite !upd_app_mid by lia. reflexivity. }
    replace (A ++ Live z :: map Live as_ ++ C) with ((A ++ [Live z]) ++ map Live as_ ++ C)
      by now rewrite <- app_assoc.
    replace (B ++ Live a :: map Live bs ++ D) with ((B ++ [Live a]) ++ map Live bs ++ D)
      by now rewrite <- app_assoc.
    rewrite IH; [|lia|len|len].
    rewrite <- !app_assoc. reflexivity.
Qed.

Lemma swap_tail_spec rest : forall xs A B i m g,
  i = length A -> length xs + length rest <= Capacity ->
  swap_tail moved Capacity i (length rest) (repr xs None, mkSv (A ++ map Live rest ++ B) m g) =
  Ok tt (repr (xs ++ rest) None, mkSv (A ++ repeat Raw (length rest) ++ B) m g).
Proof.
  induction rest as [|r rest IH]; intros xs A B i m g Hi Hc; cbn [length swap_tail].
  - rewrite app_nil_r. reflexivity.
  - cbn [map app]. erewrite bind_ok.
    2:{ unfold onR; cbn [fst snd]. rewrite move_from_mid by exact Hi. reflexivity. }
    erewrite bind_ok.
    2:{ unfold onL; cbn [fst snd]. erewrite push_back_spec; [reflexivity|simpl in Hc; lia|reflexivity]. }
    erewrite bind_ok.
    2:{ unfold onR; cbn [fst snd]. rewrite destroy_mid by exact Hi. reflexivity. }
    replace (A ++ Raw :: map Live rest ++ B) with ((A ++ [Raw]) ++ map Live rest ++ B)
      by now rewrite <- app_assoc.
    rewrite IH; [|len|simpl in Hc; len].
    rewrite <- !app_assoc. reflexivity.
Qed.

Lemma swap_short_long_spec xs ys :
  length xs <= length ys -> length ys <= Capacity ->
  swap_short_long moved Capacity (repr xs None, repr ys None) =
  Ok tt (repr ys None, repr xs None).
Proof.
  intros Hxy Hy. unfold swap_short_long. rewrite bind_get. cbn [fst snd]. rewrite !size_repr.
  set (n := length xs).
  assert (Ey : repr ys None = mkSv ([] ++ map Live (firstn n ys) ++
     (map Live (skipn n ys) ++ repeat Raw (Capacity - length ys))) (length ys) None).
  { unfold repr. cbn [app]. rewrite app_assoc, <- map_app, firstn_skipn. reflexivity. }
  assert (Ln : length (firstn n ys) = n) by (unfold n; rewrite firstn_length; lia).
  erewrite bind_ok.
  2:{ rewrite Ey. unfold repr. replace (swap_loop 0 n) with (swap_loop (V:=V) 0 (length (firstn n ys)))
        by now rewrite Ln.
      apply (swap_loop_spec (firstn n ys) xs [] []); try reflexivity. exact (eq_sym Ln). }
  cbn [app].
  assert (Ex : mkSv (map Live (firstn n ys) ++ repeat Raw (Capacity - length xs)) (length xs) None
               = repr (firstn n ys) None).
  { unfold repr. fold n. rewrite Ln. reflexivity. }
  rewrite Ex.
  erewrite bind_ok.
  2:{ rewrite <- (skipn_length n ys). apply swap_tail_spec; len. }
  unfold onR, set_size, with_size; cbn [fst snd data size fuse].
  rewrite firstn_skipn. do 3 f_equal.
 
  unfold repr. f_equal. f_equal. rewrite <- repeat_app. f_equal. rewrite skipn_length. unfold n. lia.
Qed.

Lemma swap_spec xs ys :
  length xs <= Capacity -> length ys <= Capacity ->
  swap moved Capacity (repr xs None, repr ys None) = Ok tt (repr ys None, repr xs None).
Proof.
  intros Hx Hy. unfold swap. cbn [fst snd]. rewrite !size_repr.
  destruct (length xs <? length ys) eqn:E.
  - apply Nat.ltb_lt in E. apply swap_short_long_spec; lia.
  - apply Nat.ltb_ge in E. unfold flip_pair; cbn [fst snd].
    rewrite swap_short_long_spec by lia. reflexivity.
Qed.

Lemma eq_loop_spec eqb k : forall i xs ys,
  (forall a b, eqb a b = true <-> a = b) ->
  i + k = length xs -> length xs = length ys ->
  exists b, eq_loop eqb i k (repr xs None, repr ys None) = Ok b (repr xs None, repr ys None)
    /\ (b = true <-> skipn i xs = skipn i ys).
Proof. clear moved dflt Hcap63.
  induction k as [|k IH]; intros i xs ys He Hi Hl; cbn [eq_loop].
  - exists true. split; [reflexivity|]. rewrite !skipn_all2 by lia. tauto.
  - destruct (nth_error xs i) as [a|] eqn:Ea; [|apply nth_error_None in Ea; lia].
    destruct (nth_error ys i) as [b|] eqn:Eb; [|apply nth_error_None in Eb; lia].
    erewrite bind_ok.
    2:{ unfold onL; cbn [fst snd]. rewrite (read_repr xs None i a Ea). reflexivity. }
    erewrite bind_ok.
    2:{ unfold onR; cbn [fst snd]. rewrite (read_repr ys None i b Eb). reflexivity. }
    rewrite (skipn_S_nth xs i a Ea), (skipn_S_nth ys i b Eb).
    destruct (eqb a b) eqn:E.
    + apply He in E. subst b.
      destruct (IH (S i) xs ys He ltac:(lia) Hl) as (r & Hr & Hi').
      exists r. split; [exact Hr|]. rewrite Hi'. split; congruence.
    + exists false. split; [reflexivity|]. split; [discriminate|].
      intros H. injection H as H _. apply He in H. congruence.
Qed.

Lemma equal_spec eqb xs ys :
  (forall a b, eqb a b = true <-> a = b) ->
  exists b, equal eqb (repr xs None, repr ys None) = Ok b (repr xs None, repr ys None)
    /\ (b = true <-> xs = ys).
Proof.
  intros He. unfold equal. rewrite bind_get. cbn [fst snd]. rewrite !size_repr.
  destruct (length xs =? length ys) eqn:E.
  - apply Nat.eqb_eq in E.
    destruct (eq_loop_spec eqb (length xs) 0 xs ys He eq_refl E) as (b & Hb & Hi).
    exists b. split; [exact Hb|]. exact Hi.
  - apply Nat.eqb_neq in E. exists false. split; [reflexivity|].
    split; [discriminate|]. intros ->. contradiction.
Qed.

(** ** Families of vectors *)
Notation sstep := (sys_spec_step dflt (Some Capacity) (fun _ => [])).

Definition fam (cs : list (list V)) : list sv := map (fun xs => repr xs None) cs.

Lemma map_upd {A B} (g : A -> B) l i x : map g (upd l i x) = upd (map g l) i (g x).
Proof. revert i; induction l as [|y l IH]; intros [|i]; simpl; auto. now rewrite IH. Qed.

Lemma nth_fam cs i xs : nth_error cs i = Some xs -> nth_error (fam cs) i = Some (repr xs None).
Proof. intros H. unfold fam. now rewrite nth_error_map, H. Qed.

Lemma Forall_upd {A} (P : A -> Prop) l i x : Forall P l -> P x -> Forall P (upd l i x).
Proof.
  revert i; induction l as [|y l IH]; intros [|i] Hl Hx; simpl; auto;
    inversion Hl; subst; constructor; auto.
Qed.

Lemma Forall_nth {A} (P : A -> Prop) l i x : Forall P l -> nth_error l i = Some x -> P x.
Proof. intros H E. apply nth_error_In in E. rewrite Forall_forall in H. auto. Qed.

Lemma upd_upd_same {A} (l : list A) i x y : upd (upd l i x) i y = upd l i y.
Proof. revert i; induction l as [|z l IH]; intros [|i]; simpl; auto. now rewrite IH. Qed.

Notation small := (fun xs : list V => length xs <= Capacity).

Lemma sys_call_spec cs o :
  Forall small cs -> sys_ok call_ok cs o ->
  observe (sys_call moved dflt Capacity o (fam cs)) =
  Some (fam (fst (sstep cs o)), snd (sstep cs o)) /\
  Forall small (fst (sstep cs o)).
Proof.
  intros Hs Ho. destruct o as [i op|i j|i j|i j]; cbn [sys_call sys_spec_step sys_ok] in *.
  - destruct Ho as (xs & Ei & Hok). rewrite Ei.
    pose proof (Forall_nth _ _ _ _ Hs Ei) as Hl. cbv beta in Hl.
    pose proof (call_spec xs op Hl Hok) as Hc.
    pose proof (step_length xs op (proj1 Hok) Hl) as Hl'.
    destruct (step xs op) as [xs' r] eqn:Es. cbn [fst snd] in *.
    unfold on_one. rewrite (nth_fam _ _ _ Ei).
    split; [|now apply Forall_upd].
    unfold fam. rewrite map_upd. fold (fam cs).
    destruct (call moved dflt Capacity op (repr xs None)) as [[p|] s|e s| |] eqn:Ec;
      cbn [observe] in Hc |- *; try discriminate; injection Hc as -> <-; reflexivity.
  - destruct Ho as [Hi Hj].
    destruct (nth_error cs j) as [ys|] eqn:Ej; [|apply nth_error_None in Ej; lia].
    pose proof (Forall_nth _ _ _ _ Hs Ej) as Hy. cbv beta in Hy. cbn [fst snd].
    split; [|now apply Forall_upd].
    destruct (i =? j) eqn:E.
    + apply Nat.eqb_eq in E. subst j. unfold on_one. rewrite (nth_fam _ _ _ Ej).
      cbn [ret observe]. rewrite (upd_nth_id cs i ys Ej).
      rewrite (upd_nth_id (fam cs) i _ (nth_fam _ _ _ Ej)). reflexivity.
    + apply Nat.eqb_neq in E. unfold on_two.
      destruct (nth_error cs i) as [xs|] eqn:Ei; [|apply nth_error_None in Ei; lia].
      pose proof (Forall_nth _ _ _ _ Hs Ei) as Hx. cbv beta in Hx.
      rewrite (nth_fam _ _ _ Ei), (nth_fam _ _ _ Ej).
      rewrite copy_assign_spec by assumption. cbn [observe]. unfold fam. rewrite map_upd.
      do 2 f_equal. apply upd_nth_id. rewrite nth_error_upd_neq by exact E.
      apply (nth_fam _ _ _ Ej).
  - destruct Ho as [Hi Hj].
    destruct (nth_error cs j) as [ys|] eqn:Ej; [|apply nth_error_None in Ej; lia].
    pose proof (Forall_nth _ _ _ _ Hs Ej) as Hy. cbv beta in Hy.
    destruct (i =? j) eqn:E; cbn [fst snd].
    + apply Nat.eqb_eq in E. subst j. split; [|apply Forall_upd; [exact Hs|simpl; lia]].
      unfold on_one, no_answer, bind. rewrite (nth_fam _ _ _ Ej).
      rewrite self_move_assign_spec by exact Hy. cbn [ret observe].
      unfold fam. now rewrite map_upd.
    + apply Nat.eqb_neq in E.
      split; [|apply Forall_upd; [now apply Forall_upd|simpl; lia]].
      unfold on_two.
      destruct (nth_error cs i) as [xs|] eqn:Ei; [|apply nth_error_None in Ei; lia].
      pose proof (Forall_nth _ _ _ _ Hs Ei) as Hx. cbv beta in Hx.
      rewrite (nth_fam _ _ _ Ei), (nth_fam _ _ _ Ej).
      rewrite move_assign_spec by assumption. cbn [observe]. unfold fam. now rewrite !map_upd.
  - destruct Ho as [Hi Hj].
    destruct (nth_error cs i) as [xs|] eqn:Ei; [|apply nth_error_None in Ei; lia].
    destruct (nth_error cs j) as [ys|] eqn:Ej; [|apply nth_error_None in Ej; lia].
    pose proof (Forall_nth _ _ _ _ Hs Ei) as Hx. cbv beta in Hx.
    pose proof (Forall_nth _ _ _ _ Hs Ej) as Hy. cbv beta in Hy. cbn [fst snd].
    split; [|apply Forall_upd; [now apply Forall_upd|exact Hx]].
    destruct (i =? j) eqn:E.
    + apply Nat.eqb_eq in E. subst j. rewrite Ei in Ej. injection Ej as <-.
      unfold on_one. rewrite (nth_fam _ _ _ Ei). cbn [ret observe].
      rewrite upd_upd_same, (upd_nth_id cs i xs Ei).
      rewrite (upd_nth_id (fam cs) i _ (nth_fam _ _ _ Ei)). reflexivity.
    + apply Nat.eqb_neq in E. unfold on_two.
      rewrite (nth_fam _ _ _ Ei), (nth_fam _ _ _ Ej).
      rewrite swap_spec by assumption. cbn [observe]. unfold fam. now rewrite !map_upd.
Qed.

Lemma sys_run_spec os : forall cs,
  Forall small cs -> sys_along dflt (Some Capacity) (fun _ => []) call_ok cs os ->
  run_calls (sys_call moved dflt Capacity) (fam cs) os =
  Some (fam (fst (sys_spec_run dflt (Some Capacity) (fun _ => []) cs os)),
        snd (sys_spec_run dflt (Some Capacity) (fun _ => []) cs os)) /\
  Forall small (fst (sys_spec_run dflt (Some Capacity) (fun _ => []) cs os)).
Proof.
  induction os as [|o os IH]; intros cs Hs Ha.
  - simpl. auto.
  - destruct Ha as [Ho Ha]. cbn [run_calls sys_spec_run].
    destruct (sys_call_spec cs o Hs Ho) as [-> Hs'].
    destruct (sstep cs o) as [cs' r] eqn:E. cbn [fst snd] in *.
    destruct (IH cs' Hs' Ha) as [-> IH2].
    destruct (sys_spec_run dflt (Some Capacity) (fun _ => []) cs' os) as [cs'' rs].
    cbn [fst snd] in *. auto.
Qed.

Lemma init_fam n : repeat (init_sv Capacity) n = fam (repeat [] n).
Proof. unfold fam. rewrite map_repeat'. now rewrite init_repr. Qed.

(** ** Empty ranges, self references, overflow *)

Lemma erase_empty_ub xs pos f :
  pos < length xs -> length xs <= Capacity ->
  erase_range moved Capacity pos pos (repr xs f) = UB.
Proof.
  intros Hp Hc. unfold erase_range. rewrite erase_range_count by lia.
  rewrite Nat.ltb_irrefl, Nat.sub_diag. unfold shrink_at. rewrite bind_get.
  erewrite bind_ok.
  2:{ unfold throw_if. replace (_ <? N.of_nat 0)%N with false; [reflexivity|].
      symmetry. apply N.ltb_ge. lia. }
  rewrite ?size_repr. simpl N.to_nat. rewrite Nat.sub_0_r, Nat.add_0_r.
  replace (length xs =? 0) with false by (symmetry; apply Nat.eqb_neq; lia).
  erewrite bind_ub; [reflexivity|]. cbn [shrink_loop].
  replace (pos =? length xs) with false by (symmetry; apply Nat.eqb_neq; lia).
  destruct (nth_error xs pos) as [v|] eqn:Ev; [|apply nth_error_None in Ev; lia].
  assert (E : repr xs f = mkSv (map Live (firstn pos xs) ++ Live v ::
     (map Live (skipn (S pos) xs) ++ repeat Raw (Capacity - length xs))) (length xs) f).
  { unfold repr. f_equal. rewrite (nth_error_split_eq xs pos v Ev) at 1.
    rewrite map_app, <- app_assoc. reflexivity. }
  rewrite E. erewrite bind_ok by (apply destroy_mid; len).
  erewrite bind_ub; [reflexivity|]. unfold move_from; cbn [data].
  rewrite nth_error_app_mid by len. reflexivity.
Qed.

Lemma gap_own_slot xs pos k f :
  pos <= length xs -> k < length xs ->
  nth_error (data (gap xs pos 1 f)) k =
  if k <? pos then option_map Live (nth_error xs k)
  else if k =? pos then Some Raw
  else option_map Live (nth_error xs (k - 1)).
Proof.
  intros Hp Hk. unfold gap; cbn [data repeat].
  destruct (k <? pos) eqn:E1.
  - apply Nat.ltb_lt in E1.
    rewrite nth_error_app1 by len. rewrite nth_error_map, nth_error_firstn.
    replace (k <? pos) with true by (symmetry; now apply Nat.ltb_lt). reflexivity.
  - apply Nat.ltb_ge in E1. rewrite nth_error_app2 by len.
    rewrite map_length, firstn_length, Nat.min_l by lia.
    destruct (k =? pos) eqn:E2.
    + apply Nat.eqb_eq in E2. subst. rewrite Nat.sub_diag. reflexivity.
    + apply Nat.eqb_neq in E2. destruct (k - pos) as [|d] eqn:Ed; [lia|].
      cbn [app nth_error]. rewrite nth_error_app1 by len.
      rewrite nth_error_map, nth_error_skipn. do 2 f_equal. lia.
Qed.

Lemma insert_own_spec xs pos k :
  pos <= length xs -> k < length xs -> length xs + 1 <= Capacity ->
  insert1 moved Capacity pos (CopyOwn k) (repr xs None) =
  if k =? pos then UB
  else match nth_error xs (if k <? pos then k else k - 1) with
       | Some v => Ok pos (repr (insert_at xs pos [v]) None)
       | None => UB
       end.
Proof.
  intros Hp Hk Hc. unfold insert1. erewrite bind_ok.
  2:{ change 1%N with (N.of_nat 1). apply grow_at_spec; assumption. }
  cbn [construct].
  pose proof (gap_own_slot xs pos k None Hp Hk) as Hs.
  assert (Hread : forall v, nth_error (data (gap xs pos 1 None)) k = Some (Live v) ->
     ((let* v := read k in tick;;; begin_life pos v);;; ret pos) (gap xs pos 1 None) =
     Ok pos (repr (insert_at xs pos [v]) None)).
  { intros v Hv. erewrite bind_ok.
    2:{ erewrite bind_ok. 2:{ unfold read. rewrite Hv. reflexivity. }
        erewrite bind_ok by reflexivity. unfold gap. cbn [repeat app].
        apply begin_life_mid. len. }
    unfold ret. rewrite repr_insert by assumption. reflexivity. }
  destruct (k =? pos) eqn:E.
  - apply Nat.eqb_eq in E. subst k. rewrite Nat.ltb_irrefl in Hs.
    erewrite bind_ub; [reflexivity|]. erewrite bind_ub; [reflexivity|].
    unfold read. now rewrite Hs.
  - apply Nat.eqb_neq in E. destruct (k <? pos) eqn:E1.
    + destruct (nth_error xs k) as [v|] eqn:Ev; [|apply nth_error_None in Ev; lia].
      apply Hread. rewrite Hs. reflexivity.
    + apply Nat.ltb_ge in E1.
      destruct (nth_error xs (k - 1)) as [v|] eqn:Ev; [|apply nth_error_None in Ev; lia].
      apply Hread. rewrite Hs. reflexivity.
Qed.

(** A count which wraps the capacity check is not rejected: the elements are moved
    outside the storage. *)
Lemma insert_wrap_ub xs pos by_ v f :
  pos < length xs -> length xs <= Capacity ->
  ((N.of_nat (length xs) + by_) mod two64 <= N.of_nat Capacity)%N ->
  (N.of_nat Capacity < by_)%N ->
  insert_n moved Capacity pos by_ (CopyOf v) (repr xs f) = UB.
Proof.
  intros Hp Hc Hw Hb. unfold insert_n. erewrite bind_ub; [reflexivity|].
  unfold grow_at. rewrite bind_get. rewrite size_repr.
  erewrite bind_ok.
  2:{ unfold throw_if. replace (N.of_nat Capacity <? _)%N with false; [reflexivity|].
      symmetry. now apply N.ltb_ge. }
  replace (by_ =? 0)%N with false by (symmetry; apply N.eqb_neq; lia).
  erewrite bind_ub; [reflexivity|].
  destruct (length xs - pos) as [|k] eqn:Ek; [lia|]. cbn [grow_loop].
  destruct (nth_error xs (pos + k)) as [x|] eqn:Ex; [|apply nth_error_None in Ex; lia].
  assert (E : move_from moved (pos + k) (repr xs f) =
     Ok x (with_data (upd (data (repr xs f)) (pos + k) (Live (moved x))) (repr xs f))).
  { unfold move_from. replace (nth_error (data (repr xs f)) (pos + k)) with (Some (Live x));
      [reflexivity|]. unfold repr; cbn [data]. rewrite nth_error_app1 by len.
    now rewrite nth_error_map, Ex. }
  erewrite bind_ok by exact E. erewrite bind_ub; [reflexivity|].
  cbn [construct]. unfold begin_life, with_data; cbn [data].
  replace (nth_error _ _) with (@None slot); [reflexivity|].
  symmetry. apply nth_error_None. rewrite upd_length. unfold repr; cbn [data]. len.
Qed.

(** ** Exceptions thrown by element constructors *)

Definition valid (s : sv) : Prop :=
  exists xs f, length xs <= Capacity /\ s = repr xs f.
Definition safe {A} (r : res sv A) : Prop :=
  match r with
  | Ok _ s => valid s
  | Throw _ s => valid s
  | UB => False
  | Diverge => False
  end.

Lemma push_back_exn xs x v f :
  length xs <= Capacity -> src_val xs x = Some v ->
  (exists f', push_back Capacity x (repr xs f) = Ok tt (repr (xs ++ [v]) f') /\ length xs < Capacity)
  \/ (exists e f', push_back Capacity x (repr xs f) = Throw e (repr xs f')).
Proof.
  intros Hc Hx. destruct (Nat.lt_ge_cases (length xs) Capacity) as [Hl|Hl].
  2:{ right. exists OutOfRange, f. apply push_back_full. exact Hl. }
  unfold push_back. rewrite bind_get. rewrite size_repr.
  replace (Capacity <=? length xs) with false by (symmetry; apply Nat.leb_gt; lia).
  assert (B : forall g, (begin_life (length xs) v;;; (let* s' := get in set_size (S (size s'))))
                (repr xs g) = Ok tt (repr (xs ++ [v]) g)).
  { intros g. erewrite bind_ok.
    2:{ rewrite repr_snoc by lia. apply begin_life_mid. len. }
    rewrite bind_get. unfold set_size, with_size; cbn [data size fuse]. unfold repr.
    do 2 f_equal; [|len]. rewrite map_app, <- app_assoc. cbn [map app]. do 3 f_equal. len. }
  assert (K : (exists f', (tick;;; begin_life (length xs) v;;;
                 (let* s' := get in set_size (S (size s')))) (repr xs f) =
                 Ok tt (repr (xs ++ [v]) f')) \/
              (exists e f', (tick;;; begin_life (length xs) v;;;
                 (let* s' := get in set_size (S (size s')))) (repr xs f) =
                 Throw e (repr xs f'))).
  { destruct f as [[|k]|].
    - right. exists ElemThrow, None. reflexivity.
    - left. exists (Some k). erewrite bind_ok by reflexivity. apply B.
    - left. exists None. erewrite bind_ok by reflexivity. apply B. }
  destruct x as [w|w|k]; simpl in Hx.
  - injection Hx as ->. destruct K as [(f' & K)|(e & f' & K)].
    + left. exists f'. split; [|exact Hl]. rewrite <- K. cbn [construct].
      unfold bind, throw_if. destruct (tick (repr xs f)); reflexivity.
    + right. exists e, f'. rewrite <- K. cbn [construct].
      unfold bind, throw_if. destruct (tick (repr xs f)); reflexivity.
  - injection Hx as ->. left. exists f. split; [|exact Hl]. exact (B f).
  - destruct K as [(f' & K)|(e & f' & K)].
    + left. exists f'. split; [|exact Hl]. rewrite <- K. cbn [construct].
      unfold bind, throw_if. rewrite (read_repr xs f k v Hx).
      destruct (tick (repr xs f)); reflexivity.
    + right. exists e, f'. rewrite <- K. cbn [construct].
      unfold bind, throw_if. rewrite (read_repr xs f k v Hx).
      destruct (tick (repr xs f)); reflexivity.
Qed.

Lemma valid_repr xs f : length xs <= Capacity -> valid (repr xs f).
Proof. intros H. now exists xs, f. Qed.

Lemma push_back_safe x s : valid s -> (forall k, x <> CopyOwn k) -> safe (push_back Capacity x s).
Proof.
  intros (xs & f & Hc & ->) Hx.
  assert (exists v, src_val xs x = Some v) as (v & Hv).
  { destruct x as [v|v|k]; simpl; eauto. now destruct (Hx k). }
  destruct (push_back_exn xs x v f Hc Hv) as [(f' & E & Hl)|(e & f' & E)]; rewrite E; simpl.
  - apply valid_repr. len.
  - now apply valid_repr.
Qed.

Lemma bind_safe {A B} (m : M sv A) (k : A -> M sv B) s :
  safe (m s) -> (forall a s', valid s' -> safe (k a s')) -> safe (bind m k s).
Proof.
  intros H1 H2. unfold bind. destruct (m s); simpl in *; auto.
Qed.

Lemma clear_safe s : valid s -> safe (clear Capacity s).
Proof.
  intros (xs & f & Hc & ->). rewrite clear_spec by exact Hc. simpl. apply valid_repr.
  simpl; lia.
Qed.

Lemma pop_back_safe s : valid s -> safe (pop_back moved Capacity s).
Proof.
  intros (xs & f & Hc & ->). destruct (list_snoc_cases xs) as [-> | (ys & y & ->)].
  - rewrite pop_back_empty. now apply valid_repr.
  - rewrite app_length in Hc; simpl in Hc. rewrite pop_back_spec by lia. apply valid_repr. lia.
Qed.

Lemma throw_if_safe b e s : valid s -> safe (throw_if b e s).
Proof. intros H. unfold throw_if. now destruct b. Qed.

Lemma push_n_safe v k : forall s, valid s -> safe (push_n Capacity k (CopyOf v) s).
Proof.
  induction k as [|k IH]; intros s Hs; cbn [push_n]; [exact Hs|].
  apply bind_safe; [apply push_back_safe; [exact Hs|discriminate]|auto].
Qed.

Lemma push_list_safe l : forall s, valid s -> safe (push_list Capacity l s).
Proof.
  induction l as [|v l IH]; intros s Hs; cbn [push_list]; [exact Hs|].
  apply bind_safe; [apply push_back_safe; [exact Hs|discriminate]|auto].
Qed.

Lemma pop_while_exn n xs f : length xs <= Capacity ->
  pop_while moved Capacity (S Capacity) n (repr xs f) = Ok tt (repr (firstn n xs) f).
Proof. intros H. apply pop_while_spec; lia. Qed.

Lemma push_while_safe n v fuel : forall xs f,
  n <= Capacity -> length xs <= Capacity -> n - length xs <= fuel ->
  safe (push_while Capacity fuel n (CopyOf v) (repr xs f)).
Proof.
  induction fuel as [|fuel IH]; intros xs f Hn Hc Hf; cbn [push_while]; rewrite bind_get, size_repr.
  - replace (length xs <? n) with false by (symmetry; apply Nat.ltb_ge; lia).
    now apply valid_repr.
  - destruct (length xs <? n) eqn:E; [|now apply valid_repr].
    apply Nat.ltb_lt in E. unfold bind.
    destruct (push_back_exn xs (CopyOf v) v f Hc eq_refl) as [(f' & -> & Hl)|(e & f' & ->)].
    + apply IH; len.
    + now apply valid_repr.
Qed.

Lemma resize_val_safe n v s : valid s -> safe (resize_val moved Capacity n (CopyOf v) s).
Proof.
  intros (xs & f & Hc & ->). unfold resize_val, bind, throw_if.
  destruct (Capacity <? n) eqn:E; [now apply valid_repr|].
  apply Nat.ltb_ge in E. rewrite pop_while_exn by exact Hc.
  apply push_while_safe; len.
Qed.

Lemma call_safe xs o f :
  length xs <= Capacity -> call_ok xs o -> not_insert o ->
  safe (call moved dflt Capacity o (repr xs f)).
Proof.
  intros Hc [Hr Hok] Hn. pose proof (valid_repr xs f Hc) as Hv.
  destruct o as [v| |pos v|pos n v|pos l|pos|a b|n|n v| |n v|l]; try contradiction;
    cbn [call]; unfold no_answer, position_answer.
  - apply bind_safe; [apply push_back_safe; [exact Hv|discriminate]|auto].
  - apply bind_safe; [now apply pop_back_safe|auto].
  - apply bind_safe; [|auto]. unfold erase. change 1%N with (N.of_nat 1).
    simpl in Hr. rewrite shrink_at_spec by lia. apply valid_repr.
    rewrite erase_at_length by lia. lia.
  - apply bind_safe; [|auto]. simpl in Hr, Hok. destruct Hr as [Ha Hb]. unfold erase_range.
    rewrite erase_range_count by lia.
    destruct (b <? a) eqn:E.
    + apply Nat.ltb_lt in E. rewrite shrink_at_toomany by (unfold two63, two64 in *; lia). exact Hv.
    + apply Nat.ltb_ge in E. destruct (Nat.eq_dec a b) as [->|Hne].
      * specialize (Hok eq_refl). subst b. rewrite Nat.sub_diag.
        change (N.of_nat 0) with 0%N. rewrite shrink_at_zero_end by exact Hc. exact Hv.
      * rewrite shrink_at_spec by lia. apply valid_repr.
        rewrite erase_at_length by lia. lia.
  - apply bind_safe; [now apply resize_val_safe|auto].
  - apply bind_safe; [now apply resize_val_safe|auto].
  - apply bind_safe; [now apply clear_safe|auto].
  - apply bind_safe; [|auto]. unfold assign_n.
    apply bind_safe; [now apply clear_safe|]. intros _ s1 H1.
    apply bind_safe; [now apply throw_if_safe|]. intros _ s2 H2. now apply push_n_safe.
  - apply bind_safe; [|auto]. unfold assign_range.
    apply bind_safe; [now apply clear_safe|]. intros _ s1 H1.
    apply bind_safe; [now apply throw_if_safe|]. intros _ s2 H2. now apply push_list_safe.
Qed.

Lemma push_back_strong xs v f :
  length xs <= Capacity ->
  match push_back Capacity (CopyOf v) (repr xs f) with
  | Ok _ s => data s = data (repr (xs ++ [v]) None) /\ size s = S (length xs)
  | Throw _ s => data s = data (repr xs None) /\ size s = length xs
  | UB => False
  | Diverge => False
  end.
Proof.
  intros Hc.
  destruct (push_back_exn xs (CopyOf v) v f Hc eq_refl) as [(f' & -> & Hl)|(e & f' & ->)];
    simpl; split; auto. len.
Qed.

(** ** The facts behind the property theorems *)

Lemma represents_repr xs f : length xs <= Capacity -> represents Capacity (repr xs f) xs.
Proof.
  intros H. unfold represents, repr; cbn [data size]. repeat split; auto; [len|].
  intros i Hi. destruct (Nat.lt_ge_cases i (length xs)) as [Hl|Hl].
  - rewrite nth_error_app1 by len. rewrite nth_error_map.
    destruct (nth_error xs i) eqn:E; [reflexivity|]. apply nth_error_None in E. lia.
  - rewrite nth_error_app2 by len. rewrite map_length.
    replace (nth_error xs i) with (@None V) by (symmetry; now apply nth_error_None).
    apply nth_error_repeat_lt. lia.
Qed.

Lemma represents_inv (s : sv) (xs : list V) : represents Capacity s xs -> s = repr xs (fuse s).
Proof.
  intros (Hd & Hs & Hc & Hi). destruct s as [d n f]; cbn [data size fuse] in *. unfold repr.
  rewrite Hs. f_equal. apply nth_error_ext. intros i.
  destruct (Nat.lt_ge_cases i Capacity) as [Hl|Hl].
  - rewrite Hi by exact Hl.
    pose proof (represents_repr xs None Hc) as (_ & _ & _ & Hr).
    rewrite <- (Hr i Hl). reflexivity.
  - transitivity (@None slot); [|symmetry]; apply nth_error_None; [lia|len].
Qed.

Lemma fam_represents cs : Forall small cs -> Forall2 (represents Capacity) (fam cs) cs.
Proof.
  induction 1 as [|xs cs Hx Hs IH]; simpl; constructor; auto. now apply represents_repr.
Qed.

Lemma Forall_small_nil n : Forall small (repeat (@nil V) n).
Proof. apply Forall_forall. intros x H. apply repeat_spec in H. subst. simpl. lia. Qed.

Lemma history_fact n os :
  sys_along dflt (Some Capacity) (fun _ => []) call_ok (repeat [] n) os ->
  exists st,
    run_calls (sys_call moved dflt Capacity) (repeat (init_sv Capacity) n) os =
      Some (st, snd (sys_spec_run dflt (Some Capacity) (fun _ => []) (repeat [] n) os)) /\
    Forall2 (represents Capacity) st
      (fst (sys_spec_run dflt (Some Capacity) (fun _ => []) (repeat [] n) os)).
Proof.
  intros H. rewrite init_fam.
  destruct (sys_run_spec os (repeat [] n) (Forall_small_nil n) H) as [E Hs].
  eexists. split; [exact E|]. now apply fam_represents.
Qed.

Lemma call_fact (s : sv) (xs : list V) o :
  represents Capacity s xs -> fuse s = None -> call_ok xs o ->
  exists s',
    observe (call moved dflt Capacity o s) = Some (s', snd (step xs o)) /\
    represents Capacity s' (fst (step xs o)) /\ fuse s' = None.
Proof.
  intros Hr Hf Hok. pose proof (represents_inv s xs Hr) as E. rewrite Hf in E. subst s.
  destruct Hr as (_ & _ & Hc & _).
  exists (repr (fst (step xs o)) None). split; [now apply call_spec|].
  split; [|reflexivity]. apply represents_repr. apply step_length; [apply Hok|exact Hc].
Qed.

Lemma represents_lifetimes (s : sv) (xs : list V) :
  represents Capacity s xs -> exactly_first_alive Capacity s.
Proof.
  intros (Hd & Hs & Hc & Hi). split; [exact Hd|]. split; [lia|].
  intros i Hl. rewrite (Hi i Hl). rewrite Hs.
  destruct (nth_error xs i) as [v|] eqn:E.
  - split; [intros _; eauto|]. intros _. apply nth_error_Some. congruence.
  - apply nth_error_None in E. split; [lia|]. intros (v & [=]).
Qed.

Lemma destructor_fact (s : sv) (xs : list V) :
  represents Capacity s xs ->
  exists s', clear Capacity s = Ok tt s' /\
    forall i, i < Capacity -> nth_error (data s') i = Some Raw.
Proof.
  intros Hr. pose proof (represents_inv s xs Hr) as E. destruct Hr as (_ & _ & Hc & _).
  rewrite E, clear_spec by exact Hc. eexists. split; [reflexivity|].
  intros i Hi. unfold repr; simpl. apply nth_error_repeat_lt. lia.
Qed.

Lemma history_lifetimes_fact n os :
  sys_along dflt (Some Capacity) (fun _ => []) call_ok (repeat [] n) os ->
  exists st rs,
    run_calls (sys_call moved dflt Capacity) (repeat (init_sv Capacity) n) os = Some (st, rs) /\
    forall s, In s st ->
      exactly_first_alive Capacity s /\
      exists s', clear Capacity s = Ok tt s' /\
        forall i, i < Capacity -> nth_error (data s') i = Some Raw.
Proof.
  intros H. destruct (history_fact n os H) as (st & E & HF).
  eexists st, _. split; [exact E|]. intros s Hin.
  apply In_nth_error in Hin. destruct Hin as (i & Hi).
  assert (exists xs, represents Capacity s xs) as (xs & Hr).
  { clear E. revert i Hi. induction HF as [|a b l l' Hab HF IH]; intros [|i] Hi; simpl in Hi;
      try discriminate; [injection Hi as ->; eauto|eauto]. }
  split; [now apply represents_lifetimes with xs|now apply destructor_fact with xs].
Qed.

Lemma two_copy_fact (a b : sv) (xs ys : list V) :
  represents Capacity a xs -> represents Capacity b ys -> fuse a = None ->
  exists a', copy_assign Capacity (a, b) = Ok tt (a', b) /\ represents Capacity a' ys.
Proof.
  intros Ha Hb Hf. pose proof (represents_inv _ _ Ha) as Ea. pose proof (represents_inv _ _ Hb) as Eb.
  rewrite Hf in Ea. destruct Ha as (_ & _ & Hca & _). destruct Hb as (_ & _ & Hcb & _).
  rewrite Ea, Eb. exists (repr ys None). split; [|now apply represents_repr].
  now apply copy_assign_spec.
Qed.

Lemma copy_construct_fact (b : sv) (ys : list V) :
  represents Capacity b ys ->
  exists a', copy_construct Capacity b = Ok tt (a', b) /\ represents Capacity a' ys.
Proof.
  intros Hb. pose proof (represents_inv _ _ Hb) as Eb. destruct Hb as (_ & _ & Hcb & _).
  rewrite Eb. exists (repr ys None). split; [|now apply represents_repr].
  now apply copy_construct_spec.
Qed.

Lemma move_construct_fact (b : sv) (ys : list V) :
  represents Capacity b ys -> fuse b = None ->
  exists a' b', move_construct moved Capacity b = Ok tt (a', b') /\
    represents Capacity a' ys /\ represents Capacity b' [].
Proof.
  intros Hb Hf. pose proof (represents_inv _ _ Hb) as Eb. rewrite Hf in Eb.
  destruct Hb as (_ & _ & Hcb & _).
  rewrite Eb. exists (repr ys None), (repr [] None).
  split; [now apply move_construct_spec|].
  split; apply represents_repr; simpl; lia.
Qed.

Lemma equal_fact (a b : sv) (xs ys : list V) eqb :
  represents Capacity a xs -> represents Capacity b ys ->
  fuse a = None -> fuse b = None ->
  (forall x y, eqb x y = true <-> x = y) ->
  exists r, equal eqb (a, b) = Ok r (a, b) /\ (r = true <-> xs = ys).
Proof.
  intros Ha Hb Hf Hg He. pose proof (represents_inv _ _ Ha) as Ea.
  pose proof (represents_inv _ _ Hb) as Eb. rewrite Hf in Ea. rewrite Hg in Eb. subst a b.
  now apply equal_spec.
Qed.

Lemma empty_erase_end_fact (s : sv) (xs : list V) :
  represents Capacity s xs ->
  erase_range moved Capacity (length xs) (length xs) s = Ok (length xs) s.
Proof.
  intros Hr. pose proof (represents_inv _ _ Hr) as E. destruct Hr as (_ & _ & Hc & _).
  rewrite E. unfold erase_range. rewrite erase_range_count by lia.
  rewrite Nat.ltb_irrefl, Nat.sub_diag. now apply shrink_at_zero_end.
Qed.

Lemma empty_erase_mid_fact (s : sv) (xs : list V) pos :
  represents Capacity s xs -> pos < length xs ->
  erase_range moved Capacity pos pos s = UB.
Proof.
  intros Hr Hp. pose proof (represents_inv _ _ Hr) as E. destruct Hr as (_ & _ & Hc & _).
  rewrite E. now apply erase_empty_ub.
Qed.

Lemma empty_insert_fact (s : sv) (xs : list V) pos x :
  represents Capacity s xs ->
  insert_n moved Capacity pos 0%N x s = Ok pos s /\
  insert_range moved Capacity pos [] s = Ok pos s.
Proof.
  intros (_ & Hs & Hc & _). pose proof cap_lt as Hlt.
  assert (E : grow_at moved Capacity pos 0%N s = Ok pos s).
  { unfold grow_at. rewrite bind_get. rewrite Hs. unfold throw_if, bind.
    rewrite N.add_0_r, N.mod_small by lia.
    replace (N.of_nat Capacity <? N.of_nat (length xs))%N with false; [reflexivity|].
    symmetry. apply N.ltb_ge. lia. }
  split.
  - unfold insert_n. erewrite bind_ok by exact E. reflexivity.
  - unfold insert_range. cbn [length]. erewrite bind_ok by exact E. reflexivity.
Qed.

Lemma over_capacity_fact (s : sv) (xs : list V) pos n v :
  represents Capacity s xs ->
  (n < two64)%N ->
  (N.of_nat Capacity < N.of_nat (length xs) + n)%N ->
  (N.of_nat (length xs) + n < two64)%N ->
  insert_n moved Capacity pos n (CopyOf v) s = Throw OutOfRange s.
Proof.
  intros Hr Hn Hc Hw. rewrite (represents_inv _ _ Hr).
  unfold insert_n. erewrite bind_throw; [reflexivity|]. now apply grow_at_full.
Qed.

Lemma over_capacity_wrap_fact (s : sv) (xs : list V) pos n v :
  represents Capacity s xs -> pos < length xs ->
  (N.of_nat Capacity < n)%N -> (n < two64)%N ->
  (two64 <= N.of_nat (length xs) + n)%N ->
  insert_n moved Capacity pos n (CopyOf v) s = UB.
Proof.
  intros Hr Hp Hn Hw Hv. rewrite (represents_inv _ _ Hr). destruct Hr as (_ & _ & Hc & _).
  pose proof cap_lt as Hlt.
  apply insert_wrap_ub; auto.
  replace (N.of_nat (length xs) + n)%N with (N.of_nat (length xs) + n - two64 + 1 * two64)%N by lia.
  rewrite N.mod_add by discriminate. rewrite N.mod_small by lia. lia.
Qed.

Lemma own_insert_fact (s : sv) (xs : list V) pos k :
  represents Capacity s xs -> fuse s = None ->
  pos <= length xs -> k < length xs -> length xs < Capacity ->
  (k < pos -> exists v s', nth_error xs k = Some v /\
     insert1 moved Capacity pos (CopyOwn k) s = Ok pos s' /\
     represents Capacity s' (insert_at xs pos [v])) /\
  (k = pos -> insert1 moved Capacity pos (CopyOwn k) s = UB) /\
  (pos < k -> exists w s', nth_error xs (k - 1) = Some w /\
     insert1 moved Capacity pos (CopyOwn k) s = Ok pos s' /\
     represents Capacity s' (insert_at xs pos [w])).
Proof.
  intros Hr Hf Hp Hk Hc. pose proof (represents_inv _ _ Hr) as E. rewrite Hf in E. subst s.
  pose proof (insert_own_spec xs pos k Hp Hk ltac:(lia)) as Hi.
  split; [|split].
  - intros Hlt. replace (k =? pos) with false in Hi by (symmetry; apply Nat.eqb_neq; lia).
    replace (k <? pos) with true in Hi by (symmetry; apply Nat.ltb_lt; lia).
    destruct (nth_error xs k) as [v|] eqn:Ev; [|apply nth_error_None in Ev; lia].
    exists v. eexists. split; [reflexivity|]. split; [exact Hi|].
    apply represents_repr. rewrite insert_at_length; simpl; lia.
  - intros ->. rewrite Nat.eqb_refl in Hi. exact Hi.
  - intros Hlt. replace (k =? pos) with false in Hi by (symmetry; apply Nat.eqb_neq; lia).
    replace (k <? pos) with false in Hi by (symmetry; apply Nat.ltb_ge; lia).
    destruct (nth_error xs (k - 1)) as [v|] eqn:Ev; [|apply nth_error_None in Ev; lia].
    exists v. eexists. split; [reflexivity|]. split; [exact Hi|].
    apply represents_repr. rewrite insert_at_length; simpl; lia.
Qed.

Lemma own_push_fact (s : sv) (xs : list V) k v :
  represents Capacity s xs -> fuse s = None ->
  nth_error xs k = Some v -> length xs < Capacity ->
  exists s', push_back Capacity (CopyOwn k) s = Ok tt s' /\ represents Capacity s' (xs ++ [v]).
Proof.
  intros Hr Hf Hk Hc. pose proof (represents_inv _ _ Hr) as E. rewrite Hf in E. subst s.
  exists (repr (xs ++ [v]) None). split; [|apply represents_repr; len].
  apply push_back_spec; auto.
Qed.

Lemma own_resize_fact (s : sv) (xs : list V) n k v :
  represents Capacity s xs -> fuse s = None ->
  nth_error xs k = Some v -> n <= Capacity ->
  exists s', resize_val moved Capacity n (CopyOwn k) s = Ok tt s' /\
    represents Capacity s' (resize_to xs n v).
Proof.
  intros Hr Hf Hk Hn. pose proof (represents_inv _ _ Hr) as E. rewrite Hf in E. subst s.
  destruct Hr as (_ & _ & Hc & _).
  exists (repr (resize_to xs n v) None). split; [|apply represents_repr; rewrite resize_to_length; lia].
  apply resize_val_spec; auto.
Qed.

Lemma valid_after_repr s : valid s -> usable Capacity s.
Proof.
  intros (xs & f & Hc & ->). exists xs. now apply represents_repr.
Qed.

Lemma exceptions_basic_fact (s : sv) (xs : list V) o :
  represents Capacity s xs -> call_ok xs o -> not_insert o ->
  leaves_usable Capacity (call moved dflt Capacity o s).
Proof.
  intros Hr Hok Hn. pose proof (represents_inv _ _ Hr) as E. destruct Hr as (_ & _ & Hc & _).
  rewrite E. pose proof (call_safe xs o (fuse s) Hc Hok Hn) as Hs.
  destruct (call moved dflt Capacity o (repr xs (fuse s))); simpl in *; auto;
    now apply valid_after_repr.
Qed.

Lemma push_back_strong_fact (s : sv) (xs : list V) v :
  represents Capacity s xs ->
  match push_back Capacity (CopyOf v) s with
  | Ok _ s' => represents Capacity s' (xs ++ [v])
  | Throw _ s' => represents Capacity s' xs
  | UB => False
  | Diverge => False
  end.
Proof.
  intros Hr. pose proof (represents_inv _ _ Hr) as E. destruct Hr as (_ & _ & Hc & _).
  rewrite E.
  destruct (push_back_exn xs (CopyOf v) v (fuse s) Hc eq_refl) as [(f' & -> & Hl)|(e & f' & ->)].
  - apply represents_repr. len.
  - now apply represents_repr.
Qed.

(** ** Insertions which throw *)

(** A slot below size() without an object: the vector cannot be destroyed. *)
Lemma destroy_range_raw (vs : list V) : forall (A B : list slot) fuel p e n f,
  p = length A -> p + length vs < e -> length vs < fuel ->
  destroy_range fuel p e (mkSv (A ++ map Live vs ++ Raw :: B) n f) = UB.
Proof.
  induction vs as [|v vs IH]; intros A B fuel p e n f Hp He Hf; cbn [length map app] in *;
    (destruct fuel as [|fuel]; [lia|]); cbn [destroy_range];
    replace (p =? e) with false by (symmetry; apply Nat.eqb_neq; lia).
  - apply bind_ub. unfold destroy; cbn [data]. now rewrite nth_error_app_mid.
  - erewrite bind_ok by (apply destroy_mid; exact Hp).
    replace (A ++ Raw :: map Live vs ++ Raw :: B) with ((A ++ [Raw]) ++ map Live vs ++ Raw :: B)
      by now rewrite <- app_assoc.
    apply IH; [len|lia|lia].
Qed.

Lemma hole_broken (vs : list V) (B : list slot) n f :
  length vs < n -> length vs < Capacity ->
  clear Capacity (mkSv (map Live vs ++ Raw :: B) n f) = UB /\
  ~ usable Capacity (mkSv (map Live vs ++ Raw :: B) n f).
Proof.
  intros Hn Hc. split.
  - unfold clear. rewrite bind_get. apply bind_ub. cbn [size].
    apply (destroy_range_raw vs []); cbn [length]; lia.
  - intros (xs & _ & Hs & _ & H). cbn [size data] in *. specialize (H (length vs) Hc).
    rewrite nth_error_app2 in H by len. rewrite map_length, Nat.sub_diag in H. cbn in H.
    destruct (nth_error xs (length vs)) eqn:E; [discriminate|]. apply nth_error_None in E. lia.
Qed.

Lemma copy_loop_throws (l : list V) : forall (A B : list slot) p n k,
  p = length A -> k < length l ->
  copy_loop p l (mkSv (A ++ repeat Raw (length l) ++ B) n (Some k)) =
  Throw ElemThrow (mkSv (A ++ map Live (firstn k l) ++ repeat Raw (length l - k) ++ B) n None).
Proof.
  induction l as [|v l IH]; intros A B p n k Hp Hk; cbn [length] in *; [lia|]. cbn [copy_loop].
  destruct k as [|k].
  - apply bind_throw. reflexivity.
  - cbn [repeat app firstn map]. erewrite bind_ok.
    2:{ cbn [construct]. erewrite bind_ok by reflexivity. unfold with_fuse; cbn [data size].
        now apply begin_life_mid. }
    replace (A ++ Live v :: repeat Raw (length l) ++ B)
      with ((A ++ [Live v]) ++ repeat Raw (length l) ++ B) by now rewrite <- app_assoc.
    rewrite IH by len. rewrite <- app_assoc. reflexivity.
Qed.

Lemma fill_loop_copies p (v : V) n s : fill_loop p (CopyOf v) n s = copy_loop p (repeat v n) s.
Proof.
  revert p s. induction n as [|n IH]; intros p s; cbn [fill_loop repeat copy_loop]; [reflexivity|].
  unfold bind. destruct (construct p (CopyOf v) s); auto.
Qed.

(** The shape of the state a throwing insertion leaves. *)
Lemma insert_hole (xs : list V) pos l k :
  pos <= length xs -> k < length l -> length xs + length l <= Capacity ->
  exists s', copy_loop pos l (gap xs pos (length l) (Some k)) = Throw ElemThrow s' /\
    clear Capacity s' = UB /\ ~ usable Capacity s'.
Proof.
  intros Hp Hk Hc. unfold gap. rewrite copy_loop_throws by len.
  eexists. split; [reflexivity|].
  destruct (length l - k) as [|d] eqn:Ed; [lia|]. cbn [repeat app].
  rewrite app_assoc, <- map_app. apply hole_broken; len.
Qed.

Lemma insert_exception_fact (s : sv) (xs : list V) pos l k :
  represents Capacity s xs -> fuse s = Some k ->
  pos <= length xs -> k < length l -> length xs + length l <= Capacity ->
  (exists s', insert_range moved Capacity pos l s = Throw ElemThrow s' /\
     clear Capacity s' = UB /\ ~ usable Capacity s') /\
  (forall v, l = repeat v (length l) ->
   exists s', insert_n moved Capacity pos (N.of_nat (length l)) (CopyOf v) s = Throw ElemThrow s' /\
     clear Capacity s' = UB /\ ~ usable Capacity s') /\
  (forall v, l = [v] ->
   exists s', insert1 moved Capacity pos (CopyOf v) s = Throw ElemThrow s' /\
     clear Capacity s' = UB /\ ~ usable Capacity s').
Proof.
  intros Hr Hf Hp Hk Hc. pose proof (represents_inv _ _ Hr) as E. rewrite Hf in E. rewrite E.
  destruct (insert_hole xs pos l k Hp Hk Hc) as (s' & E1 & U).
  split; [|split].
  - exists s'. split; [|exact U]. unfold insert_range.
    erewrite bind_ok by (apply grow_at_spec; assumption).
    now apply bind_throw.
  - intros v Hl. exists s'. split; [|exact U]. unfold insert_n.
    erewrite bind_ok by (apply grow_at_spec; assumption).
    apply bind_throw. rewrite Nat2N.id, fill_loop_copies, <- Hl. exact E1.
  - intros v ->. exists s'. split; [|exact U]. unfold insert1. cbn [length] in *.
    erewrite bind_ok.
    2:{ change 1%N with (N.of_nat 1). apply grow_at_spec; assumption. }
    apply bind_throw. revert E1. cbn [copy_loop]. unfold bind at 1.
    destruct (construct pos (CopyOf v) (gap xs pos 1 (Some k))); intros E1; try discriminate.
    injection E1 as -> ->. reflexivity.
Qed.

End Proofs.
