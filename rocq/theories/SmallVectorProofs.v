(** Proofs about the small_vector model. *)
From Coq Require Import List Arith NArith ZArith Bool Lia.
From Verif Require Import Base SeqSpec VecCommon SmallVectorModel SmallVectorSpec.
Import ListNotations.

Lemma upd_upd_same {A} (l : list A) i x y : upd (upd l i x) i y = upd l i y.
Proof. revert i; induction l as [|z l IH]; intros [|i]; simpl; auto. now rewrite IH. Qed.

Lemma upd_comm {A} (l : list A) i j x y :
  i <> j -> upd (upd l i x) j y = upd (upd l j y) i x.
Proof.
  revert i j; induction l as [|z l IH]; intros [|i] [|j] H; simpl; auto; [lia|].
  now rewrite IH by lia.
Qed.

Lemma nth_lt {A} (l : list A) i x : nth_error l i = Some x -> i < length l.
Proof. intros H. apply nth_error_Some. congruence. Qed.

Lemma bind_ret_inv {S} (m : M S unit) s s' :
  (m ;;; ret tt) s = Ok tt s' -> m s = Ok tt s'.
Proof. unfold bind, ret. destruct (m s) as [[]| | |]; congruence. Qed.

(** ** Growth policy *)
Lemma grow_cap_spec fuel : forall cap desired,
  (0 < cap)%N -> (3 * desired <= two64 - 1)%N -> (N.to_nat (desired - cap) <= fuel)%nat ->
  exists c, grow_cap fuel cap desired = Some c /\ (desired <= c)%N /\
    ((desired <= cap)%N -> c = cap) /\
    ((cap < desired)%N -> (c <= desired + desired / 2)%N).
Proof.
  induction fuel as [|fuel IH]; intros cap desired Hc Hd Hf; cbn [grow_cap].
  - replace (cap <? desired)%N with false by (symmetry; apply N.ltb_ge; lia).
    exists cap. repeat split; try lia.
  - destruct (N.ltb_spec cap desired) as [Hlt|Hge].
    + assert (Hs : ((((cap * 3) mod two64 + 1) mod two64) / 2 = (cap * 3 + 1) / 2)%N).
      { unfold two64 in *. rewrite (N.mod_small (cap * 3)) by lia.
        now rewrite N.mod_small by lia. }
      rewrite Hs.
      pose proof (N.div_mod (cap * 3 + 1) 2 ltac:(lia)) as E.
      pose proof (N.mod_lt (cap * 3 + 1) 2 ltac:(lia)) as E2.
      pose proof (N.div_mod desired 2 ltac:(lia)) as E3.
      pose proof (N.mod_lt desired 2 ltac:(lia)) as E4.
      set (c1 := ((cap * 3 + 1) / 2)%N) in *. clearbody c1.
      destruct (IH c1 desired) as (c & Hg & H1 & H2 & H3); [lia|lia|lia|].
      exists c. split; [exact Hg|]. split; [exact H1|]. split; [lia|].
      intros _. destruct (N.le_gt_cases desired c1) as [Hle|Hgt]; [|auto].
      rewrite (H2 Hle). clear -E E2 E3 E4 Hlt.
      set (r1 := ((cap * 3 + 1) mod 2)%N) in *. set (r2 := (desired mod 2)%N) in *.
      set (q := (desired / 2)%N) in *. clearbody r1 r2 q. lia.
    + exists cap. repeat split; lia.
Qed.

Lemma grow_cap_grows fuel : forall cap desired,
  (0 < cap)%N -> (3 * desired <= two64 - 1)%N -> (N.to_nat (desired - cap) <= fuel)%nat ->
  exists c, grow_cap fuel cap desired = Some c /\ grows cap desired c.
Proof.
  induction fuel as [|fuel IH]; intros cap desired Hc Hd Hf; cbn [grow_cap].
  - replace (cap <? desired)%N with false by (symmetry; apply N.ltb_ge; lia).
    exists cap. split; [reflexivity|]. constructor. lia.
  - destruct (N.ltb_spec cap desired) as [Hlt|Hge].
    + assert (Hs : ((((cap * 3) mod two64 + 1) mod two64) / 2 = (cap * 3 + 1) / 2)%N).
      { unfold two64 in *. rewrite (N.mod_small (cap * 3)) by lia.
        now rewrite N.mod_small by lia. }
      rewrite Hs.
      pose proof (N.div_mod (cap * 3 + 1) 2 ltac:(lia)) as E.
      pose proof (N.mod_lt (cap * 3 + 1) 2 ltac:(lia)) as E2.
      destruct (IH ((cap * 3 + 1) / 2)%N desired) as (c & Hg & H1).
      * set (c1 := ((cap * 3 + 1) / 2)%N) in *. clearbody c1. lia.
      * lia.
      * set (c1 := ((cap * 3 + 1) / 2)%N) in *. clearbody c1. lia.
      * exists c. split; [exact Hg|]. constructor; auto.
    + exists cap. split; [reflexivity|]. now constructor.
Qed.

Lemma growth_fact cap desired :
  (0 < cap)%N -> (3 * desired <= two64 - 1)%N ->
  exists c,
    (forall fuel, (N.to_nat (desired - cap) <= fuel)%nat -> grow_cap fuel cap desired = Some c) /\
    grows cap desired c /\ (desired <= c)%N /\
    ((desired <= cap)%N -> c = cap) /\
    ((cap < desired)%N -> (c <= desired + desired / 2)%N).
Proof.
  intros Hc Hd.
  destruct (grow_cap_grows (N.to_nat (desired - cap)) cap desired Hc Hd (le_n _)) as (c & E & G).
  exists c. split.
  - intros fuel Hf. destruct (grow_cap_grows fuel cap desired Hc Hd Hf) as (c2 & E2 & G2).
    rewrite E2. f_equal. clear - G G2. revert c2 G2. induction G; intros c2 G2; inversion G2; subst; auto; lia.
  - split; [exact G|].
    destruct (grow_cap_spec _ cap desired Hc Hd (le_n _)) as (c3 & E3 & R1 & R2 & R3).
    rewrite E in E3. injection E3 as <-. auto.
Qed.

Lemma growth_zero_fact desired fuel : (0 < desired)%N -> grow_cap fuel 0 desired = None.
Proof.
  intros H. induction fuel as [|fuel IH]; cbn [grow_cap];
    replace (0 <? desired)%N with true by (symmetry; now apply N.ltb_lt); [reflexivity|exact IH].
Qed.

Section Proofs.
Context {V : Type}.
Variable moved : V -> V.
Variable dflt : V.
Variable SC RB : nat.
Variable maxn : N.
Hypothesis HSC : 0 < SC.
Hypothesis HRB : RB <= SC + 1.
Hypothesis Hmax : (maxn < two63)%N.

Notation slot := (slot V).
Notation vec := (@vec V).
Notation block := (block V).

(** ** Storage steps *)
Lemma destroy_mid bs vb0 ve0 c f b i (A B : list slot) (v : V) :
  nth_error bs b = Some (Blk (A ++ Live v :: B)) -> i = length A ->
  destroy (b, i) (mkVec bs vb0 ve0 c f) =
  Ok tt (mkVec (upd bs b (Blk (A ++ Raw :: B))) vb0 ve0 c f).
Proof.
  intros H ->. unfold destroy, slot_at, put_slot, with_blocks; cbn [blocks vb ve vcap vfuse fst snd].
  rewrite H. rewrite nth_error_app_mid by reflexivity. now rewrite upd_app_mid.
Qed.

Lemma read_mid bs vb0 ve0 c f b i (A B : list slot) (v : V) :
  nth_error bs b = Some (Blk (A ++ Live v :: B)) -> i = length A ->
  read (b, i) (mkVec bs vb0 ve0 c f) = Ok v (mkVec bs vb0 ve0 c f).
Proof.
  intros H ->. unfold read, slot_at; cbn [blocks fst snd].
  rewrite H. now rewrite nth_error_app_mid.
Qed.

Lemma move_from_mid bs vb0 ve0 c f b i (A B : list slot) (v : V) :
  nth_error bs b = Some (Blk (A ++ Live v :: B)) -> i = length A ->
  move_from moved (b, i) (mkVec bs vb0 ve0 c f) =
  Ok v (mkVec (upd bs b (Blk (A ++ Live (moved v) :: B))) vb0 ve0 c f).
Proof.
  intros H ->. unfold move_from, slot_at, put_slot, with_blocks; cbn [blocks vb ve vcap vfuse fst snd].
  rewrite H. rewrite nth_error_app_mid by reflexivity. now rewrite upd_app_mid.
Qed.

Lemma begin_life_mid bs vb0 ve0 c f b i (A B : list slot) (v : V) :
  nth_error bs b = Some (Blk (A ++ Raw :: B)) -> i = length A ->
  begin_life (b, i) v (mkVec bs vb0 ve0 c f) =
  Ok tt (mkVec (upd bs b (Blk (A ++ Live v :: B))) vb0 ve0 c f).
Proof.
  intros H ->. unfold begin_life, slot_at, put_slot, with_blocks; cbn [blocks vb ve vcap vfuse fst snd].
  rewrite H. rewrite nth_error_app_mid by reflexivity. now rewrite upd_app_mid.
Qed.

Lemma construct_mid bs vb0 ve0 c b i (A B : list slot) (v : V) :
  nth_error bs b = Some (Blk (A ++ Raw :: B)) -> i = length A ->
  construct (b, i) (CopyOf v) (mkVec bs vb0 ve0 c None) =
  Ok tt (mkVec (upd bs b (Blk (A ++ Live v :: B))) vb0 ve0 c None).
Proof. intros H E. cbn [construct]. unfold tick, bind; cbn [vfuse]. now apply begin_life_mid. Qed.

(** Between two different blocks. *)
Lemma move_to_mid bs vb0 ve0 c f db di sb si (A B C D : list slot) (v : V) :
  db <> sb ->
  nth_error bs sb = Some (Blk (A ++ Live v :: B)) -> si = length A ->
  nth_error bs db = Some (Blk (C ++ Raw :: D)) -> di = length C ->
  move_to moved (db, di) (sb, si) (mkVec bs vb0 ve0 c f) =
  Ok tt (mkVec (upd (upd bs sb (Blk (A ++ Live (moved v) :: B))) db (Blk (C ++ Live v :: D)))
          vb0 ve0 c f).
Proof.
  intros Hne Hs -> Hd ->. unfold move_to.
  erewrite bind_ok by (eapply move_from_mid; eauto). cbn [construct].
  apply begin_life_mid; [|reflexivity]. rewrite nth_error_upd_neq by auto. exact Hd.
Qed.

Lemma destroy_from_spec (xs : list V) : forall bs vb0 ve0 c f b i k (A B : list slot),
  nth_error bs b = Some (Blk (A ++ map Live xs ++ B)) -> i = length A -> k = length xs ->
  destroy_from b i k (mkVec bs vb0 ve0 c f) =
  Ok tt (mkVec (upd bs b (Blk (A ++ repeat Raw (length xs) ++ B))) vb0 ve0 c f).
Proof.
  induction xs as [|x xs IH]; intros bs vb0 ve0 c f b i k A B H -> ->.
  - cbn [destroy_from length repeat map app] in *. now rewrite upd_nth_id by exact H.
  - cbn [destroy_from length]. cbn [map app] in H.
    erewrite bind_ok by (eapply destroy_mid; eauto).
    erewrite (IH _ _ _ _ _ _ _ _ (A ++ [Raw])).
    2:{ rewrite nth_error_upd_eq by (eapply nth_lt; eauto). rewrite <- app_assoc. reflexivity. }
    2:{ len. }
    2:{ reflexivity. }
    rewrite upd_upd_same. now rewrite <- app_assoc.
Qed.

Lemma move_range_spec (xs : list V) : forall bs vb0 ve0 c f db di sb si k (A B C D : list slot),
  db <> sb ->
  nth_error bs sb = Some (Blk (A ++ map Live xs ++ B)) -> si = length A ->
  nth_error bs db = Some (Blk (C ++ repeat Raw (length xs) ++ D)) -> di = length C ->
  k = length xs ->
  move_range moved db di sb si k (mkVec bs vb0 ve0 c f) =
  Ok tt (mkVec (upd (upd bs sb (Blk (A ++ map Live (map moved xs) ++ B)))
                    db (Blk (C ++ map Live xs ++ D))) vb0 ve0 c f).
Proof.
  induction xs as [|x xs IH]; intros bs vb0 ve0 c f db di sb si k A B C D Hne Hs -> Hd -> ->.
  - cbn [move_range length repeat map app] in *.
    rewrite (upd_nth_id _ _ _ Hs). now rewrite upd_nth_id by exact Hd.
  - cbn [move_range length]. cbn [map app repeat length] in Hs, Hd.
    pose proof (nth_lt _ _ _ Hs) as Ls. pose proof (nth_lt _ _ _ Hd) as Ld.
    erewrite bind_ok by (eapply move_to_mid; eauto).
    erewrite (IH _ _ _ _ _ _ _ _ _ _ (A ++ [Live (moved x)]) B (C ++ [Live x]) D).
    + rewrite upd_comm with (i := sb) by auto. rewrite upd_upd_same.
      rewrite upd_comm with (i := db) by auto. rewrite upd_upd_same.
      rewrite <- !app_assoc. cbn [map app]. reflexivity.
    + exact Hne.
    + rewrite nth_error_upd_neq by auto. rewrite nth_error_upd_eq by exact Ls.
      rewrite <- app_assoc. reflexivity.
    + len.
    + rewrite nth_error_upd_eq by (now rewrite upd_length).
      rewrite <- app_assoc. reflexivity.
    + len.
    + reflexivity.
Qed.

Lemma relocate_range_spec (xs : list V) : forall bs vb0 ve0 c f db di sb si k (A B C D : list slot),
  db <> sb ->
  nth_error bs sb = Some (Blk (A ++ map Live xs ++ B)) -> si = length A ->
  nth_error bs db = Some (Blk (C ++ repeat Raw (length xs) ++ D)) -> di = length C ->
  k = length xs ->
  relocate_range moved db di sb si k (mkVec bs vb0 ve0 c f) =
  Ok tt (mkVec (upd (upd bs sb (Blk (A ++ repeat Raw (length xs) ++ B)))
                    db (Blk (C ++ map Live xs ++ D))) vb0 ve0 c f).
Proof.
  induction xs as [|x xs IH]; intros bs vb0 ve0 c f db di sb si k A B C D Hne Hs -> Hd -> ->.
  - cbn [relocate_range length repeat map app] in *.
    rewrite (upd_nth_id _ _ _ Hs). now rewrite upd_nth_id by exact Hd.
  - cbn [relocate_range length]. cbn [map app repeat length] in Hs, Hd.
    pose proof (nth_lt _ _ _ Hs) as Ls. pose proof (nth_lt _ _ _ Hd) as Ld.
    erewrite bind_ok by (eapply move_to_mid; eauto).
    erewrite bind_ok.
    2:{ eapply destroy_mid; [|reflexivity]. rewrite nth_error_upd_neq by auto.
        rewrite nth_error_upd_eq by exact Ls. reflexivity. }
    erewrite (IH _ _ _ _ _ _ _ _ _ _ (A ++ [Raw]) B (C ++ [Live x]) D).
    + rewrite upd_upd_same. rewrite upd_comm with (i := sb) by auto. rewrite upd_upd_same.
      rewrite upd_comm with (i := db) by auto. rewrite upd_upd_same.
      rewrite <- !app_assoc. cbn [map app repeat]. reflexivity.
    + exact Hne.
    + rewrite nth_error_upd_eq by (now rewrite !upd_length).
      rewrite <- app_assoc. reflexivity.
    + len.
    + rewrite nth_error_upd_neq by auto. rewrite nth_error_upd_eq by (now rewrite !upd_length).
      rewrite <- app_assoc. reflexivity.
    + len.
    + reflexivity.
Qed.

(** Inside one block. *)
Lemma move_to_same bs vb0 ve0 c f b di si (A B B' C D : list slot) (v : V) :
  nth_error bs b = Some (Blk (A ++ Live v :: B)) -> si = length A ->
  A ++ Live (moved v) :: B = C ++ Raw :: D -> di = length C ->
  C ++ Live v :: D = B' ->
  move_to moved (b, di) (b, si) (mkVec bs vb0 ve0 c f) =
  Ok tt (mkVec (upd bs b (Blk B')) vb0 ve0 c f).
Proof.
  intros Hs -> E -> <-. unfold move_to.
  erewrite bind_ok by (eapply move_from_mid; eauto). cbn [construct].
  erewrite begin_life_mid.
  2:{ rewrite nth_error_upd_eq by (eapply nth_lt; eauto). rewrite E. reflexivity. }
  2:{ reflexivity. }
  now rewrite upd_upd_same.
Qed.

Lemma grow_loop_spec (mid : list V) : forall bs vb0 ve0 c f b (A T : list slot) position num k,
  nth_error bs b = Some (Blk (A ++ map Live mid ++ repeat Raw (S num) ++ T)) ->
  position = length A -> k = length mid ->
  grow_loop moved b position (S num) k (mkVec bs vb0 ve0 c f) =
  Ok tt (mkVec (upd bs b (Blk (A ++ repeat Raw (S num) ++ map Live mid ++ T))) vb0 ve0 c f).
Proof.
  induction mid as [|x mid IH] using rev_ind; intros bs vb0 ve0 c f b A T position num k H -> ->.
  - cbn [grow_loop length map app] in *. now rewrite upd_nth_id.
  - rewrite app_length. cbn [length]. rewrite Nat.add_1_r. cbn [grow_loop].
    rewrite map_app in H. cbn [map] in H.
    pose proof (nth_lt _ _ _ H) as L.
    erewrite bind_ok.
    2:{ eapply move_to_same with (A := A ++ map Live mid)
          (C := (A ++ map Live mid) ++ Live (moved x) :: repeat Raw num) (D := T)
          (B := repeat Raw (S num) ++ T).
        - rewrite H. rewrite <- !app_assoc. reflexivity.
        - len.
        - rewrite repeat_S_end. repeat (rewrite <- app_assoc; cbn [app]). reflexivity.
        - len.
        - reflexivity. }
    erewrite bind_ok.
    2:{ eapply destroy_mid with (A := A ++ map Live mid) (B := repeat Raw num ++ Live x :: T).
        - rewrite nth_error_upd_eq by exact L. rewrite <- !app_assoc. reflexivity.
        - len. }
    erewrite (IH _ _ _ _ _ _ A (Live x :: T)).
    + rewrite !upd_upd_same. do 4 f_equal. rewrite map_app, <- app_assoc. reflexivity.
    + rewrite nth_error_upd_eq by (now rewrite upd_length). rewrite <- !app_assoc. reflexivity.
    + reflexivity.
    + reflexivity.
Qed.

Lemma shrink_loop_spec (mid : list V) : forall bs vb0 ve0 c f b (A T : list slot) (gone : list V) p np k,
  gone <> [] ->
  nth_error bs b = Some (Blk (A ++ map Live gone ++ map Live mid ++ T)) ->
  p = length A -> np = p + length gone -> k = length mid ->
  exists rest : list V, length rest = length gone /\
  shrink_loop moved b p np k (mkVec bs vb0 ve0 c f) =
  Ok tt (mkVec (upd bs b (Blk (A ++ map Live mid ++ map Live rest ++ T))) vb0 ve0 c f).
Proof.
  induction mid as [|x mid IH]; intros bs vb0 ve0 c f b A T gone p np k Hg H -> -> ->.
  - exists gone. split; [reflexivity|]. cbn [shrink_loop length map app] in *.
    now rewrite upd_nth_id.
  - destruct gone as [|g gone]; [contradiction|].
    pose proof (nth_lt _ _ _ H) as L.
    cbn [length shrink_loop map app] in *.
    destruct (IH (upd bs b (Blk ((A ++ [Live x]) ++ map Live (gone ++ [moved x]) ++ map Live mid ++ T)))
                vb0 ve0 c f b (A ++ [Live x]) T (gone ++ [moved x])
                (S (length A)) (S (length A + S (length gone))) (length mid))
      as (rest & Hr & E).
    + destruct gone; discriminate.
    + now rewrite nth_error_upd_eq.
    + len.
    + len.
    + reflexivity.
    + exists rest. split; [rewrite Hr; len|].
      erewrite bind_ok by (eapply destroy_mid; eauto).
      erewrite bind_ok.
      2:{ eapply move_to_same with (A := A ++ Raw :: map Live gone) (B := map Live mid ++ T)
            (C := A) (D := map Live gone ++ Live (moved x) :: map Live mid ++ T) (v := x).
          - rewrite nth_error_upd_eq by exact L. rewrite <- !app_assoc. reflexivity.
          - len.
          - rewrite <- !app_assoc. reflexivity.
          - reflexivity.
          - reflexivity. }
      rewrite upd_upd_same.
      replace (A ++ Live x :: map Live gone ++ Live (moved x) :: map Live mid ++ T)
        with ((A ++ [Live x]) ++ map Live (gone ++ [moved x]) ++ map Live mid ++ T)
        by (rewrite map_app, <- !app_assoc; reflexivity).
      rewrite E. rewrite upd_upd_same. rewrite <- !app_assoc. reflexivity.
Qed.

Lemma copy_loop_spec (l : list V) : forall bs vb0 ve0 c b i (A B : list slot),
  nth_error bs b = Some (Blk (A ++ repeat Raw (length l) ++ B)) -> i = length A ->
  copy_loop b i l (mkVec bs vb0 ve0 c None) =
  Ok tt (mkVec (upd bs b (Blk (A ++ map Live l ++ B))) vb0 ve0 c None).
Proof.
  induction l as [|x l IH]; intros bs vb0 ve0 c b i A B H ->.
  - cbn [copy_loop length repeat map app] in *. now rewrite upd_nth_id.
  - pose proof (nth_lt _ _ _ H) as L.
    cbn [copy_loop]. cbn [length repeat app] in H.
    erewrite bind_ok by (eapply construct_mid; eauto).
    erewrite (IH _ _ _ _ _ _ (A ++ [Live x]) B).
    + rewrite upd_upd_same, <- app_assoc. reflexivity.
    + rewrite nth_error_upd_eq by exact L. rewrite <- app_assoc. reflexivity.
    + len.
Qed.

Lemma fill_loop_copies b i (v : V) k s :
  fill_loop b i (CopyOf v) k s = copy_loop b i (repeat v k) s.
Proof.
  revert i s; induction k as [|k IH]; intros i s; [reflexivity|].
  cbn [fill_loop copy_loop repeat]. unfold bind.
  destruct (construct (b, i) (CopyOf v) s); auto.
Qed.

(** ** Ownership of storage *)

(** The vector's current buffer is made of the slots [l]; its other storage is empty. *)
Definition owns (s : vec) (l : list slot) : Prop :=
  nth_error (blocks s) (vb s) = Some (Blk l) /\
  length l = vcap s /\
  (vb s = 0 -> vcap s = SC) /\
  (vb s <> 0 -> SC <= vcap s /\ nth_error (blocks s) 0 = Some (Blk (repeat Raw SC))) /\
  (forall j, j <> 0 -> j <> vb s -> j < length (blocks s) ->
     nth_error (blocks s) j = Some Freed).

Definition buf (c : nat) (xs : list V) : list slot := map Live xs ++ repeat Raw (c - length xs).

Lemma holds_owns (s : vec) (xs : list V) :
  holds SC s xs <->
  ve s = (vb s, length xs) /\ length xs <= vcap s /\ owns s (buf (vcap s) xs).
Proof.
  unfold holds, owns, buf. split.
  - intros (H1 & H2 & H3 & H4 & H5 & H6). repeat split; auto; try (now apply H5). len.
  - intros (H1 & H2 & H3 & H4 & H5 & H6 & H7). repeat split; auto; now apply H6.
Qed.

Lemma owns_upd (bs : list block) b e e' c f f' l l' :
  owns (mkVec bs b e c f) l -> length l' = length l ->
  owns (mkVec (upd bs b (Blk l')) b e' c f') l'.
Proof.
  unfold owns; cbn [blocks vb vcap]. intros (H1 & H2 & H3 & H4 & H5) Hl.
  pose proof (nth_lt _ _ _ H1) as L.
  split; [now apply nth_error_upd_eq|]. split; [congruence|]. split; [auto|]. split.
  - intros Hb. rewrite nth_error_upd_neq by auto. auto.
  - intros j Hj Hjb Hlt. rewrite upd_length in Hlt. rewrite nth_error_upd_neq by auto. auto.
Qed.

(** [db] is an empty buffer of capacity [c'] to move to from the current buffer [b]. *)
Definition target (bs : list block) (b db c' : nat) : Prop :=
  db <> b /\
  nth_error bs db = Some (Blk (repeat Raw c')) /\
  (db = 0 -> c' = SC) /\
  (db <> 0 -> SC <= c') /\
  (b <> 0 -> nth_error bs 0 = Some (Blk (repeat Raw SC))) /\
  (forall j, j <> 0 -> j <> b -> j <> db -> j < length bs -> nth_error bs j = Some Freed).

Lemma all_raw_repeat n : forallb (@is_raw V) (repeat Raw n) = true.
Proof. induction n; simpl; auto. Qed.

Lemma deallocate_spec (bs : list block) b vb0 e c0 f n :
  b <> 0 -> nth_error bs b = Some (Blk (repeat Raw n)) ->
  deallocate b n (mkVec bs vb0 e c0 f) = Ok tt (mkVec (upd bs b Freed) vb0 e c0 f).
Proof.
  intros Hb H. unfold deallocate; cbn [blocks]. destruct b as [|b]; [contradiction|].
  rewrite H. rewrite repeat_length, Nat.eqb_refl, all_raw_repeat. reflexivity.
Qed.

(** Leaving the old buffer, once its objects are gone. *)
Definition retired (bs : list block) (b : nat) : list block :=
  if b =? 0 then bs else upd bs b Freed.

Lemma retire_spec (bs : list block) b vb0 e c0 c f :
  nth_error bs b = Some (Blk (repeat Raw c)) ->
  (if b =? 0 then ret tt else deallocate b c) (mkVec bs vb0 e c0 f) =
  Ok tt (mkVec (retired bs b) vb0 e c0 f).
Proof.
  intros H. unfold retired. destruct (Nat.eqb_spec b 0) as [->|Hb]; [reflexivity|].
  now apply deallocate_spec.
Qed.

Lemma retired_owns bs bs' b c db c' l e f :
  target bs b db c' ->
  length bs' = length bs ->
  nth_error bs' b = Some (Blk (repeat Raw c)) -> (b = 0 -> c = SC) ->
  nth_error bs' db = Some (Blk l) -> length l = c' ->
  (forall j, j <> b -> j <> db -> nth_error bs' j = nth_error bs j) ->
  owns (mkVec (retired bs' b) db e c' f) l.
Proof.
  intros (T1 & T2 & T3 & T4 & T5 & T6) Hlen Hb Hc Hd Hl Ho.
  unfold owns, retired; cbn [blocks vb vcap].
  destruct (Nat.eqb_spec b 0) as [->|Hb0].
  - repeat split; auto.
    + now rewrite Hb, Hc.
    + intros j Hj Hjd Hlt. rewrite Ho by auto. apply T6; auto; congruence.
  - pose proof (nth_lt _ _ _ Hb) as L.
    repeat split; auto.
    + rewrite nth_error_upd_neq by auto. exact Hd.
    + rewrite nth_error_upd_neq by auto. rewrite Ho by auto. auto.
    + intros j Hj Hjd Hlt. rewrite upd_length in Hlt.
      destruct (Nat.eq_dec b j) as [<-|Hne]; [now apply nth_error_upd_eq|].
      rewrite nth_error_upd_neq by auto. rewrite Ho by auto. apply T6; auto. congruence.
Qed.

(** ** choose_data *)
Lemma room_bounds d : room maxn d -> (3 * N.of_nat d <= two64 - 1)%N /\ (N.of_nat d <= maxn)%N.
Proof.
  unfold room. intros H.
  pose proof (Nat.div_mod d 2 ltac:(lia)) as E. pose proof (Nat.mod_upper_bound d 2 ltac:(lia)).
  unfold two63, two64 in *. split; lia.
Qed.

Lemma choose_data_spec s l d :
  owns s l -> (vcap s < d -> room maxn d) ->
  (d <= vcap s /\ (vb s = 0 \/ RB <= d) /\
   choose_data SC RB maxn (N.of_nat d) s = Ok (vb s, vcap s) s) \/
  (exists db c' bs',
     choose_data SC RB maxn (N.of_nat d) s = Ok (db, c') (with_blocks bs' s) /\
     d <= c' /\ target bs' (vb s) db c' /\
     nth_error bs' (vb s) = nth_error (blocks s) (vb s) /\
     ((db = 0 /\ vb s <> 0 /\ d < RB /\ d <= vcap s) \/ (db <> 0 /\ vcap s < d))).
Proof.
  intros (H1 & H2 & H3 & H4 & H5) Hroom. destruct s as [bs b e c f].
  cbn [blocks vb vcap] in *. pose proof (nth_lt _ _ _ H1) as L.
  unfold choose_data. rewrite bind_get. unfold is_static; cbn [vb vcap].
  destruct (Nat.eqb_spec b 0) as [->|Hb]; cbn [negb].
  - rewrite (H3 eq_refl) in *.
    destruct (N.ltb_spec (N.of_nat SC) (N.of_nat d)) as [Hlt|Hge].
    + right. destruct (room_bounds d ltac:(apply Hroom; lia)) as [Hr1 Hr2].
      exists (length bs), d, (bs ++ [Blk (repeat Raw d)]).
      split.
      { erewrite bind_ok.
        2:{ unfold allocate. replace (maxn <? N.of_nat d)%N with false by (symmetry; apply N.ltb_ge; lia).
            reflexivity. }
        unfold ret, with_blocks; cbn [blocks vb ve vcap vfuse]. now rewrite Nat2N.id. }
      split; [lia|]. unfold target. repeat split; try lia.
      * now rewrite nth_error_app_mid.
      * intros j Hj _ Hjd Hlt'. rewrite app_length in Hlt'; cbn [length] in Hlt'.
        rewrite nth_error_app1 by lia. apply H5; lia.
      * now rewrite nth_error_app1.
    + left. repeat split; try lia; try reflexivity.
  - destruct (H4 Hb) as [Hsc H0]. pose proof (nth_lt _ _ _ H0) as L0.
    destruct (N.ltb_spec (N.of_nat c) (N.of_nat d)) as [Hlt|Hge].
    + right. pose proof (Hroom ltac:(lia)) as Hr. destruct (room_bounds d Hr) as [Hr1 Hr2].
      destruct (grow_cap_spec (S (N.to_nat (N.of_nat d))) (N.of_nat c) (N.of_nat d))
        as (g & Eg & G1 & G2 & G3); [lia|exact Hr1|lia|].
      rewrite Eg. specialize (G3 Hlt).
      assert (Hg : (g <= maxn)%N).
      { unfold room in Hr. pose proof (Nat2N.inj_div d 2) as Ed.
        change (N.of_nat 2) with 2%N in Ed. rewrite Nat2N.inj_add, Ed in Hr. lia. }
      exists (length bs), (N.to_nat g), (bs ++ [Blk (repeat Raw (N.to_nat g))]).
      split.
      { erewrite bind_ok.
        2:{ unfold allocate. replace (maxn <? g)%N with false by (symmetry; apply N.ltb_ge; lia).
            reflexivity. }
        reflexivity. }
      split; [lia|]. unfold target. repeat split; try lia.
      * now rewrite nth_error_app_mid.
      * intros _. now rewrite nth_error_app1.
      * intros j Hj Hjb Hjd Hlt'. rewrite app_length in Hlt'; cbn [length] in Hlt'.
        rewrite nth_error_app1 by lia. apply H5; lia.
      * now rewrite nth_error_app1.
    + destruct (N.ltb_spec (N.of_nat d) (N.of_nat RB)) as [Hr|Hr].
      * right. exists 0, SC, bs. split; [reflexivity|]. split; [lia|].
        unfold target. repeat split; auto; try lia.
      * left. repeat split; try lia; try reflexivity.
Qed.

Ltac nthu := repeat first
  [ rewrite nth_error_upd_eq by (rewrite ?upd_length; assumption)
  | rewrite nth_error_upd_neq by (first [assumption | congruence]) ].

Lemma msize_spec (s : vec) n : ve s = (vb s, n) -> msize s = Ok n s.
Proof. intros H. unfold msize. rewrite H. cbn [fst snd]. now rewrite Nat.eqb_refl. Qed.

(** ** grow_at *)

(** The buffer with a hole of [num] raw slots at [pos]. *)
Definition gapped (c : nat) (xs : list V) (pos num : nat) : list slot :=
  map Live (firstn pos xs) ++ repeat Raw num ++ map Live (skipn pos xs) ++
  repeat Raw (c - (length xs + num)).

Lemma grow_at_spec (s : vec) (xs : list V) pos num :
  holds SC s xs -> pos <= length xs -> room maxn (length xs + num) ->
  (num = 0 -> pos = length xs \/ ~ (vb s = 0 \/ RB <= length xs)) ->
  exists s',
    grow_at moved SC RB maxn (Z.of_nat pos) (N.of_nat num) s = Ok pos s' /\
    ve s' = (vb s', length xs + num) /\ length xs + num <= vcap s' /\
    owns s' (gapped (vcap s') xs pos num) /\
    vfuse s' = vfuse s /\
    ((length xs + num <= vcap s /\ (vb s = 0 \/ RB <= length xs + num)) ->
     vb s' = vb s /\ vcap s' = vcap s) /\
    ((vcap s < length xs + num \/ (vb s <> 0 /\ length xs + num < RB)) -> vb s' <> vb s).
Proof.
  intros H Hp Hroom Hz. apply holds_owns in H. destruct H as (He & Hc & Hown).
  unfold grow_at. erewrite bind_ok by (apply msize_spec; exact He).
  replace ((Z.of_nat pos <? 0) || (Z.of_nat (length xs) <? Z.of_nat pos))%Z with false
    by (symmetry; apply orb_false_iff; split; apply Z.ltb_ge; lia).
  erewrite bind_ok by reflexivity. rewrite bind_get. rewrite Nat2Z.id.
  assert (Hm : ((N.of_nat (length xs) + N.of_nat num) mod two64 = N.of_nat (length xs + num))%N).
  { destruct (room_bounds _ Hroom) as [Hr _]. rewrite <- Nat2N.inj_add.
    apply N.mod_small. unfold two64 in *. lia. }
  rewrite Hm. rewrite Nat2N.id.
  destruct (choose_data_spec s _ (length xs + num) Hown ltac:(auto))
    as [(Hd & Hstay & E)|(db & c' & bs' & E & Hd & HT & Hsame & Hcase)].
  - erewrite bind_ok by exact E. cbn [fst]. rewrite Nat.eqb_refl.
    destruct s as [bs b e c f]. cbn [blocks vb ve vcap vfuse] in *.
    unfold set_end at 1. erewrite bind_ok by reflexivity.
    unfold with_end; cbn [blocks vb ve vcap vfuse].
    assert (Hnth : nth_error bs b = Some (Blk (map Live (firstn pos xs) ++ map Live (skipn pos xs) ++
               repeat Raw num ++ repeat Raw (c - (length xs + num))))).
    { destruct Hown as (Hn & _). cbn [blocks vb] in Hn. rewrite Hn. unfold buf.
      rewrite <- (firstn_skipn pos xs) at 1. rewrite map_app, <- app_assoc.
      rewrite <- repeat_app. do 5 f_equal. lia. }
    pose proof (nth_lt _ _ _ Hnth) as L.
    destruct num as [|num].
    + destruct (Hz eq_refl) as [Hz'|Hz']; [|exfalso; lia]. rewrite Hz' in *. rewrite Nat.sub_diag. cbn [grow_loop].
      erewrite bind_ok by reflexivity.
      eexists. split; [reflexivity|]. cbn [blocks vb ve vcap vfuse].
      split; [reflexivity|]. split; [lia|]. split; [|split; [reflexivity|split; [auto|intros; exfalso; lia]]].
      replace (gapped c xs (length xs) 0) with (buf c xs); [exact Hown|].
      unfold gapped, buf. rewrite firstn_all, skipn_all, Nat.add_0_r. reflexivity.
    + erewrite bind_ok.
      2:{ apply grow_loop_spec with (mid := skipn pos xs) (A := map Live (firstn pos xs))
            (T := repeat Raw (c - (length xs + S num))); [exact Hnth|len|len]. }
      eexists. split; [reflexivity|]. cbn [blocks vb ve vcap vfuse].
      split; [reflexivity|]. split; [lia|]. split; [|split; [reflexivity|split; [auto|intros; exfalso; lia]]].
      unfold gapped. eapply owns_upd; [exact Hown|]. unfold buf. len.
  - erewrite bind_ok by exact E. cbn [fst snd].
    pose proof HT as (T1 & T2 & T3 & T4 & T5 & T6).
    replace (db =? vb s) with false by (symmetry; now apply Nat.eqb_neq).
    destruct s as [bs b e c f]. unfold with_blocks. cbn [blocks vb ve vcap vfuse] in *.
    destruct Hown as (Hn & Hl & O3 & O4 & O5). cbn [blocks vb ve vcap] in *.
    rewrite <- Hsame in Hn.
    pose proof (nth_lt _ _ _ Hn) as Lb. pose proof (nth_lt _ _ _ T2) as Ld.
    assert (T1' : b <> db) by congruence.
    set (x1 := firstn pos xs) in *. set (x2 := skipn pos xs) in *.
    assert (Hx : xs = x1 ++ x2) by (symmetry; apply firstn_skipn).
    assert (L1 : length x1 = pos) by (subst x1; len).
    assert (L2 : length x2 = length xs - pos) by (subst x2; len).
    erewrite bind_ok.
    2:{ apply move_range_spec with (xs := x1) (A := []) (C := [])
          (B := map Live x2 ++ repeat Raw (c - length xs)) (D := repeat Raw (c' - pos)).
        - exact T1.
        - rewrite Hn. unfold buf. rewrite Hx at 1. rewrite map_app, <- app_assoc. reflexivity.
        - reflexivity.
        - rewrite T2. cbn [app]. rewrite <- repeat_app. do 3 f_equal. lia.
        - reflexivity.
        - lia. }
    erewrite bind_ok.
    2:{ apply move_range_spec with (xs := x2) (A := map Live (map moved x1))
          (C := map Live x1 ++ repeat Raw num)
          (B := repeat Raw (c - length xs)) (D := repeat Raw (c' - (length xs + num))).
        - exact T1.
        - nthu. reflexivity.
        - len.
        - nthu. cbn [app]. rewrite <- app_assoc, <- !repeat_app. do 4 f_equal. lia.
        - len.
        - lia. }
    erewrite bind_ok.
    2:{ apply destroy_from_spec with (xs := map moved xs) (A := []) (B := repeat Raw (c - length xs)).
        - nthu. cbn [app]. rewrite Hx at 2. rewrite !map_app, <- !app_assoc. reflexivity.
        - reflexivity.
        - len. }
    unfold is_static; cbn [vb vcap].
    erewrite bind_ok.
    2:{ apply retire_spec with (c := c). nthu. cbn [app]. rewrite map_length, <- repeat_app.
        do 3 f_equal. lia. }
    unfold set_buf. erewrite bind_ok by reflexivity.
    eexists. split; [reflexivity|]. unfold with_buf. cbn [blocks vb ve vcap vfuse].
    split; [reflexivity|]. split; [exact Hd|]. split.
    + eapply retired_owns with (c := c); [exact HT| | | | | |].
      * now rewrite !upd_length.
      * nthu. cbn [app]. rewrite map_length, <- repeat_app. do 3 f_equal. lia.
      * exact O3.
      * nthu. unfold gapped. rewrite <- app_assoc. reflexivity.
      * unfold gapped. fold x1 x2. len.
      * intros j J1 J2. nthu. reflexivity.
    + split; [reflexivity|]. split; [|auto].
      intros [Hle Hor]. exfalso. destruct Hcase as [(?&?&?&?)|(?&?)]; lia.
Qed.

Lemma insert_at_length (xs l : list V) pos :
  pos <= length xs -> length (insert_at xs pos l) = length xs + length l.
Proof. intros H. unfold insert_at. len. Qed.

Lemma fill_gap (s : vec) (xs : list V) pos l :
  pos <= length xs -> vfuse s = None ->
  ve s = (vb s, length xs + length l) -> length xs + length l <= vcap s ->
  owns s (gapped (vcap s) xs pos (length l)) ->
  exists s', copy_loop (vb s) pos l s = Ok tt s' /\
    holds SC s' (insert_at xs pos l) /\ vfuse s' = None /\ vb s' = vb s /\ vcap s' = vcap s.
Proof.
  intros Hp Hf He Hc Hown. destruct s as [bs b e c f]. cbn [vb ve vcap vfuse] in *. subst f e.
  eexists. split.
  { apply copy_loop_spec with (A := map Live (firstn pos xs))
      (B := map Live (skipn pos xs) ++ repeat Raw (c - (length xs + length l))).
    - apply Hown.
    - len. }
  split; [|auto]. apply holds_owns. cbn [vb ve vcap]. rewrite insert_at_length by exact Hp.
  split; [reflexivity|]. split; [exact Hc|].
  replace (buf c (insert_at xs pos l)) with
    (map Live (firstn pos xs) ++ map Live l ++ map Live (skipn pos xs) ++
     repeat Raw (c - (length xs + length l))).
  - eapply owns_upd; [exact Hown|]. unfold gapped. len.
  - unfold buf, insert_at. rewrite !map_app, <- !app_assoc.
    do 4 f_equal. len.
Qed.

Lemma insert_range_spec (s : vec) (xs : list V) pos l :
  holds SC s xs -> vfuse s = None -> pos <= length xs ->
  room maxn (length xs + length l) -> (l = [] -> pos = length xs \/ ~ (vb s = 0 \/ RB <= length xs)) ->
  exists s', insert_range moved SC RB maxn (Z.of_nat pos) l s = Ok pos s' /\
    holds SC s' (insert_at xs pos l) /\ vfuse s' = None /\
    ((length xs + length l <= vcap s /\ (vb s = 0 \/ RB <= length xs + length l)) ->
     vb s' = vb s /\ vcap s' = vcap s).
Proof.
  intros H Hf Hp Hr Hz.
  destruct (grow_at_spec s xs pos (length l) H Hp Hr) as (s1 & E & G1 & G2 & G3 & G4 & G5 & G6).
  { intros E. apply Hz. now destruct l. }
  destruct (fill_gap s1 xs pos l Hp ltac:(congruence) G1 G2 G3) as (s2 & E2 & F1 & F2 & F3 & F4).
  exists s2. split.
  { unfold insert_range. erewrite bind_ok by exact E. rewrite bind_get.
    now erewrite bind_ok by exact E2. }
  split; [exact F1|]. split; [exact F2|]. intros Hs. specialize (G5 Hs). split; [rewrite F3|rewrite F4]; tauto.
Qed.

Lemma insert_n_spec (s : vec) (xs : list V) pos n v :
  holds SC s xs -> vfuse s = None -> pos <= length xs ->
  room maxn (length xs + n) -> (n = 0 -> pos = length xs \/ ~ (vb s = 0 \/ RB <= length xs)) ->
  exists s', insert_n moved SC RB maxn (Z.of_nat pos) (N.of_nat n) (CopyOf v) s = Ok pos s' /\
    holds SC s' (insert_at xs pos (repeat v n)) /\ vfuse s' = None.
Proof.
  intros H Hf Hp Hr Hz.
  destruct (grow_at_spec s xs pos n H Hp Hr Hz) as (s1 & E & G1 & G2 & G3 & G4 & G5 & G6).
  destruct (fill_gap s1 xs pos (repeat v n) Hp) as (s2 & E2 & F1 & F2 & F3 & F4);
    rewrite ?repeat_length; try assumption; try congruence.
  exists s2. split; [|auto].
  unfold insert_n. erewrite bind_ok by exact E. rewrite bind_get. rewrite Nat2N.id.
  rewrite (bind_ok _ _ _ tt s2); [reflexivity|]. now rewrite fill_loop_copies.
Qed.

Lemma insert1_spec (s : vec) (xs : list V) pos v :
  holds SC s xs -> vfuse s = None -> pos <= length xs -> room maxn (length xs + 1) ->
  exists s', insert1 moved SC RB maxn (Z.of_nat pos) (CopyOf v) s = Ok pos s' /\
    holds SC s' (insert_at xs pos [v]) /\ vfuse s' = None.
Proof.
  intros H Hf Hp Hr.
  destruct (grow_at_spec s xs pos 1 H Hp Hr ltac:(lia)) as (s1 & E & G1 & G2 & G3 & G4 & G5 & G6).
  destruct (fill_gap s1 xs pos [v] Hp) as (s2 & E2 & F1 & F2 & F3 & F4); try assumption; try congruence.
  exists s2. split; [|auto].
  unfold insert1. erewrite bind_ok by exact E. rewrite bind_get.
  rewrite (bind_ok _ _ _ tt s2); [reflexivity|].
  cbn [copy_loop] in E2. now apply bind_ret_inv in E2.
Qed.

Lemma push_back_spec (s : vec) (xs : list V) v :
  holds SC s xs -> vfuse s = None -> room maxn (length xs + 1) ->
  exists s', push_back moved SC RB maxn (CopyOf v) s = Ok tt s' /\
    holds SC s' (xs ++ [v]) /\ vfuse s' = None /\
    ((length xs + 1 <= vcap s /\ (vb s = 0 \/ RB <= length xs + 1)) ->
     vb s' = vb s /\ vcap s' = vcap s).
Proof.
  intros H Hf Hr.
  destruct (grow_at_spec s xs (length xs) 1 H (le_n _) Hr ltac:(lia)) as (s1 & E & G1 & G2 & G3 & G4 & G5 & G6).
  destruct (fill_gap s1 xs (length xs) [v] (le_n _)) as (s2 & E2 & F1 & F2 & F3 & F4); try assumption; try congruence.
  exists s2. split.
  - unfold push_back. erewrite bind_ok by (apply msize_spec; apply H).
    erewrite bind_ok by exact E. rewrite bind_get.
    cbn [copy_loop] in E2. now apply bind_ret_inv in E2.
  - split; [|split; [exact F2|]].
    + unfold insert_at in F1. rewrite firstn_all, skipn_all, app_nil_r in F1. exact F1.
    + intros Hs. specialize (G5 Hs). split; [rewrite F3|rewrite F4]; tauto.
Qed.

(** A position outside the vector. *)
Lemma grow_at_bad (s : vec) (xs : list V) position num :
  holds SC s xs -> (position < 0 \/ Z.of_nat (length xs) < position)%Z ->
  grow_at moved SC RB maxn position num s = Throw OutOfRange s.
Proof.
  intros H Hp. unfold grow_at. erewrite bind_ok by (apply msize_spec; apply H).
  replace ((position <? 0) || (Z.of_nat (length xs) <? position))%Z with true; [reflexivity|].
  symmetry. apply orb_true_iff. rewrite !Z.ltb_lt. lia.
Qed.

Lemma shrink_at_bad (s : vec) (xs : list V) position num :
  holds SC s xs ->
  (position < 0 \/ Z.of_nat (length xs) < position + Z.of_N num)%Z ->
  shrink_at moved SC RB maxn position num s = Throw OutOfRange s.
Proof.
  intros H Hp. unfold shrink_at. erewrite bind_ok by (apply msize_spec; apply H).
  replace ((position <? 0) || (Z.of_nat (length xs) <? position)
           || (Z.of_nat (length xs) <? position + Z.of_N num))%Z with true; [reflexivity|].
  symmetry. rewrite !orb_true_iff, !Z.ltb_lt. lia.
Qed.

(** ** Clearing and shrinking *)
Lemma destroy_all_spec (s : vec) (xs : list V) :
  holds SC s xs ->
  exists s', destroy_all s = Ok tt s' /\ owns s' (repeat Raw (vcap s)) /\
    vb s' = vb s /\ ve s' = ve s /\ vcap s' = vcap s /\ vfuse s' = vfuse s.
Proof.
  intros H. apply holds_owns in H. destruct H as (He & Hc & Hown).
  destruct s as [bs b e c f]. cbn [vb ve vcap vfuse] in *. subst e.
  unfold destroy_all. rewrite bind_get. cbn [ve vb fst snd]. rewrite Nat.eqb_refl.
  eexists. split.
  { apply destroy_from_spec with (xs := xs) (A := []) (B := repeat Raw (c - length xs)).
    - apply Hown.
    - reflexivity.
    - reflexivity. }
  cbn [vb ve vcap vfuse]. split; [|auto].
  cbn [app]. rewrite <- repeat_app. replace (length xs + (c - length xs)) with c by lia.
  eapply owns_upd; [exact Hown|]. unfold buf. len.
Qed.

Lemma owns_empty_holds (bs : list block) b c f :
  owns (mkVec bs b (b, 0) c f) (repeat Raw c) -> holds SC (mkVec bs b (b, 0) c f) [].
Proof.
  intros H. apply holds_owns. cbn [vb ve vcap length]. split; [reflexivity|]. split; [lia|].
  unfold buf. cbn [map app length]. now rewrite Nat.sub_0_r.
Qed.

(** Giving up an empty dynamic buffer and returning to the static one. *)
Lemma back_to_static (bs : list block) b e c f e' :
  b <> 0 -> owns (mkVec bs b e c f) (repeat Raw c) ->
  owns (mkVec (upd bs b Freed) 0 e' SC f) (repeat Raw SC).
Proof.
  intros Hb (O1 & O2 & O3 & O4 & O5). cbn [blocks vb vcap] in *. destruct (O4 Hb) as [_ O6].
  pose proof (nth_lt _ _ _ O1) as L.
  unfold owns; cbn [blocks vb vcap]. rewrite nth_error_upd_neq by auto.
  split; [exact O6|]. split; [len|]. split; [auto|]. split; [contradiction|].
  intros j J1 _ J3. rewrite upd_length in J3.
  destruct (Nat.eq_dec b j) as [<-|Hne]; [now apply nth_error_upd_eq|].
  rewrite nth_error_upd_neq by auto. auto.
Qed.

Lemma clear_spec (s : vec) (xs : list V) :
  holds SC s xs ->
  exists s', clear SC RB s = Ok tt s' /\ holds SC s' [] /\ vfuse s' = vfuse s /\
    (vb s' = vb s \/ vb s' = 0).
Proof.
  intros H. destruct (destroy_all_spec s xs H) as (s1 & E & O & B1 & B2 & B3 & B4).
  unfold clear. erewrite bind_ok by exact E. rewrite bind_get.
  destruct s1 as [bs b e c f]. cbn [vb ve vcap vfuse] in *. subst b c f.
  unfold is_static; cbn [vb vcap].
  destruct ((0 <? RB) && negb (vb s =? 0)) eqn:Ec.
  - apply andb_prop in Ec. destruct Ec as [_ Hb]. apply negb_true_iff, Nat.eqb_neq in Hb.
    erewrite bind_ok by (apply deallocate_spec; [exact Hb|apply O]).
    eexists. split; [reflexivity|]. unfold with_buf; cbn [blocks vb vfuse].
    split; [|auto]. apply owns_empty_holds. eapply back_to_static; eauto.
  - eexists. split; [reflexivity|]. unfold with_end; cbn [blocks vb vcap vfuse].
    split; [|auto]. now apply owns_empty_holds.
Qed.

Lemma destructor_spec (s : vec) (xs : list V) :
  holds SC s xs ->
  exists s', destructor s = Ok tt s' /\ all_released SC s'.
Proof.
  intros H. destruct (destroy_all_spec s xs H) as (s1 & E & O & B1 & B2 & B3 & B4).
  unfold destructor. erewrite bind_ok by exact E. rewrite bind_get.
  destruct s1 as [bs b e c f]. cbn [vb ve vcap vfuse] in *. subst b c f.
  unfold is_static; cbn [vb vcap].
  destruct (Nat.eqb_spec (vb s) 0) as [Hb|Hb].
  - eexists. split; [reflexivity|]. destruct O as (O1 & O2 & O3 & O4 & O5).
    cbn [blocks vb vcap] in *. rewrite Hb in *. rewrite O3 in O1 by auto. split; auto.
  - erewrite deallocate_spec; [|exact Hb|apply O].
    eexists. split; [reflexivity|].
    apply (back_to_static _ _ _ _ _ e) in O; [|exact Hb].
    destruct O as (O1 & O2 & O3 & O4 & O5). cbn [blocks vb vcap] in *. split; auto.
Qed.

Lemma erase_at_length (xs : list V) a b : a <= b -> b <= length xs ->
  length (erase_at xs a b) = length xs - (b - a).
Proof. intros H1 H2. unfold erase_at. len. Qed.

Lemma shrink_at_spec (s : vec) (xs : list V) pos num :
  holds SC s xs -> pos + num <= length xs ->
  (num = 0 -> pos = length xs \/ ~ (vb s = 0 \/ RB <= length xs)) ->
  exists s',
    shrink_at moved SC RB maxn (Z.of_nat pos) (N.of_nat num) s = Ok pos s' /\
    holds SC s' (erase_at xs pos (pos + num)) /\ vfuse s' = vfuse s.
Proof.
  intros H Hp Hz. pose proof H as H0. apply holds_owns in H. destruct H as (He & Hc & Hown).
  unfold shrink_at. erewrite bind_ok by (apply msize_spec; exact He).
  replace ((Z.of_nat pos <? 0) || (Z.of_nat (length xs) <? Z.of_nat pos)
           || (Z.of_nat (length xs) <? Z.of_nat pos + Z.of_N (N.of_nat num)))%Z with false
    by (symmetry; rewrite !orb_false_iff, !Z.ltb_ge; lia).
  erewrite bind_ok by reflexivity. rewrite bind_get. rewrite Nat2Z.id, Nat2N.id.
  destruct (Nat.eqb_spec (length xs - num) 0) as [E0|E0].
  { destruct (clear_spec s xs H0) as (s1 & E & H1 & F & _).
    exists s1. erewrite bind_ok by exact E. replace pos with 0 by lia.
    split; [reflexivity|]. split; [|exact F]. unfold erase_at.
    rewrite skipn_all2 by lia. exact H1. }
  set (x1 := firstn pos xs) in *. set (gone := firstn num (skipn pos xs)) in *.
  set (x2 := skipn (pos + num) xs) in *.
  assert (Hx : xs = x1 ++ gone ++ x2).
  { subst x1 gone x2. rewrite (firstn_skipn_split3 xs pos (pos + num)) at 1 by lia.
    do 3 f_equal. lia. }
  assert (L1 : length x1 = pos) by (subst x1; len).
  assert (Lg : length gone = num) by (subst gone; len).
  assert (L2 : length x2 = length xs - num - pos) by (subst x2; len).
  assert (Her : erase_at xs pos (pos + num) = x1 ++ x2) by reflexivity.
  destruct (choose_data_spec s _ (length xs - num) Hown ltac:(lia))
    as [(Hd & Hstay & E)|(db & c' & bs' & E & Hd & HT & Hsame & Hcase)].
  - erewrite bind_ok by exact E. cbn [fst]. rewrite Nat.eqb_refl.
    destruct s as [bs b e c f]. cbn [blocks vb ve vcap vfuse] in *.
    assert (Hnth : nth_error bs b = Some (Blk (map Live x1 ++ map Live gone ++ map Live x2 ++
                     repeat Raw (c - length xs)))).
    { destruct Hown as (Hn & _). cbn [blocks vb] in Hn. rewrite Hn. unfold buf.
      rewrite Hx at 1. rewrite !map_app, <- !app_assoc. reflexivity. }
    pose proof (nth_lt _ _ _ Hnth) as L.
    assert (HL : exists rest : list V, length rest = num /\
      shrink_loop moved b pos (pos + num) (length xs - (pos + num)) (mkVec bs b e c f) =
      Ok tt (mkVec (upd bs b (Blk (map Live x1 ++ map Live x2 ++ map Live rest ++
                     repeat Raw (c - length xs)))) b e c f)).
    { destruct num as [|num].
      - assert (Hz' : pos = length xs) by (destruct (Hz eq_refl); [assumption|exfalso; lia]).
        exists []. split; [reflexivity|].
        replace (length xs - (pos + 0)) with 0 by lia. cbn [shrink_loop].
        destruct gone; [|discriminate]. cbn [map app] in *. now rewrite upd_nth_id.
      - destruct (shrink_loop_spec x2 bs b e c f b (map Live x1) (repeat Raw (c - length xs)) gone
                    pos (pos + S num) (length xs - (pos + S num))) as (rest & Hr & Er);
          [destruct gone; discriminate|exact Hnth|len|lia|lia|].
        exists rest. split; [lia|exact Er]. }
    destruct HL as (rest & Hr & EL). erewrite bind_ok by exact EL.
    erewrite bind_ok.
    2:{ apply destroy_from_spec with (xs := rest) (A := map Live x1 ++ map Live x2)
          (B := repeat Raw (c - length xs)).
        - nthu. rewrite <- app_assoc. reflexivity.
        - len.
        - lia. }
    unfold set_end. erewrite bind_ok by reflexivity.
    eexists. split; [reflexivity|]. unfold with_end; cbn [blocks vb ve vcap vfuse].
    split; [|reflexivity]. apply holds_owns. cbn [vb ve vcap]. rewrite Her.
    rewrite app_length, L1, L2. split; [f_equal; lia|]. split; [lia|].
    rewrite upd_upd_same.
    replace (buf c (x1 ++ x2)) with
      ((map Live x1 ++ map Live x2) ++ repeat Raw (length rest) ++ repeat Raw (c - length xs)).
    + eapply owns_upd; [exact Hown|]. unfold buf. len.
    + unfold buf. rewrite map_app, <- repeat_app. do 2 f_equal. len.
  - erewrite bind_ok by exact E. cbn [fst snd].
    pose proof HT as (T1 & T2 & T3 & T4 & T5 & T6).
    replace (db =? vb s) with false by (symmetry; now apply Nat.eqb_neq).
    destruct Hcase as [(-> & Hb0 & Hlt & Hle)|(_ & ?)]; [|lia].
    rewrite (T3 eq_refl) in *. clear c' T3.
    destruct s as [bs b e c f]. unfold with_blocks. cbn [blocks vb ve vcap vfuse] in *.
    destruct Hown as (Hn & Hl & O3 & O4 & O5). cbn [blocks vb ve vcap] in *.
    rewrite <- Hsame in Hn.
    pose proof (nth_lt _ _ _ Hn) as Lb. pose proof (nth_lt _ _ _ T2) as Ld.
    assert (T1' : b <> 0) by congruence.
    erewrite bind_ok.
    2:{ apply relocate_range_spec with (xs := x1) (A := []) (C := [])
          (B := map Live gone ++ map Live x2 ++ repeat Raw (c - length xs))
          (D := repeat Raw (SC - pos)).
        - exact T1.
        - rewrite Hn. unfold buf. rewrite Hx at 1. rewrite !map_app, <- !app_assoc. reflexivity.
        - reflexivity.
        - rewrite T2. cbn [app]. rewrite <- repeat_app. do 3 f_equal. lia.
        - reflexivity.
        - lia. }
    erewrite bind_ok.
    2:{ apply destroy_from_spec with (xs := gone) (A := repeat Raw pos)
          (B := map Live x2 ++ repeat Raw (c - length xs)).
        - nthu. cbn [app]. rewrite L1. reflexivity.
        - len.
        - lia. }
    erewrite bind_ok.
    2:{ apply relocate_range_spec with (xs := x2) (A := repeat Raw pos ++ repeat Raw num)
          (C := map Live x1) (B := repeat Raw (c - length xs))
          (D := repeat Raw (SC - (length xs - num))).
        - exact T1.
        - nthu. rewrite Lg, <- app_assoc. reflexivity.
        - len.
        - nthu. cbn [app]. rewrite <- repeat_app. do 4 f_equal. lia.
        - len.
        - lia. }
    erewrite bind_ok.
    2:{ apply deallocate_spec with (n := c); [exact T1'|].
        nthu. rewrite <- !repeat_app. do 3 f_equal. lia. }
    unfold set_buf. erewrite bind_ok by reflexivity.
    eexists. split; [reflexivity|]. unfold with_buf; cbn [blocks vb ve vcap vfuse].
    split; [|reflexivity]. apply holds_owns. cbn [vb ve vcap]. rewrite Her.
    rewrite app_length, L1, L2. split; [f_equal; lia|]. split; [lia|].
    assert (HO : forall bs2 l, nth_error bs2 0 = Some (Blk l) -> length l = SC ->
      nth_error bs2 b = Some (Blk (repeat Raw c)) -> length bs2 = length bs' ->
      (forall j, j <> b -> j <> 0 -> nth_error bs2 j = nth_error bs' j) ->
      owns (mkVec (upd bs2 b Freed) 0 (0, length xs - num) SC f) l).
    { intros bs2 l P1 P2 P3 P4 P5.
      pose proof (retired_owns bs' bs2 b c 0 SC l (0, length xs - num) f HT P4 P3) as Q.
      unfold retired in Q. replace (b =? 0) with false in Q by (symmetry; now apply Nat.eqb_neq).
      apply Q; auto. }
    apply HO.
    + nthu. unfold buf. rewrite map_app, <- app_assoc. do 5 f_equal. len.
    + unfold buf. len.
    + nthu. rewrite <- !repeat_app. do 3 f_equal. lia.
    + now rewrite !upd_length.
    + intros j J1 J2. nthu. reflexivity.
Qed.

(** ** reserve, shrink_to_fit, revert_to_static *)

(** Moving the whole content to a new buffer. *)
Lemma relocate_all bs bs' b e c f db c' (xs : list V) e' :
  length xs <= c -> length xs <= c' ->
  nth_error bs' b = Some (Blk (buf c xs)) -> (b = 0 -> c = SC) ->
  target bs' b db c' ->
  bs = upd (upd bs' b (Blk (repeat Raw c))) db (Blk (buf c' xs)) ->
  (owns (mkVec (retired bs b) db e' c' f) (buf c' xs) /\
   nth_error bs b = Some (Blk (repeat Raw c))) /\
  (move_range moved db 0 b 0 (length xs) ;;; destroy_from b 0 (length xs)) (mkVec bs' b e c f) =
  Ok tt (mkVec bs b e c f).
Proof.
  intros Hc Hc' Hn Hb HT ->. pose proof HT as (T1 & T2 & T3 & T4 & T5 & T6).
  pose proof (nth_lt _ _ _ Hn) as Lb. pose proof (nth_lt _ _ _ T2) as Ld.
  assert (T1' : b <> db) by congruence.
  split; [split|].
  - eapply retired_owns with (c := c); [exact HT| | | | | |].
    + now rewrite !upd_length.
    + nthu. reflexivity.
    + exact Hb.
    + nthu. reflexivity.
    + unfold buf. len.
    + intros j J1 J2. nthu. reflexivity.
  - nthu. reflexivity.
  - erewrite bind_ok.
    2:{ apply move_range_spec with (xs := xs) (A := []) (C := [])
          (B := repeat Raw (c - length xs)) (D := repeat Raw (c' - length xs)).
        - exact T1.
        - exact Hn.
        - reflexivity.
        - rewrite T2. cbn [app]. rewrite <- repeat_app. do 3 f_equal. lia.
        - reflexivity.
        - reflexivity. }
    erewrite destroy_from_spec with (xs := map moved xs) (A := []) (B := repeat Raw (c - length xs)).
    + do 2 f_equal. rewrite upd_comm with (i := db) by exact T1. rewrite upd_upd_same.
      cbn [app]. unfold buf. rewrite map_length, <- repeat_app. do 4 f_equal. lia.
    + nthu. reflexivity.
    + reflexivity.
    + len.
Qed.

Lemma bind_assoc {S A B C} (m : M S A) (k : A -> M S B) (h : B -> M S C) s :
  bind (bind m k) h s = bind m (fun a => bind (k a) h) s.
Proof. unfold bind. destruct (m s); auto. Qed.

Lemma reserve_spec (s : vec) (xs : list V) n :
  holds SC s xs -> room maxn n ->
  exists s', reserve moved SC RB maxn (N.of_nat n) s = Ok tt s' /\ holds SC s' xs /\
    vfuse s' = vfuse s /\ n <= vcap s' /\ vcap s <= vcap s' /\
    (n <= vcap s -> s' = s) /\ (vcap s < n -> vb s' <> 0 /\ vb s' <> vb s).
Proof.
  intros H Hr. pose proof H as H0. apply holds_owns in H. destruct H as (He & Hc & Hown).
  unfold reserve. rewrite bind_get.
  destruct (N.leb_spec (N.of_nat n) (N.of_nat (vcap s))) as [Hle|Hgt].
  { exists s. split; [reflexivity|]. repeat split; auto; try apply H0; lia. }
  destruct (choose_data_spec s _ n Hown ltac:(auto))
    as [(Hd & Hstay & E)|(db & c' & bs' & E & Hd & HT & Hsame & Hcase)]; [lia|].
  destruct Hcase as [(_ & _ & _ & ?)|(Hdb & Hlt)]; [lia|].
  erewrite bind_ok by exact E. cbn [fst snd].
  destruct s as [bs b e c f]. unfold with_blocks. cbn [blocks vb ve vcap vfuse] in *. subst e.
  erewrite bind_ok by (apply msize_spec; reflexivity).
  destruct Hown as (Hn & Hl & O3 & O4 & O5). cbn [blocks vb ve vcap] in *.
  rewrite <- Hsame in Hn.
  destruct (relocate_all _ bs' b (b, length xs) c f db c' xs (db, length xs) Hc ltac:(lia) Hn O3 HT eq_refl)
    as ((Ho & Hraw) & Em).
  rewrite <- bind_assoc. erewrite bind_ok by exact Em.
  unfold is_static; cbn [vb vcap].
  erewrite bind_ok by (apply retire_spec; exact Hraw).
  eexists. split; [reflexivity|]. unfold with_buf; cbn [blocks vb ve vcap vfuse].
  split; [|repeat split; auto; try lia; apply HT].
  apply holds_owns. cbn [vb ve vcap]. split; [reflexivity|]. split; [lia|exact Ho].
Qed.

Lemma shrink_transfer_spec (xs : list V) : forall bs vb0 c f db di sb si k (A B C D : list slot),
  db <> sb ->
  nth_error bs sb = Some (Blk (A ++ map Live xs ++ B)) -> si = length A ->
  nth_error bs db = Some (Blk (C ++ repeat Raw (length xs) ++ D)) -> di = length C ->
  k = length xs ->
  shrink_transfer moved sb si k (mkVec bs vb0 (db, di) c f) =
  Ok tt (mkVec (upd (upd bs sb (Blk (A ++ repeat Raw (length xs) ++ B)))
                    db (Blk (C ++ map Live xs ++ D))) vb0 (db, di + length xs) c f).
Proof.
  induction xs as [|x xs IH]; intros bs vb0 c f db di sb si k A B C D Hne Hs -> Hd -> ->.
  - cbn [shrink_transfer length repeat map app] in *. rewrite Nat.add_0_r.
    rewrite (upd_nth_id _ _ _ Hs). now rewrite upd_nth_id by exact Hd.
  - cbn [shrink_transfer length]. cbn [map app repeat length] in Hs, Hd.
    pose proof (nth_lt _ _ _ Hs) as Ls. pose proof (nth_lt _ _ _ Hd) as Ld.
    assert (Hne' : sb <> db) by congruence.
    rewrite bind_get. cbn [ve fst snd].
    erewrite bind_ok by (eapply move_to_mid; eauto).
    unfold set_end at 1. erewrite bind_ok by reflexivity.
    unfold with_end; cbn [blocks vb ve vcap vfuse].
    erewrite bind_ok.
    2:{ eapply destroy_mid; [|reflexivity]. nthu. reflexivity. }
    erewrite (IH _ _ _ _ _ _ _ _ _ (A ++ [Raw]) B (C ++ [Live x]) D).
    + rewrite upd_upd_same. rewrite upd_comm with (i := sb) by auto. rewrite upd_upd_same.
      rewrite upd_comm with (i := db) by auto. rewrite upd_upd_same.
      rewrite <- !app_assoc. cbn [map app repeat]. do 3 f_equal. lia.
    + exact Hne.
    + nthu. rewrite <- app_assoc. reflexivity.
    + len.
    + nthu. rewrite <- app_assoc. reflexivity.
    + len.
    + reflexivity.
Qed.

Lemma shrink_to_fit_spec (s : vec) (xs : list V) :
  holds SC s xs -> room maxn (length xs) ->
  exists r s', shrink_to_fit moved SC maxn s = Ok r s' /\ holds SC s' xs /\ vfuse s' = vfuse s /\
    (r = false -> s' = s) /\
    (r = true <-> (vb s <> 0 /\ length xs <> vcap s)) /\
    (r = true -> (length xs < SC -> vb s' = 0) /\
                 (SC <= length xs -> vb s' <> 0 /\ vcap s' = length xs)).
Proof.
  clear dflt.
  intros H Hr. pose proof H as H0. apply holds_owns in H. destruct H as (He & Hc & Hown).
  unfold shrink_to_fit. erewrite bind_ok by (apply msize_spec; exact He). rewrite bind_get.
  destruct (Nat.eqb_spec (length xs) (vcap s)) as [Hf|Hf].
  { exists false, s. split; [reflexivity|].
    split; [exact H0|]. split; [reflexivity|]. split; [reflexivity|].
    split; [split; [discriminate|tauto]|discriminate]. }
  destruct s as [bs b e c f]. unfold is_static; cbn [blocks vb ve vcap vfuse] in *. subst e.
  destruct (Nat.eqb_spec b 0) as [Hb|Hb].
  { eexists false, _. split; [reflexivity|].
    split; [exact H0|]. split; [reflexivity|]. split; [reflexivity|].
    split; [split; [discriminate|tauto]|discriminate]. }
  destruct Hown as (Hn & Hl & O3 & O4 & O5). cbn [blocks vb ve vcap] in *.
  pose proof (nth_lt _ _ _ Hn) as Lb. destruct (O4 Hb) as [Hsc Hz].
  pose proof (nth_lt _ _ _ Hz) as Lz.
  assert (HB : exists db c' bs',
    (if length xs <? SC then set_buf 0 (0, 0) SC
     else let* b0 := allocate maxn (N.of_nat (length xs)) in set_buf b0 (b0, 0) (length xs))
      (mkVec bs b (b, length xs) c f) = Ok tt (mkVec bs' db (db, 0) c' f) /\
    target bs' b db c' /\ nth_error bs' b = nth_error bs b /\ length xs <= c' /\
    (length xs < SC -> db = 0) /\ (SC <= length xs -> db <> 0 /\ c' = length xs)).
  { destruct (Nat.ltb_spec (length xs) SC) as [Hlt|Hge].
    - exists 0, SC, bs. split; [reflexivity|]. split; [|repeat split; auto; lia].
      unfold target. repeat split; auto; lia.
    - exists (length bs), (length xs), (bs ++ [Blk (repeat Raw (length xs))]).
      destruct (room_bounds _ Hr) as [_ Hm].
      split.
      { erewrite bind_ok.
        2:{ unfold allocate. replace (maxn <? N.of_nat (length xs))%N with false
              by (symmetry; apply N.ltb_ge; lia). reflexivity. }
        unfold set_buf, with_buf, with_blocks; cbn [blocks vb ve vcap vfuse].
        rewrite Nat2N.id. reflexivity. }
      split; [|rewrite nth_error_app1 by lia; repeat split; auto; lia].
      unfold target. repeat split; try lia.
      + now rewrite nth_error_app_mid.
      + rewrite nth_error_app1 by lia. auto.
      + intros j J1 J2 J3 J4. rewrite app_length in J4; cbn [length] in J4.
        rewrite nth_error_app1 by lia. apply O5; auto. lia. }
  destruct HB as (db & c' & bs' & EB & HT & Hsame & Hle & D1 & D2).
  erewrite bind_ok by exact EB. rewrite <- Hsame in Hn.
  pose proof HT as (T1 & T2 & T3 & T4 & T5 & T6).
  assert (T1' : b <> db) by congruence.
  pose proof (nth_lt _ _ _ Hn) as Lb'. pose proof (nth_lt _ _ _ T2) as Ld.
  erewrite bind_ok.
  2:{ apply shrink_transfer_spec with (xs := xs) (A := []) (C := [])
        (B := repeat Raw (c - length xs)) (D := repeat Raw (c' - length xs)).
      - exact T1.
      - exact Hn.
      - reflexivity.
      - rewrite T2. cbn [app]. rewrite <- repeat_app. do 3 f_equal. lia.
      - reflexivity.
      - reflexivity. }
  erewrite bind_ok.
  2:{ apply deallocate_spec with (n := c); [exact Hb|].
      nthu. cbn [app]. rewrite <- repeat_app. do 3 f_equal. lia. }
  eexists true, _. split; [reflexivity|]. cbn [vfuse vb vcap].
  split; [|repeat split; auto; try discriminate; try (now apply D2)].
  apply holds_owns. cbn [vb ve vcap]. split; [reflexivity|]. split; [exact Hle|].
  destruct (relocate_all (upd (upd bs' b (Blk (repeat Raw c))) db (Blk (buf c' xs)))
              bs' b (b, 0) c f db c' xs (db, 0 + length xs) Hc Hle Hn O3 HT eq_refl)
    as ((Ho & _) & _).
  unfold retired in Ho. replace (b =? 0) with false in Ho by (symmetry; now apply Nat.eqb_neq).
  replace (repeat Raw c) with ([] ++ repeat (@Raw V) (length xs) ++ repeat Raw (c - length xs)) in Ho;
    [exact Ho|]. cbn [app]. rewrite <- repeat_app. f_equal. lia.
Qed.

Lemma revert_spec (s : vec) (xs : list V) :
  holds SC s xs -> room maxn (length xs) ->
  exists r s', revert_to_static moved SC maxn s = Ok r s' /\ holds SC s' xs /\ vfuse s' = vfuse s /\
    (r = true <-> (vb s = 0 \/ length xs <= SC)) /\
    (vb s' = 0 <-> (vb s = 0 \/ (length xs < SC))).
Proof.
  clear dflt.
  intros H Hr. unfold revert_to_static.
  erewrite bind_ok by (apply msize_spec; apply H). rewrite bind_get.
  unfold is_static. destruct (Nat.eqb_spec (vb s) 0) as [Hb|Hb].
  { exists true, s. split; [reflexivity|]. split; [exact H|]. split; [reflexivity|].
    split; split; auto. }
  destruct (Nat.ltb_spec SC (length xs)) as [Hlt|Hge].
  { exists false, s. split; [reflexivity|]. split; [exact H|]. split; [reflexivity|].
    split; (split; [discriminate || lia|lia]). }
  destruct (shrink_to_fit_spec s xs H Hr) as (r & s' & E & H1 & F & R1 & R2 & R3).
  erewrite bind_ok by exact E. exists true, s'. split; [reflexivity|].
  split; [exact H1|]. split; [exact F|]. split; [split; [lia|auto]|].
  destruct (Nat.eq_dec (length xs) (vcap s)) as [Ec|Ec].
  - assert (r = false) by (destruct r; [destruct (proj1 R2 eq_refl); contradiction|reflexivity]).
    rewrite (R1 H0). clear E H1. destruct H as (_ & _ & _ & _ & H5 & _). destruct (H5 Hb). split; lia.
  - assert (r = true) by tauto. destruct (R3 H0) as [Ra Rb].
    destruct (Nat.lt_ge_cases (length xs) SC) as [Hl|Hg].
    + split; auto.
    + destruct (Rb Hg). split; lia.
Qed.

(** ** assign *)
Lemma append_loop_spec (l : list V) : forall bs vb0 c db di (A B : list slot),
  nth_error bs db = Some (Blk (A ++ repeat Raw (length l) ++ B)) -> di = length A ->
  append_loop l (mkVec bs vb0 (db, di) c None) =
  Ok tt (mkVec (upd bs db (Blk (A ++ map Live l ++ B))) vb0 (db, di + length l) c None).
Proof.
  induction l as [|x l IH]; intros bs vb0 c db di A B H ->.
  - cbn [append_loop length repeat map app] in *. rewrite Nat.add_0_r. now rewrite upd_nth_id.
  - cbn [append_loop length]. cbn [length repeat app] in H.
    pose proof (nth_lt _ _ _ H) as L.
    rewrite bind_get. cbn [ve].
    erewrite bind_ok by (eapply construct_mid; eauto).
    rewrite bind_get. unfold set_end at 1. erewrite bind_ok by reflexivity.
    unfold with_end; cbn [blocks vb ve vcap vfuse fst snd].
    erewrite (IH _ _ _ _ _ (A ++ [Live x]) B).
    + rewrite upd_upd_same, <- app_assoc. cbn [map app]. do 3 f_equal. lia.
    + nthu. rewrite <- app_assoc. reflexivity.
    + len.
Qed.

(** From the state destroy_all leaves behind (m_end is stale). *)
Lemma assign_copy_spec (s : vec) (l : list V) :
  owns s (repeat Raw (vcap s)) -> vfuse s = None -> room maxn (length l) ->
  exists s', assign_copy SC RB maxn l s = Ok tt s' /\ holds SC s' l /\ vfuse s' = None.
Proof.
  intros Hown Hf Hr. unfold assign_copy.
  destruct (choose_data_spec s _ (length l) Hown ltac:(auto))
    as [(Hd & Hstay & E)|(db & c' & bs' & E & Hd & HT & Hsame & Hcase)].
  - erewrite bind_ok by exact E. cbn [fst snd].
    destruct s as [bs b e c f]. cbn [blocks vb ve vcap vfuse] in *. subst f.
    unfold set_end at 1. erewrite bind_ok by reflexivity.
    unfold with_end; cbn [blocks vb ve vcap vfuse].
    assert (Hn : nth_error bs b = Some (Blk ([] ++ repeat Raw (length l) ++ repeat Raw (c - length l)))).
    { destruct Hown as (Hn & _). cbn [blocks vb] in Hn. rewrite Hn. cbn [app].
      rewrite <- repeat_app. do 3 f_equal. lia. }
    erewrite bind_ok by (apply append_loop_spec; [exact Hn|reflexivity]).
    rewrite bind_get. unfold is_static; cbn [vb].
    rewrite Nat.eqb_refl, andb_false_r. erewrite bind_ok by reflexivity.
    rewrite bind_get. eexists. split; [reflexivity|].
    unfold with_buf; cbn [blocks vb ve vcap vfuse]. split; [|reflexivity].
    apply holds_owns. cbn [vb ve vcap]. split; [reflexivity|]. split; [exact Hd|].
    unfold buf. cbn [app]. eapply owns_upd; [exact Hown|]. len.
  - erewrite bind_ok by exact E. cbn [fst snd].
    pose proof HT as (T1 & T2 & T3 & T4 & T5 & T6).
    destruct s as [bs b e c f]. unfold with_blocks. cbn [blocks vb ve vcap vfuse] in *. subst f.
    destruct Hown as (Hn & Hl & O3 & O4 & O5). cbn [blocks vb ve vcap] in *.
    rewrite <- Hsame in Hn.
    pose proof (nth_lt _ _ _ Hn) as Lb. pose proof (nth_lt _ _ _ T2) as Ld.
    assert (T1' : b <> db) by congruence.
    unfold set_end at 1. erewrite bind_ok by reflexivity.
    unfold with_end; cbn [blocks vb ve vcap vfuse].
    erewrite bind_ok.
    2:{ apply append_loop_spec with (A := []) (B := repeat Raw (c' - length l)); [|reflexivity].
        rewrite T2. cbn [app]. rewrite <- repeat_app. do 3 f_equal. lia. }
    rewrite bind_get. unfold is_static; cbn [vb vcap].
    replace (b =? db) with false by (symmetry; now apply Nat.eqb_neq).
    rewrite andb_true_r.
    replace (if negb (b =? 0) then @deallocate V b c else ret tt)
      with (if b =? 0 then ret tt else @deallocate V b c) by (now destruct (b =? 0)).
    erewrite bind_ok by (apply retire_spec; nthu; exact Hn).
    rewrite bind_get. eexists. split; [reflexivity|].
    unfold with_buf; cbn [blocks vb ve vcap vfuse]. split; [|reflexivity].
    apply holds_owns. cbn [vb ve vcap]. split; [reflexivity|]. split; [exact Hd|].
    eapply retired_owns with (c := c); [exact HT| | | | | |].
    + now rewrite !upd_length.
    + nthu. exact Hn.
    + exact O3.
    + nthu. reflexivity.
    + unfold buf. len.
    + intros j J1 J2. nthu. reflexivity.
Qed.

Lemma assign_range_spec (s : vec) (xs : list V) l :
  holds SC s xs -> vfuse s = None -> room maxn (length l) ->
  exists s', assign_range SC RB maxn l s = Ok tt s' /\ holds SC s' l /\ vfuse s' = None.
Proof.
  intros H Hf Hr. destruct (destroy_all_spec s xs H) as (s1 & E & O & B1 & B2 & B3 & B4).
  unfold assign_range. erewrite bind_ok by exact E. rewrite <- B3 in O.
  apply assign_copy_spec; congruence.
Qed.

(** ** resize *)
Lemma cut_loop_spec k : forall bs b c f (ys zs : list V),
  length zs = k ->
  nth_error bs b = Some (Blk (buf c (ys ++ zs))) -> length (ys ++ zs) <= c ->
  cut_loop k (mkVec bs b (b, length ys + k) c f) =
  Ok tt (mkVec (upd bs b (Blk (buf c ys))) b (b, length ys) c f).
Proof.
  induction k as [|k IH]; intros bs b c f ys zs Hk H Hc.
  - destruct zs; [|discriminate]. rewrite app_nil_r in H. cbn [cut_loop].
    rewrite Nat.add_0_r. now rewrite upd_nth_id.
  - destruct (list_snoc_cases zs) as [->|(zs' & z & ->)]; [discriminate|].
    rewrite app_length in Hk. cbn [length] in Hk.
    pose proof (nth_lt _ _ _ H) as L.
    cbn [cut_loop]. rewrite bind_get. cbn [ve fst snd].
    unfold set_end at 1. erewrite bind_ok by reflexivity.
    unfold with_end; cbn [blocks vb ve vcap vfuse].
    replace (length ys + S k - 1) with (length ys + k) by lia.
    erewrite bind_ok.
    2:{ eapply destroy_mid with (A := map Live (ys ++ zs')) (B := repeat Raw (c - length (ys ++ zs' ++ [z]))).
        - rewrite H. unfold buf. rewrite app_assoc, map_app, <- app_assoc. cbn [map app].
          rewrite <- app_assoc. reflexivity.
        - len. }
    erewrite (IH _ _ _ _ ys zs').
    + now rewrite upd_upd_same.
    + lia.
    + nthu. unfold buf. f_equal. f_equal. f_equal.
      change (Raw :: repeat Raw (c - length (ys ++ zs' ++ [z])))
        with (repeat (@Raw V) (S (c - length (ys ++ zs' ++ [z])))).
      f_equal. revert Hc. rewrite !app_length. cbn [length]. lia.
    + revert Hc. rewrite !app_length. lia.
Qed.

Lemma extend_loop_spec k : forall bs b c (v : V) (xs : list V),
  length xs + k <= c ->
  nth_error bs b = Some (Blk (buf c xs)) ->
  extend_loop k (CopyOf v) (mkVec bs b (b, length xs) c None) =
  Ok tt (mkVec (upd bs b (Blk (buf c (xs ++ repeat v k)))) b (b, length xs + k) c None).
Proof.
  induction k as [|k IH]; intros bs b c v xs Hc H.
  - cbn [extend_loop repeat]. rewrite app_nil_r, Nat.add_0_r. now rewrite upd_nth_id.
  - pose proof (nth_lt _ _ _ H) as L.
    cbn [extend_loop]. rewrite bind_get. cbn [ve fst snd].
    unfold set_end at 1. erewrite bind_ok by reflexivity.
    unfold with_end; cbn [blocks vb ve vcap vfuse].
    erewrite bind_ok.
    2:{ eapply construct_mid with (A := map Live xs) (B := repeat Raw (c - length xs - 1)).
        - rewrite H. unfold buf. destruct (c - length xs) as [|d] eqn:E; [lia|].
          cbn [repeat]. do 4 f_equal. f_equal. lia.
        - len. }
    replace (S (length xs)) with (length (xs ++ [v])) by len.
    rewrite IH.
    + rewrite upd_upd_same, <- app_assoc. cbn [app repeat]. do 3 f_equal. len.
    + len.
    + nthu. unfold buf. rewrite map_app, <- app_assoc. cbn [map app]. do 5 f_equal. len.
Qed.

Lemma resize_val_spec (s : vec) (xs : list V) n v :
  holds SC s xs -> vfuse s = None -> room maxn n ->
  exists s', resize_val moved SC RB maxn (N.of_nat n) (CopyOf v) s = Ok tt s' /\
    holds SC s' (resize_to xs n v) /\ vfuse s' = None.
Proof.
  intros H Hf Hr. destruct (reserve_spec s xs n H Hr) as (s1 & E & H1 & F1 & C1 & _).
  unfold resize_val. erewrite bind_ok by exact E.
  erewrite bind_ok by (apply msize_spec; apply H1). rewrite Nat2N.id.
  apply holds_owns in H1. destruct H1 as (He & Hc & Hown).
  destruct s1 as [bs b e c f]. cbn [blocks vb ve vcap vfuse] in *. subst e. rewrite Hf in F1. subst f.
  pose proof Hown as (Hn & Hl & _). cbn [blocks vb] in Hn.
  pose proof (nth_lt _ _ _ Hn) as L.
  set (ys := firstn n xs).
  assert (E2 : cut_loop (length xs - n) (mkVec bs b (b, length xs) c None) =
    Ok tt (mkVec (upd bs b (Blk (buf c ys))) b (b, length ys) c None)).
  { replace (length xs) with (length ys + (length xs - n)) at 2 by (subst ys; len).
    apply cut_loop_spec with (zs := skipn n xs).
    - len.
    - subst ys. rewrite firstn_skipn. exact Hn.
    - subst ys. now rewrite firstn_skipn. }
  erewrite bind_ok by exact E2.
  erewrite bind_ok by (apply msize_spec; reflexivity).
  rewrite extend_loop_spec; [|subst ys; len|nthu; reflexivity].
  eexists. split; [reflexivity|]. split; [|reflexivity].
  assert (Er : ys ++ repeat v (n - length ys) = resize_to xs n v).
  { unfold resize_to. subst ys. f_equal. f_equal. len. }
  apply holds_owns. cbn [vb ve vcap]. rewrite <- Er.
  split; [f_equal; len|]. split; [subst ys; len|].
  rewrite upd_upd_same. eapply owns_upd; [exact Hown|]. unfold buf. subst ys. len.
Qed.

(** ** One call *)
Lemma holds_init : holds SC (init_vec SC) (@nil V).
Proof.
  unfold holds, init_vec. cbn [blocks vb ve vcap length nth_error map app].
  rewrite Nat.sub_0_r.
  split; [reflexivity|]. split; [lia|]. split; [reflexivity|]. split; [reflexivity|].
  split; [congruence|]. intros j Hj _ Hl. lia.
Qed.

Lemma call_spec (s : vec) (xs : list V) o :
  holds SC s xs -> vfuse s = None -> small_ok maxn xs o ->
  exists s',
    observe (call moved dflt SC RB maxn o s) = Some (s', snd (small_step dflt xs o)) /\
    holds SC s' (fst (small_step dflt xs o)) /\ vfuse s' = None.
Proof.
  intros H Hf Hok. destruct o as [o|n| |].
  - destruct o as [v| |pos v|pos n v|pos l|pos|first last|n|n v| |n v|l];
      cbn [call small_step valid_pos spec_step fits fst snd small_ok] in *.
    + destruct (push_back_spec s xs v H Hf Hok) as (s' & E & H1 & F1 & _).
      exists s'. unfold no_answer. erewrite bind_ok by exact E. auto.
    + destruct (list_snoc_cases xs) as [->|(ys & y & ->)].
      * exists s. unfold no_answer, pop_back.
        erewrite bind_throw; [split; [reflexivity|auto]|].
        erewrite bind_ok by (apply msize_spec; apply H).
        erewrite bind_throw; [reflexivity|]. eapply shrink_at_bad; [exact H|]. cbn. lia.
      * destruct (shrink_at_spec s (ys ++ [y]) (length ys) 1 H) as (s' & E & H1 & F1); [len|lia|].
        assert (E2 : fst (match ys ++ [y] with [] => (ys ++ [y], RThrow OutOfRange)
                     | _ :: _ => (removelast (ys ++ [y]), RNone) end) = ys /\
                snd (match ys ++ [y] with [] => (ys ++ [y], RThrow OutOfRange)
                     | _ :: _ => (removelast (ys ++ [y]), RNone) end) = RNone).
        { rewrite removelast_last. now destruct ys. }
        destruct E2 as [-> ->]. exists s'.
        unfold no_answer, pop_back. split.
        { erewrite bind_ok; [reflexivity|].
          erewrite bind_ok by (apply msize_spec; apply H).
          replace (Z.of_nat (length (ys ++ [y])) - 1)%Z with (Z.of_nat (length ys)) by (len; lia).
          change 1%N with (N.of_nat 1). erewrite bind_ok by exact E. reflexivity. }
        split; [|congruence].
        unfold erase_at in H1. rewrite firstn_app, Nat.sub_diag, firstn_all in H1.
        cbn [firstn] in H1. rewrite skipn_all2 in H1 by len. rewrite !app_nil_r in H1. exact H1.
    + destruct (Nat.leb_spec pos (length xs)) as [Hp|Hp]; cbn [fst snd].
      * destruct (insert1_spec s xs pos v H Hf Hp Hok) as (s' & E & H1 & F1).
        exists s'. unfold position_answer. erewrite bind_ok by exact E. auto.
      * exists s. unfold position_answer, insert1.
        erewrite bind_throw; [split; [reflexivity|auto]|].
        erewrite bind_throw; [reflexivity|]. eapply grow_at_bad; [exact H|lia].
    + destruct Hok as [Hr Hz].
      destruct (Nat.leb_spec pos (length xs)) as [Hp|Hp]; cbn [fst snd].
      * destruct (insert_n_spec s xs pos n v H Hf Hp Hr) as (s' & E & H1 & F1).
        { intros Hn. specialize (Hz Hn). lia. }
        exists s'. unfold position_answer. erewrite bind_ok by exact E. auto.
      * exists s. unfold position_answer, insert_n.
        erewrite bind_throw; [split; [reflexivity|auto]|].
        erewrite bind_throw; [reflexivity|]. eapply grow_at_bad; [exact H|lia].
    + destruct Hok as [Hr Hz].
      destruct (Nat.leb_spec pos (length xs)) as [Hp|Hp]; cbn [fst snd].
      * destruct (insert_range_spec s xs pos l H Hf Hp Hr) as (s' & E & H1 & F1 & _).
        { intros Hn. specialize (Hz Hn). lia. }
        exists s'. unfold position_answer. erewrite bind_ok by exact E. auto.
      * exists s. unfold position_answer, insert_range.
        erewrite bind_throw; [split; [reflexivity|auto]|].
        erewrite bind_throw; [reflexivity|]. eapply grow_at_bad; [exact H|lia].
    + destruct (Nat.ltb_spec pos (length xs)) as [Hp|Hp]; cbn [fst snd].
      * destruct (shrink_at_spec s xs pos 1 H) as (s' & E & H1 & F1); [lia|lia|].
        exists s'. unfold position_answer, erase. change 1%N with (N.of_nat 1).
        erewrite bind_ok by exact E. rewrite Nat.add_1_r in H1. split; [auto|]. split; [auto|congruence].
      * exists s. unfold position_answer, erase.
        erewrite bind_throw; [split; [reflexivity|auto]|].
        eapply shrink_at_bad; [exact H|lia].
    + unfold erase_range. destruct (Nat.ltb_spec last first) as [Hlf|Hlf]; cbn [orb fst snd].
      * exists s. unfold position_answer.
        erewrite bind_throw; [split; [reflexivity|auto]|].
        replace (Z.of_nat last <? Z.of_nat first)%Z with true by (symmetry; apply Z.ltb_lt; lia).
        erewrite bind_throw; reflexivity.
      * replace (Z.of_nat last <? Z.of_nat first)%Z with false by (symmetry; apply Z.ltb_ge; lia).
        replace (Z.to_N (Z.of_nat last - Z.of_nat first)) with (N.of_nat (last - first)) by lia.
        destruct (Nat.leb_spec last (length xs)) as [Hp|Hp]; cbn [fst snd].
        -- destruct (shrink_at_spec s xs first (last - first) H) as (s' & E & H1 & F1); [lia|lia|].
           exists s'. unfold position_answer. erewrite bind_ok.
           2:{ erewrite bind_ok by reflexivity. exact E. }
           replace (first + (last - first)) with last in H1 by lia.
           split; [reflexivity|]. split; [exact H1|congruence].
        -- exists s. unfold position_answer.
           erewrite bind_throw; [split; [reflexivity|auto]|].
           erewrite bind_ok by reflexivity.
           eapply shrink_at_bad; [exact H|lia].
    + destruct (resize_val_spec s xs n dflt H Hf Hok) as (s' & E & H1 & F1).
      exists s'. unfold no_answer, resize. erewrite bind_ok by exact E. auto.
    + destruct (resize_val_spec s xs n v H Hf Hok) as (s' & E & H1 & F1).
      exists s'. unfold no_answer. erewrite bind_ok by exact E. auto.
    + destruct (clear_spec s xs H) as (s' & E & H1 & F1 & _).
      exists s'. unfold no_answer. erewrite bind_ok by exact E.
      split; [reflexivity|]. split; [exact H1|congruence].
    + destruct (assign_range_spec s xs (repeat v n) H Hf) as (s' & E & H1 & F1);
        [now rewrite repeat_length|].
      exists s'. unfold no_answer. change (assign_n SC RB maxn n v) with (assign_range SC RB maxn (repeat v n)).
      erewrite bind_ok by exact E. auto.
    + destruct (assign_range_spec s xs l H Hf Hok) as (s' & E & H1 & F1).
      exists s'. unfold no_answer. erewrite bind_ok by exact E. auto.
  - destruct (reserve_spec s xs n H Hok) as (s' & E & H1 & F1 & _).
    exists s'. cbn [call]. unfold no_answer. erewrite bind_ok by exact E.
    split; [reflexivity|]. split; [exact H1|congruence].
  - destruct (shrink_to_fit_spec s xs H Hok) as (r & s' & E & H1 & F1 & _).
    exists s'. cbn [call]. unfold no_answer. erewrite bind_ok by exact E.
    split; [reflexivity|]. split; [exact H1|congruence].
  - destruct (revert_spec s xs H Hok) as (r & s' & E & H1 & F1 & _).
    exists s'. cbn [call]. unfold no_answer. erewrite bind_ok by exact E.
    split; [reflexivity|]. split; [exact H1|congruence].
Qed.

(** ** Two vectors *)

Lemma read_from_spec (xs : list V) : forall s b i k (A B : list slot),
  nth_error (blocks s) b = Some (Blk (A ++ map Live xs ++ B)) -> i = length A -> k = length xs ->
  read_from b i k s = Ok xs s.
Proof.
  induction xs as [|x xs IH]; intros s b i k A B H -> ->; cbn [length read_from]; [reflexivity|].
  erewrite bind_ok.
  2:{ destruct s as [bs b0 e c f]. cbn [blocks] in H. cbn [map app] in H.
      eapply read_mid; eauto. }
  erewrite bind_ok by (apply IH with (A := A ++ [Live x]) (B := B);
    [rewrite H, <- app_assoc; reflexivity | len | reflexivity]).
  reflexivity.
Qed.

Lemma read_all_spec (s : vec) (xs : list V) : holds SC s xs -> read_all s = Ok xs s.
Proof.
  intros H. unfold read_all. erewrite bind_ok by (apply msize_spec; apply H).
  rewrite bind_get. destruct H as (_ & _ & H & _).
  eapply read_from_spec with (A := []); [exact H|reflexivity|reflexivity].
Qed.

Lemma onL_ok {S A} (m : M S A) a b r a' : m a = Ok r a' -> onL m (a, b) = Ok r (a', b).
Proof. intros H. unfold onL; cbn [fst snd]. now rewrite H. Qed.
Lemma onR_ok {S A} (m : M S A) a b r b' : m b = Ok r b' -> onR m (a, b) = Ok r (a, b').
Proof. intros H. unfold onR; cbn [fst snd]. now rewrite H. Qed.

Lemma copy_assign_spec (a b : vec) (xs ys : list V) :
  holds SC a xs -> vfuse a = None -> holds SC b ys -> room maxn (length ys) ->
  exists a', copy_assign SC RB maxn (a, b) = Ok tt (a', b) /\ holds SC a' ys /\ vfuse a' = None.
Proof.
  intros Ha Hf Hb Hr. unfold copy_assign.
  destruct (destroy_all_spec a xs Ha) as (s1 & E & O & B1 & B2 & B3 & B4).
  erewrite bind_ok by (apply onL_ok; exact E).
  erewrite bind_ok by (apply onR_ok; apply read_all_spec; exact Hb).
  rewrite <- B3 in O.
  destruct (assign_copy_spec s1 ys O) as (a' & E2 & H2 & F2); [congruence|exact Hr|].
  exists a'. split; [apply onL_ok; exact E2|auto].
Qed.

Lemma copy_construct_spec (b : vec) (ys : list V) :
  holds SC b ys -> room maxn (length ys) ->
  exists a', copy_construct SC RB maxn b = Ok tt (a', b) /\ holds SC a' ys /\ vfuse a' = None.
Proof.
  intros Hb Hr. unfold copy_construct.
  erewrite bind_ok by (apply onR_ok; apply read_all_spec; exact Hb).
  pose proof holds_init as Hi. apply holds_owns in Hi. destruct Hi as (_ & _ & Hi).
  destruct (assign_copy_spec (init_vec SC) ys) as (a' & E2 & H2 & F2);
    [|reflexivity|exact Hr|].
  - unfold buf in Hi. cbn [length map app] in Hi. rewrite Nat.sub_0_r in Hi. exact Hi.
  - exists a'. split; [apply onL_ok; exact E2|auto].
Qed.

Lemma take_loop_spec (ys : list V) : forall bs vb0 c db di f bs2 vb2 ve2 c2 g sb si k
    (A B C D : list slot),
  nth_error bs db = Some (Blk (A ++ repeat Raw k ++ B)) -> di = length A ->
  nth_error bs2 sb = Some (Blk (C ++ map Live ys ++ D)) -> si = length C ->
  k = length ys ->
  take_loop moved sb si k (mkVec bs vb0 (db, di) c f, mkVec bs2 vb2 ve2 c2 g) =
  Ok tt (mkVec (upd bs db (Blk (A ++ map Live ys ++ B))) vb0 (db, di + k) c f,
         mkVec (upd bs2 sb (Blk (C ++ map (fun v => Live (moved v)) ys ++ D))) vb2 ve2 c2 g).
Proof.
  induction ys as [|y ys IH]; intros bs vb0 c db di f bs2 vb2 ve2 c2 g sb si k A B C D Hd -> Hs -> ->.
  - cbn [length take_loop repeat map app] in *. rewrite Nat.add_0_r, !upd_nth_id; auto.
  - cbn [length take_loop]. cbn [length repeat app map] in Hd, Hs.
    pose proof (nth_lt _ _ _ Hd) as Ld. pose proof (nth_lt _ _ _ Hs) as Ls.
    erewrite bind_ok by (apply onR_ok; eapply move_from_mid; eauto).
    rewrite bind_get. cbn [fst ve].
    erewrite bind_ok by (apply onL_ok; unfold construct; eapply begin_life_mid; eauto).
    erewrite bind_ok by (apply onL_ok; reflexivity).
    unfold with_end; cbn [blocks vb ve vcap vfuse fst snd].
    erewrite (IH _ _ _ _ _ _ _ _ _ _ _ _ _ _ (A ++ [Live y]) B (C ++ [Live (moved y)]) D).
    + rewrite !upd_upd_same, <- !app_assoc. cbn [map app]. do 4 f_equal. lia.
    + nthu. rewrite <- app_assoc. reflexivity.
    + len.
    + nthu. rewrite <- app_assoc. reflexivity.
    + len.
    + reflexivity.
Qed.

(** From a left vector which owns nothing but its (raw) static buffer; its m_begin, m_end
    and m_capacity do not matter, except that m_capacity is the one of the right vector. *)
Definition bare (s : vec) : Prop :=
  nth_error (blocks s) 0 = Some (Blk (repeat Raw SC)) /\
  forall j, j <> 0 -> j < length (blocks s) -> nth_error (blocks s) j = Some Freed.

Lemma take_impl_spec (a b : vec) (ys : list V) :
  bare a -> holds SC b ys -> vcap a = vcap b ->
  exists a' b', take_impl moved SC (a, b) = Ok tt (a', b') /\
    holds SC a' ys /\ holds SC b' [] /\ vfuse a' = vfuse a /\ vfuse b' = vfuse b.
Proof.
  intros (Ha0 & Haj) Hb Hcap. pose proof Hb as Hb0.
  apply holds_owns in Hb. destruct Hb as (He & Hc & Hown).
  destruct a as [bs va ea ca fa], b as [bs2 vb2 e2 c2 g].
  cbn [blocks vb ve vcap vfuse] in *. subst ca e2.
  pose proof Hown as (O1 & O2 & O3 & O4 & O5). cbn [blocks vb ve vcap vfuse] in *.
  pose proof (nth_lt _ _ _ Ha0) as La. pose proof (nth_lt _ _ _ O1) as Lb.
  unfold take_impl. rewrite bind_get. cbn [fst snd vcap]. unfold is_static at 1; cbn [vb].
  destruct (Nat.eqb_spec vb2 0) as [->|Hn0].
  - specialize (O3 eq_refl). subst c2.
    erewrite bind_ok.
    2:{ erewrite bind_ok by (apply onL_ok; reflexivity).
        erewrite bind_ok by (apply onR_ok; apply msize_spec; reflexivity).
        unfold with_buf; cbn [blocks vb ve vcap vfuse].
        erewrite bind_ok.
        2:{ eapply take_loop_spec with (A := []) (B := repeat Raw (SC - length ys)) (C := []).
            - rewrite Ha0. cbn [app]. rewrite <- repeat_app. do 3 f_equal. lia.
            - reflexivity.
            - exact O1.
            - reflexivity.
            - reflexivity. }
        apply onR_ok. unfold destroy_all. rewrite bind_get. cbn [ve vb fst snd].
        rewrite Nat.eqb_refl.
        apply destroy_from_spec with (xs := map moved ys) (A := []) (B := repeat Raw (SC - length ys)).
        - nthu. cbn [app]. rewrite map_map. reflexivity.
        - reflexivity.
        - len. }
    eexists _, _. split; [apply onR_ok; reflexivity|].
    unfold with_buf; cbn [blocks vb ve vcap vfuse].
    repeat match goal with |- _ /\ _ = _ => split; [|reflexivity] end.
    split; [|split; [|split; reflexivity]].
    + apply holds_owns. cbn [blocks vb ve vcap vfuse]. split; [reflexivity|]. split; [exact Hc|].
      unfold owns; cbn [blocks vb ve vcap vfuse]. cbn [app].
      split; [nthu; reflexivity|]. split; [len|]. split; [reflexivity|].
      split; [congruence|]. intros j J1 J2 J3. rewrite upd_length in J3.
      rewrite nth_error_upd_neq by congruence. auto.
    + apply holds_owns. cbn [blocks vb ve vcap vfuse length]. split; [reflexivity|]. split; [lia|].
      rewrite upd_upd_same. cbn [app]. rewrite map_length, <- repeat_app.
      replace (length ys + (SC - length ys)) with SC by lia.
      unfold buf. cbn [map app length]. rewrite Nat.sub_0_r.
      eapply owns_upd; [exact Hown|]. len.
  - erewrite bind_ok.
    2:{ unfold take_block. cbn [blocks vb ve vcap vfuse fst snd].
        rewrite O1, Nat.eqb_refl. reflexivity. }
    eexists _, _. split; [apply onR_ok; reflexivity|].
    unfold with_buf, with_blocks; cbn [blocks vb ve vcap vfuse].
    destruct (O4 Hn0) as [Hsc Hz].
    split; [|split; [|split; reflexivity]].
    + apply holds_owns. cbn [blocks vb ve vcap vfuse]. split; [reflexivity|]. split; [exact Hc|].
      unfold owns; cbn [blocks vb ve vcap vfuse].
      split; [rewrite nth_error_app_mid by reflexivity; reflexivity|]. split; [exact O2|].
      split; [intros E; lia|].
      split; [intros _; split; [exact Hsc|]; rewrite nth_error_app1 by lia; exact Ha0|].
      intros j J1 J2 J3. rewrite app_length in J3. cbn [length] in J3.
      rewrite nth_error_app1 by lia. apply Haj; lia.
    + apply holds_owns. cbn [blocks vb ve vcap vfuse length]. split; [reflexivity|]. split; [lia|].
      unfold owns, buf; cbn [blocks vb ve vcap vfuse length map app]. rewrite Nat.sub_0_r.
      split; [rewrite nth_error_upd_neq by congruence; exact Hz|].
      split; [len|]. split; [reflexivity|]. split; [congruence|].
      intros j J1 J2 J3. rewrite upd_length in J3.
      destruct (Nat.eq_dec j vb2) as [->|Hj]; [nthu; reflexivity|].
      rewrite nth_error_upd_neq by congruence. auto.
Qed.

Lemma move_assign_spec (a b : vec) (xs ys : list V) :
  holds SC a xs -> holds SC b ys ->
  exists a' b', move_assign moved SC (a, b) = Ok tt (a', b') /\
    holds SC a' ys /\ holds SC b' [] /\ vfuse a' = vfuse a /\ vfuse b' = vfuse b.
Proof.
  intros Ha Hb. unfold move_assign.
  destruct (destroy_all_spec a xs Ha) as (s1 & E & O & B1 & B2 & B3 & B4).
  erewrite bind_ok by (apply onL_ok; exact E). rewrite bind_get. cbn [fst].
  assert (R : exists s2, (if is_static s1 then ret tt else @onL vec unit (deallocate (vb s1) (vcap s1)))
                (s1, b) = Ok tt (s2, b) /\ bare s2 /\ vfuse s2 = vfuse a).
  { destruct s1 as [bs b1 e1 c1 f1]. cbn [blocks vb ve vcap vfuse] in *. subst c1.
    destruct O as (O1 & O2 & O3 & O4 & O5). cbn [blocks vb ve vcap vfuse] in *.
    unfold is_static; cbn [vb].
    destruct (Nat.eqb_spec b1 0) as [->|Hn].
    - eexists. split; [reflexivity|]. split; [|exact B4].
      unfold bare; cbn [blocks]. rewrite (O3 eq_refl) in O1. auto.
    - eexists. split; [apply onL_ok; apply deallocate_spec; [exact Hn|exact O1]|].
      split; [|exact B4]. unfold bare; cbn [blocks].
      pose proof (nth_lt _ _ _ O1) as L. destruct (O4 Hn) as [_ Hz].
      split; [rewrite nth_error_upd_neq by congruence; exact Hz|].
      intros j J1 J3. rewrite upd_length in J3.
      destruct (Nat.eq_dec j b1) as [->|Hj]; [nthu; reflexivity|].
      rewrite nth_error_upd_neq by congruence. auto. }
  destruct R as (s2 & E2 & Hbare & F2).
  erewrite bind_ok by exact E2. rewrite bind_get. cbn [fst snd].
  erewrite bind_ok by (apply onL_ok; reflexivity).
  destruct (take_impl_spec (with_buf (vb s2) (ve s2) (vcap b) s2) b ys) as (a' & b' & E3 & H1 & H2 & H3 & H4);
    [exact Hbare|exact Hb|reflexivity|].
  exists a', b'. split; [exact E3|]. split; [exact H1|]. split; [exact H2|].
  split; [|exact H4]. rewrite H3. exact F2.
Qed.

Lemma move_construct_spec (b : vec) (ys : list V) :
  holds SC b ys ->
  exists a' b', move_construct moved SC b = Ok tt (a', b') /\
    holds SC a' ys /\ holds SC b' [] /\ vfuse a' = None /\ vfuse b' = vfuse b.
Proof.
  intros Hb. unfold move_construct. erewrite bind_ok by (apply onL_ok; reflexivity).
  apply take_impl_spec; [|exact Hb|reflexivity].
  split; [reflexivity|]. intros j J1 J2. cbn in J2. lia.
Qed.

Lemma at_spec (s : vec) (xs : list V) i v :
  holds SC s xs -> nth_error xs i = Some v -> at_ i s = Ok v s.
Proof.
  intros H Hv. unfold at_. rewrite bind_get. destruct H as (_ & _ & H & _).
  unfold read, slot_at; cbn [fst snd]. rewrite H, nth_error_app1.
  - now rewrite nth_error_map, Hv.
  - rewrite map_length. now apply nth_lt in Hv.
Qed.

Lemma eq_loop_spec eqb (a b : vec) (xs ys : list V) k : forall i,
  holds SC a xs -> holds SC b ys -> length xs = length ys -> i + k = length xs ->
  (forall x y, eqb x y = true <-> x = y) ->
  exists r, eq_loop eqb i k (a, b) = Ok r (a, b) /\ (r = true <-> skipn i xs = skipn i ys).
Proof.
  clear moved dflt.
  induction k as [|k IH]; intros i Ha Hb Hl Hi He; cbn [eq_loop].
  - exists true. split; [reflexivity|]. rewrite !skipn_all2 by lia. intuition.
  - destruct (nth_error xs i) as [x|] eqn:Ex; [|apply nth_error_None in Ex; lia].
    destruct (nth_error ys i) as [y|] eqn:Ey; [|apply nth_error_None in Ey; lia].
    erewrite bind_ok by (apply onL_ok; eapply at_spec; eauto).
    erewrite bind_ok by (apply onR_ok; eapply at_spec; eauto).
    rewrite (skipn_S_nth _ _ _ Ex), (skipn_S_nth _ _ _ Ey).
    destruct (eqb x y) eqn:E.
    + apply He in E. subst y. destruct (IH (S i)) as (r & -> & Hr); auto; [lia|].
      exists r. split; [reflexivity|]. rewrite Hr. split; [now intros ->|congruence].
    + exists false. split; [reflexivity|]. split; [discriminate|].
      intros Q. injection Q as Q _. apply He in Q. congruence.
Qed.

Lemma equal_spec eqb (a b : vec) (xs ys : list V) :
  holds SC a xs -> holds SC b ys -> (forall x y, eqb x y = true <-> x = y) ->
  exists r, equal eqb (a, b) = Ok r (a, b) /\ (r = true <-> xs = ys).
Proof.
  clear moved dflt.
  intros Ha Hb He. unfold equal.
  erewrite bind_ok by (apply onL_ok; apply msize_spec; apply Ha).
  erewrite bind_ok by (apply onR_ok; apply msize_spec; apply Hb).
  destruct (Nat.eqb_spec (length xs) (length ys)) as [El|El].
  - apply (eq_loop_spec eqb a b xs ys (length xs) 0); auto.
  - exists false. split; [reflexivity|]. split; [discriminate|]. intros ->. congruence.
Qed.

(** ** Families *)
Definition good (s : vec) (xs : list V) : Prop := holds SC s xs /\ vfuse s = None.

Lemma Forall2_nth_r {A B} (R : A -> B -> Prop) l l' i y :
  Forall2 R l l' -> nth_error l' i = Some y -> exists x, nth_error l i = Some x /\ R x y.
Proof.
  intros H. revert i. induction H as [|a b l l' Hab H IH]; intros [|i] E; cbn in *; try discriminate.
  - injection E as <-. eauto.
  - now apply IH.
Qed.

Lemma Forall2_upd {A B} (R : A -> B -> Prop) l l' i x y :
  Forall2 R l l' -> R x y -> Forall2 R (upd l i x) (upd l' i y).
Proof.
  intros H Hxy. revert i. induction H as [|a b l l' Hab H IH]; intros [|i]; cbn; constructor; auto.
Qed.

Lemma Forall2_len {A B} (R : A -> B -> Prop) l l' : Forall2 R l l' -> length l = length l'.
Proof. induction 1; cbn; congruence. Qed.

Lemma nth_some {A} (l : list A) i : i < length l -> exists x, nth_error l i = Some x.
Proof. intros H. destruct (nth_error l i) eqn:E; [eauto|apply nth_error_None in E; lia]. Qed.

Lemma sys_call_spec (st : list vec) cs o :
  Forall2 good st cs -> small_sys_ok maxn cs o ->
  exists st',
    observe (sys_call moved dflt SC RB maxn o st) = Some (st', snd (small_sys_step dflt cs o)) /\
    Forall2 good st' (fst (small_sys_step dflt cs o)).
Proof.
  intros Hg Ho. destruct o as [i op|i j|i j]; cbn [sys_call small_sys_step small_sys_ok] in *.
  - destruct Ho as (xs & Ei & Hok). rewrite Ei.
    destruct (Forall2_nth_r _ _ _ _ _ Hg Ei) as (s & Es & Hs & Hf).
    destruct (call_spec s xs op Hs Hf Hok) as (s' & E & H1 & F1).
    destruct (small_step dflt xs op) as [xs' r]. cbn [fst snd] in *.
    exists (upd st i s'). split; [|apply Forall2_upd; [exact Hg|split; auto]].
    unfold on_one. rewrite Es.
    destruct (call moved dflt SC RB maxn op s) as [[p|] q|e q| |];
      cbn [observe] in E |- *; try discriminate; injection E as -> <-; reflexivity.
  - destruct Ho as (Hi & ys & Ej & Hr). rewrite Ej. cbn [fst snd].
    destruct (Forall2_nth_r _ _ _ _ _ Hg Ej) as (b & Eb & Hb & Hfb).
    destruct (Nat.eqb_spec i j) as [->|Hij].
    + exists st. unfold on_one. rewrite Eb. cbn [ret observe].
      rewrite (upd_nth_id st j b Eb), (upd_nth_id cs j ys Ej). auto.
    + destruct (nth_some cs i Hi) as (xs & Ei).
      destruct (Forall2_nth_r _ _ _ _ _ Hg Ei) as (a & Ea & Ha & Hfa).
      destruct (copy_assign_spec a b xs ys Ha Hfa Hb Hr) as (a' & E & H1 & F1).
      exists (upd st i a'). split; [|apply Forall2_upd; [exact Hg|split; auto]].
      unfold on_two. rewrite Ea, Eb, E. cbn [observe].
      rewrite (upd_nth_id (upd st i a') j b); [reflexivity|].
      now rewrite nth_error_upd_neq by exact Hij.
  - destruct Ho as (Hi & Hj). destruct (nth_some cs j Hj) as (ys & Ej). rewrite Ej.
    destruct (Forall2_nth_r _ _ _ _ _ Hg Ej) as (b & Eb & Hb & Hfb).
    destruct (Nat.eqb_spec i j) as [->|Hij]; cbn [fst snd].
    + exists st. unfold on_one. rewrite Eb. cbn [ret observe].
      rewrite (upd_nth_id st j b Eb). auto.
    + destruct (nth_some cs i Hi) as (xs & Ei).
      destruct (Forall2_nth_r _ _ _ _ _ Hg Ei) as (a & Ea & Ha & Hfa).
      destruct (move_assign_spec a b xs ys Ha Hb) as (a' & b' & E & H1 & H2 & F1 & F2).
      exists (upd (upd st i a') j b'). split.
      * unfold on_two. rewrite Ea, Eb, E. reflexivity.
      * apply Forall2_upd; [apply Forall2_upd; [exact Hg|]|]; split; auto; congruence.
Qed.

Lemma sys_run_spec os : forall (st : list vec) cs,
  Forall2 good st cs -> small_sys_along dflt maxn cs os ->
  exists st',
    run_calls (sys_call moved dflt SC RB maxn) st os = Some (st', snd (small_sys_run dflt cs os)) /\
    Forall2 good st' (fst (small_sys_run dflt cs os)).
Proof.
  induction os as [|o os IH]; intros st cs Hg Ha.
  - exists st. auto.
  - destruct Ha as [Ho Ha]. cbn [run_calls small_sys_run].
    destruct (sys_call_spec st cs o Hg Ho) as (st1 & E1 & G1). rewrite E1.
    destruct (small_sys_step dflt cs o) as [cs' r] eqn:E. cbn [fst snd] in *.
    destruct (IH st1 cs' G1 Ha) as (st2 & E2 & G2). rewrite E2.
    destruct (small_sys_run dflt cs' os) as [cs'' rs]. cbn [fst snd] in *. eauto.
Qed.

Lemma init_good n : Forall2 good (repeat (init_vec SC) n) (repeat [] n).
Proof.
  induction n; cbn [repeat]; constructor; auto. split; [apply holds_init|reflexivity].
Qed.

(** ** Empty ranges *)

(** grow_at and shrink_at when the buffer stays. *)
Lemma grow_at_stay (s : vec) (xs : list V) pos num :
  holds SC s xs -> pos <= length xs -> room maxn (length xs + num) ->
  length xs + num <= vcap s -> (vb s = 0 \/ RB <= length xs + num) ->
  grow_at moved SC RB maxn (Z.of_nat pos) (N.of_nat num) s =
  (grow_loop moved (vb s) pos num (length xs - pos) ;;; ret pos)
    (with_end (vb s, length xs + num) s).
Proof.
  intros H Hp Hroom Hc Hst. apply holds_owns in H. destruct H as (He & Hc' & Hown).
  unfold grow_at. erewrite bind_ok by (apply msize_spec; exact He).
  replace ((Z.of_nat pos <? 0) || (Z.of_nat (length xs) <? Z.of_nat pos))%Z with false
    by (symmetry; apply orb_false_iff; split; apply Z.ltb_ge; lia).
  erewrite bind_ok by reflexivity. rewrite bind_get. rewrite Nat2Z.id.
  assert (Hm : ((N.of_nat (length xs) + N.of_nat num) mod two64 = N.of_nat (length xs + num))%N).
  { destruct (room_bounds _ Hroom) as [Hr _]. rewrite <- Nat2N.inj_add.
    apply N.mod_small. unfold two64 in *. lia. }
  rewrite Hm. rewrite Nat2N.id.
  destruct (choose_data_spec s _ (length xs + num) Hown ltac:(auto))
    as [(Hd & Hstay & E)|(db & c' & bs' & E & Hd & HT & Hsame & Hcase)].
  - erewrite bind_ok by exact E. cbn [fst]. rewrite Nat.eqb_refl. reflexivity.
  - exfalso. destruct Hcase as [(?&?&?&?)|(?&?)]; lia.
Qed.

Lemma holds_slot (s : vec) (xs : list V) k v :
  holds SC s xs -> nth_error xs k = Some v -> slot_at (vb s, k) (blocks s) = Some (Live v).
Proof.
  intros (_ & _ & H & _) Hv. unfold slot_at; cbn [fst snd]. rewrite H, nth_error_app1.
  - now rewrite nth_error_map, Hv.
  - rewrite map_length. now apply nth_lt in Hv.
Qed.

Lemma empty_insert_ub (s : vec) (xs : list V) pos :
  holds SC s xs -> pos < length xs -> room maxn (length xs) ->
  (vb s = 0 \/ RB <= length xs) ->
  grow_at moved SC RB maxn (Z.of_nat pos) 0%N s = UB.
Proof.
  intros H Hp Hr Hst. change 0%N with (N.of_nat 0).
  pose proof H as (_ & Hc & Hn & _).
  rewrite grow_at_stay with (xs := xs); rewrite ?Nat.add_0_r; auto; try lia.
  destruct (length xs - pos) as [|k] eqn:Ek; [lia|].
  apply bind_ub. cbn [grow_loop]. apply bind_ub. rewrite Nat.add_0_r.
  destruct (nth_some xs (pos + k) ltac:(lia)) as (v & Ev).
  pose proof (holds_slot s xs _ v H Ev) as Hs. pose proof (nth_lt _ _ _ Hn) as L.
  unfold move_to, move_from, bind, with_end; cbn [blocks]. rewrite Hs.
  unfold construct, begin_life, with_blocks; cbn [blocks].
  unfold slot_at, put_slot; cbn [fst snd]. rewrite Hn. rewrite nth_error_upd_eq by exact L.
  rewrite nth_error_upd_eq by (len). reflexivity.
Qed.

Lemma empty_erase_ub (s : vec) (xs : list V) pos :
  holds SC s xs -> pos < length xs ->
  (vb s = 0 \/ RB <= length xs) ->
  erase_range moved SC RB maxn (Z.of_nat pos) (Z.of_nat pos) s = UB.
Proof.
  intros H Hp Hst. pose proof H as H0. pose proof H as (_ & Hc & Hn & _).
  apply holds_owns in H. destruct H as (He & _ & Hown).
  unfold erase_range. rewrite Z.ltb_irrefl. erewrite bind_ok by reflexivity.
  rewrite Z.sub_diag. change (Z.to_N 0) with 0%N.
  unfold shrink_at. erewrite bind_ok by (apply msize_spec; exact He).
  replace ((Z.of_nat pos <? 0) || (Z.of_nat (length xs) <? Z.of_nat pos)
           || (Z.of_nat (length xs) <? Z.of_nat pos + Z.of_N 0))%Z with false
    by (symmetry; rewrite !orb_false_iff, !Z.ltb_ge; lia).
  erewrite bind_ok by reflexivity. rewrite bind_get. rewrite Nat2Z.id.
  change (N.to_nat 0) with 0. rewrite Nat.sub_0_r, Nat.add_0_r.
  replace (length xs =? 0) with false by (symmetry; apply Nat.eqb_neq; lia).
  destruct (choose_data_spec s _ (length xs) Hown ltac:(lia))
    as [(Hd & Hstay & E)|(db & c' & bs' & E & Hd & HT & Hsame & Hcase)].
  2:{ exfalso. destruct Hcase as [(?&?&?&?)|(?&?)]; lia. }
  erewrite bind_ok by exact E. cbn [fst]. rewrite Nat.eqb_refl.
  destruct (length xs - pos) as [|k] eqn:Ek; [lia|].
  apply bind_ub. cbn [shrink_loop].
  destruct (nth_some xs pos Hp) as (v & Ev).
  pose proof (holds_slot s xs _ v H0 Ev) as Hs. pose proof (nth_lt _ _ _ Hn) as L.
  erewrite bind_ok by (unfold destroy; rewrite Hs; reflexivity).
  apply bind_ub. unfold move_to. apply bind_ub. unfold move_from, with_blocks; cbn [blocks].
  unfold slot_at, put_slot; cbn [fst snd]. rewrite Hn. rewrite nth_error_upd_eq by exact L.
  rewrite nth_error_upd_eq by (len). reflexivity.
Qed.

(** ** Own elements *)
Lemma bind_both {S A B} (m : M S A) (k1 k2 : A -> M S B) s a s' :
  m s = Ok a s' -> k1 a s' = k2 a s' -> bind m k1 s = bind m k2 s.
Proof. intros H1 H2. unfold bind. now rewrite H1. Qed.

Lemma other_block_dead (s : vec) l b k v :
  owns s l -> b <> vb s -> slot_at (b, k) (blocks s) <> Some (Live v).
Proof.
  intros (O1 & O2 & O3 & O4 & O5) Hb. unfold slot_at; cbn [fst snd].
  destruct (Nat.eq_dec b 0) as [->|Hb0].
  - destruct (O4 ltac:(auto)) as [_ ->].
    destruct (nth_error (repeat Raw SC) k) eqn:E; [|discriminate].
    apply nth_error_In, repeat_spec in E. subst. discriminate.
  - destruct (lt_dec b (length (blocks s))) as [Hl|Hl].
    + rewrite (O5 b Hb0 Hb Hl). discriminate.
    + rewrite (proj2 (nth_error_None _ _)) by lia. discriminate.
Qed.

Lemma construct_dead_ref (s : vec) p q :
  (forall v : V, slot_at q (blocks s) <> Some (Live v)) -> construct p (CopyRef q) s = UB.
Proof.
  intros H. unfold construct. apply bind_ub. unfold read.
  destruct (slot_at q (blocks s)) as [[|v]|]; auto. exfalso. now apply (H v).
Qed.

Lemma push_back_own_moved (s : vec) (xs : list V) k :
  holds SC s xs -> k < length xs -> room maxn (length xs + 1) ->
  (vcap s < length xs + 1 \/ (vb s <> 0 /\ length xs + 1 < RB)) ->
  push_back moved SC RB maxn (CopyRef (vb s, k)) s = UB.
Proof.
  intros H Hk Hr Hm.
  destruct (grow_at_spec s xs (length xs) 1 H (le_n _) Hr ltac:(lia)) as (s1 & E & G1 & G2 & G3 & G4 & G5 & G6).
  unfold push_back. erewrite bind_ok by (apply msize_spec; apply H).
  erewrite bind_ok by exact E. rewrite bind_get. apply construct_dead_ref.
  intros v. eapply other_block_dead; [exact G3|]. specialize (G6 Hm). congruence.
Qed.

Lemma insert_own_moved (s : vec) (xs : list V) pos k :
  holds SC s xs -> pos <= length xs -> k < length xs -> room maxn (length xs + 1) ->
  (vcap s < length xs + 1 \/ (vb s <> 0 /\ length xs + 1 < RB)) ->
  insert1 moved SC RB maxn (Z.of_nat pos) (CopyRef (vb s, k)) s = UB.
Proof.
  intros H Hp Hk Hr Hm.
  destruct (grow_at_spec s xs pos 1 H Hp Hr ltac:(lia)) as (s1 & E & G1 & G2 & G3 & G4 & G5 & G6).
  unfold insert1. erewrite bind_ok by exact E. rewrite bind_get. apply bind_ub.
  apply construct_dead_ref.
  intros v. eapply other_block_dead; [exact G3|]. specialize (G6 Hm). congruence.
Qed.

Lemma construct_live_ref (s : vec) p q (v : V) :
  slot_at q (blocks s) = Some (Live v) -> construct p (CopyRef q) s = construct p (CopyOf v) s.
Proof. intros H. unfold construct at 1. erewrite bind_ok by (unfold read; rewrite H; reflexivity). reflexivity. Qed.

(** The slots after a hole of one was made. *)
Lemma gapped_slot c (xs : list V) pos k :
  pos <= length xs -> k < length xs ->
  nth_error (gapped c xs pos 1) k =
  if k <? pos then option_map Live (nth_error xs k)
  else if k =? pos then Some Raw
  else option_map Live (nth_error xs (k - 1)).
Proof.
  intros Hp Hk. unfold gapped; cbn [repeat].
  destruct (Nat.ltb_spec k pos) as [E1|E1].
  - rewrite nth_error_app1 by len. rewrite nth_error_map, nth_error_firstn.
    replace (k <? pos) with true by (symmetry; now apply Nat.ltb_lt). reflexivity.
  - rewrite nth_error_app2 by len.
    rewrite map_length, firstn_length, Nat.min_l by lia.
    destruct (Nat.eqb_spec k pos) as [->|E2].
    + rewrite Nat.sub_diag. reflexivity.
    + destruct (k - pos) as [|d] eqn:Ed; [lia|].
      cbn [app nth_error]. rewrite nth_error_app1 by len.
      rewrite nth_error_map, nth_error_skipn. do 2 f_equal. lia.
Qed.

Lemma push_back_own_stay (s : vec) (xs : list V) k v :
  holds SC s xs -> vfuse s = None -> nth_error xs k = Some v -> room maxn (length xs + 1) ->
  length xs + 1 <= vcap s -> (vb s = 0 \/ RB <= length xs + 1) ->
  exists s', push_back moved SC RB maxn (CopyRef (vb s, k)) s = Ok tt s' /\ holds SC s' (xs ++ [v]).
Proof.
  intros H Hf Hv Hr Hc Hst. pose proof (nth_lt _ _ _ Hv) as Hk.
  destruct (push_back_spec s xs v H Hf Hr) as (s' & E & H' & _).
  exists s'. split; [|exact H']. rewrite <- E. clear E H' s'.
  destruct (grow_at_spec s xs (length xs) 1 H (le_n _) Hr ltac:(lia)) as (s1 & E & G1 & G2 & G3 & G4 & G5 & G6).
  unfold push_back. eapply bind_both; [apply msize_spec; apply H|].
  eapply bind_both; [exact E|]. rewrite !bind_get. apply construct_live_ref.
  destruct (G5 (conj Hc Hst)) as [<- _].
  unfold slot_at; cbn [fst snd]. destruct G3 as (-> & _).
  rewrite gapped_slot by lia. replace (k <? length xs) with true by (symmetry; now apply Nat.ltb_lt).
  now rewrite Hv.
Qed.

Lemma insert_own_stay (s : vec) (xs : list V) pos k :
  holds SC s xs -> vfuse s = None -> pos <= length xs -> k < length xs -> room maxn (length xs + 1) ->
  length xs + 1 <= vcap s -> (vb s = 0 \/ RB <= length xs + 1) ->
  (k < pos -> exists v s', nth_error xs k = Some v /\
     insert1 moved SC RB maxn (Z.of_nat pos) (CopyRef (vb s, k)) s = Ok pos s' /\
     holds SC s' (insert_at xs pos [v])) /\
  (k = pos -> insert1 moved SC RB maxn (Z.of_nat pos) (CopyRef (vb s, k)) s = UB) /\
  (pos < k -> exists w s', nth_error xs (k - 1) = Some w /\
     insert1 moved SC RB maxn (Z.of_nat pos) (CopyRef (vb s, k)) s = Ok pos s' /\
     holds SC s' (insert_at xs pos [w])).
Proof.
  intros H Hf Hp Hk Hr Hc Hst.
  assert (Hgen : forall w, (if k <? pos then nth_error xs k
                            else if k =? pos then None else nth_error xs (k - 1)) = Some w ->
     exists s', insert1 moved SC RB maxn (Z.of_nat pos) (CopyRef (vb s, k)) s = Ok pos s' /\
     holds SC s' (insert_at xs pos [w])).
  { intros w Hw. destruct (insert1_spec s xs pos w H Hf Hp Hr) as (s' & E & H' & _).
    exists s'. split; [|exact H']. rewrite <- E. clear E H' s'.
    destruct (grow_at_spec s xs pos 1 H Hp Hr ltac:(lia)) as (s1 & E & G1 & G2 & G3 & G4 & G5 & G6).
    unfold insert1. eapply bind_both; [exact E|]. rewrite !bind_get.
    destruct (G5 (conj Hc Hst)) as [<- _].
    unfold bind. erewrite construct_live_ref; [reflexivity|].
    unfold slot_at; cbn [fst snd]. destruct G3 as (-> & _).
    rewrite gapped_slot by lia.
    destruct (k <? pos); [now rewrite Hw|]. destruct (k =? pos); [discriminate|]. now rewrite Hw. }
  split; [|split].
  - intros L. destruct (nth_some xs k Hk) as (v & Ev). destruct (Hgen v) as (s' & E & H').
    + replace (k <? pos) with true by (symmetry; now apply Nat.ltb_lt). exact Ev.
    + eauto.
  - intros ->.
    destruct (grow_at_spec s xs pos 1 H Hp Hr ltac:(lia)) as (s1 & E & G1 & G2 & G3 & G4 & G5 & G6).
    unfold insert1. erewrite !bind_ok by exact E. rewrite !bind_get. apply bind_ub.
    destruct (G5 (conj Hc Hst)) as [<- _]. apply construct_dead_ref. intros v.
    unfold slot_at; cbn [fst snd]. destruct G3 as (-> & _).
    rewrite gapped_slot by lia. rewrite Nat.ltb_irrefl, Nat.eqb_refl. discriminate.
  - intros L. destruct (nth_some xs (k - 1) ltac:(lia)) as (v & Ev). destruct (Hgen v) as (s' & E & H').
    + replace (k <? pos) with false by (symmetry; apply Nat.ltb_ge; lia).
      replace (k =? pos) with false by (symmetry; apply Nat.eqb_neq; lia). exact Ev.
    + eauto.
Qed.

Lemma resize_own_moved (s : vec) (xs : list V) n k :
  holds SC s xs -> k < length xs -> room maxn n -> vcap s < n ->
  resize_val moved SC RB maxn (N.of_nat n) (CopyRef (vb s, k)) s = UB.
Proof.
  intros H Hk Hr Hm. pose proof H as (_ & Hc & _).
  destruct (reserve_spec s xs n H Hr) as (s1 & E & H1 & F1 & C1 & C2 & C3 & C4).
  unfold resize_val. erewrite bind_ok by exact E.
  erewrite bind_ok by (apply msize_spec; apply H1). rewrite Nat2N.id.
  replace (length xs - n) with 0 by lia. cbn [cut_loop]. erewrite bind_ok by reflexivity.
  erewrite bind_ok by (apply msize_spec; apply H1).
  destruct (n - length xs) as [|d] eqn:Ed; [lia|]. cbn [extend_loop]. rewrite bind_get.
  unfold set_end at 1. erewrite bind_ok by reflexivity. apply bind_ub. apply construct_dead_ref.
  intros v. unfold with_end; cbn [blocks].
  apply holds_owns in H1. destruct H1 as (_ & _ & Hown).
  eapply other_block_dead; [exact Hown|]. destruct (C4 Hm). auto.
Qed.

Lemma extend_own k : forall bs b c (v : V) (xs : list V) j,
  length xs + k <= c -> nth_error xs j = Some v ->
  nth_error bs b = Some (Blk (buf c xs)) ->
  extend_loop k (CopyRef (b, j)) (mkVec bs b (b, length xs) c None) =
  extend_loop k (CopyOf v) (mkVec bs b (b, length xs) c None).
Proof.
  induction k as [|k IH]; intros bs b c v xs j Hc Hj H; [reflexivity|].
  pose proof (nth_lt _ _ _ H) as L. pose proof (nth_lt _ _ _ Hj) as Lj.
  cbn [extend_loop]. rewrite !bind_get. cbn [ve fst snd].
  eapply bind_both; [reflexivity|].
  unfold with_end; cbn [blocks vb ve vcap vfuse].
  assert (Ec : forall x, x = CopyOf v \/ x = CopyRef (b, j) ->
    construct (b, length xs) x (mkVec bs b (b, S (length xs)) c None) =
    Ok tt (mkVec (upd bs b (Blk (buf c (xs ++ [v])))) b (b, S (length xs)) c None)).
  { intros x Hx.
    assert (E1 : construct (b, length xs) x (mkVec bs b (b, S (length xs)) c None) =
                 construct (b, length xs) (CopyOf v) (mkVec bs b (b, S (length xs)) c None)).
    { destruct Hx as [->| ->]; [reflexivity|]. apply construct_live_ref.
      unfold slot_at; cbn [fst snd blocks]. rewrite H. unfold buf. rewrite nth_error_app1 by len.
      now rewrite nth_error_map, Hj. }
    rewrite E1. erewrite construct_mid with (A := map Live xs) (B := repeat Raw (c - length xs - 1)).
    - unfold buf. replace (c - length (xs ++ [v])) with (c - length xs - 1) by len.
      rewrite map_app, <- app_assoc. reflexivity.
    - rewrite H. unfold buf. destruct (c - length xs) as [|d] eqn:E; [lia|].
      cbn [repeat]. do 4 f_equal. f_equal. lia.
    - len. }
  erewrite bind_ok by (apply Ec; auto). erewrite bind_ok by (apply Ec; auto).
  replace (S (length xs)) with (length (xs ++ [v])) by len.
  apply IH.
  - len.
  - rewrite nth_error_app1 by lia. exact Hj.
  - nthu. reflexivity.
Qed.

Lemma resize_own_stay (s : vec) (xs : list V) n k v :
  holds SC s xs -> vfuse s = None -> nth_error xs k = Some v -> room maxn n -> n <= vcap s ->
  exists s', resize_val moved SC RB maxn (N.of_nat n) (CopyRef (vb s, k)) s = Ok tt s' /\
    holds SC s' (resize_to xs n v).
Proof.
  intros H Hf Hv Hr Hn.
  destruct (resize_val_spec s xs n v H Hf Hr) as (s' & E & H' & _).
  exists s'. split; [|exact H']. rewrite <- E. clear E H' s'.
  destruct (reserve_spec s xs n H Hr) as (s1 & E & H1 & F1 & C1 & C2 & C3 & C4).
  unfold resize_val. eapply bind_both; [exact E|]. rewrite (C3 Hn) in *. clear s1 E C1 C2 C3 C4 F1 H1.
  eapply bind_both; [apply msize_spec; apply H|]. rewrite Nat2N.id.
  destruct (le_dec n (length xs)) as [Hle|Hgt].
  - (* nothing is constructed *)
    apply holds_owns in H. destruct H as (He & Hc & Hown).
    destruct s as [bs b e c f]. cbn [blocks vb ve vcap vfuse] in *. subst e f.
    pose proof Hown as (Hnt & Hl & _). cbn [blocks vb] in Hnt.
    set (ys := firstn n xs). assert (Ly : length ys = n) by (subst ys; len).
    assert (E2 : cut_loop (length xs - n) (mkVec bs b (b, length xs) c None) =
      Ok tt (mkVec (upd bs b (Blk (buf c ys))) b (b, length ys) c None)).
    { replace (length xs) with (length ys + (length xs - n)) at 2 by lia.
      apply cut_loop_spec with (zs := skipn n xs).
      - len.
      - subst ys. rewrite firstn_skipn. exact Hnt.
      - subst ys. now rewrite firstn_skipn. }
    eapply bind_both; [exact E2|].
    eapply bind_both; [apply msize_spec; reflexivity|].
    rewrite Ly, Nat.sub_diag. reflexivity.
  - replace (length xs - n) with 0 by lia. cbn [cut_loop].
    eapply bind_both; [reflexivity|].
    eapply bind_both; [apply msize_spec; apply H|].
    apply holds_owns in H. destruct H as (He & Hc & Hown).
    destruct s as [bs b e c f]. cbn [blocks vb ve vcap vfuse] in *. subst e f.
    apply extend_own; [lia|exact Hv|apply Hown].
Qed.

(** ** Exceptions *)

(** Destroying a range with a raw slot in it. *)
Lemma destroy_from_raw (xs : list V) : forall bs vb0 ve0 c f b i k (A B : list slot),
  nth_error bs b = Some (Blk (A ++ map Live xs ++ Raw :: B)) -> i = length A -> length xs < k ->
  destroy_from b i k (mkVec bs vb0 ve0 c f) = UB.
Proof.
  induction xs as [|x xs IH]; intros bs vb0 ve0 c f b i k A B H -> Hk;
    (destruct k as [|k]; [cbn in Hk; lia|]); cbn [destroy_from].
  - apply bind_ub. unfold destroy, slot_at; cbn [fst snd blocks]. rewrite H. cbn [map app].
    rewrite nth_error_app_mid by reflexivity. reflexivity.
  - pose proof (nth_lt _ _ _ H) as L. cbn [map app] in H.
    erewrite bind_ok by (eapply destroy_mid; eauto).
    eapply IH with (A := A ++ [Raw]).
    + nthu. rewrite <- app_assoc. reflexivity.
    + len.
    + cbn in Hk. lia.
Qed.

Lemma gapped_destructor_ub (s : vec) (xs : list V) pos num :
  pos <= length xs -> 0 < num -> ve s = (vb s, length xs + num) ->
  owns s (gapped (vcap s) xs pos num) -> destructor s = UB.
Proof.
  intros Hp Hnum He Hown. unfold destructor. apply bind_ub.
  unfold destroy_all. rewrite bind_get. rewrite He. cbn [fst snd]. rewrite Nat.eqb_refl.
  destruct s as [bs b e c f]. cbn [vb ve vcap] in *. destruct num as [|num]; [lia|].
  eapply destroy_from_raw with (A := []) (xs := firstn pos xs).
  - destruct Hown as (Hn & _). cbn [blocks vb] in Hn. rewrite Hn. reflexivity.
  - reflexivity.
  - len.
Qed.

(** If the element being pushed or inserted fails to construct, the vector cannot even be
    destroyed. *)
Lemma insert_throw_ub (s : vec) (xs : list V) pos v :
  holds SC s xs -> vfuse s = Some 0 -> pos <= length xs -> room maxn (length xs + 1) ->
  exists s', insert1 moved SC RB maxn (Z.of_nat pos) (CopyOf v) s = Throw ElemThrow s' /\
    destructor s' = UB.
Proof.
  intros H Hf Hp Hr.
  destruct (grow_at_spec s xs pos 1 H Hp Hr ltac:(lia)) as (s1 & E & G1 & G2 & G3 & G4 & G5 & G6).
  exists (with_fuse None s1). split.
  - unfold insert1. erewrite bind_ok by exact E. rewrite bind_get. apply bind_throw.
    unfold construct. apply bind_throw. unfold tick. now rewrite G4, Hf.
  - eapply gapped_destructor_ub with (num := 1); [exact Hp|lia|exact G1|exact G3].
Qed.

Lemma push_back_throw_ub (s : vec) (xs : list V) v :
  holds SC s xs -> vfuse s = Some 0 -> room maxn (length xs + 1) ->
  exists s', push_back moved SC RB maxn (CopyOf v) s = Throw ElemThrow s' /\
    destructor s' = UB.
Proof.
  intros H Hf Hr.
  destruct (grow_at_spec s xs (length xs) 1 H (le_n _) Hr ltac:(lia)) as (s1 & E & G1 & G2 & G3 & G4 & G5 & G6).
  exists (with_fuse None s1). split.
  - unfold push_back. erewrite bind_ok by (apply msize_spec; apply H).
    erewrite bind_ok by exact E. rewrite bind_get.
    unfold construct. apply bind_throw. unfold tick. now rewrite G4, Hf.
  - eapply gapped_destructor_ub with (num := 1); [apply le_n|lia|exact G1|exact G3].
Qed.

(** A throwing append leaves a prefix. *)
Lemma append_loop_throw (l : list V) : forall bs vb0 c db di (A B : list slot) k,
  nth_error bs db = Some (Blk (A ++ repeat Raw (length l) ++ B)) -> di = length A ->
  k < length l ->
  append_loop l (mkVec bs vb0 (db, di) c (Some k)) =
  Throw ElemThrow (mkVec (upd bs db (Blk (A ++ map Live (firstn k l) ++ repeat Raw (length l - k) ++ B)))
    vb0 (db, di + k) c None).
Proof.
  induction l as [|x l IH]; intros bs vb0 c db di A B k H -> Hk; [cbn in Hk; lia|].
  cbn [append_loop length]. cbn [length repeat app] in H.
  pose proof (nth_lt _ _ _ H) as L.
  rewrite bind_get. cbn [ve]. destruct k as [|k].
  - cbn [firstn map app]. rewrite Nat.sub_0_r, Nat.add_0_r. cbn [repeat app].
    rewrite (upd_nth_id bs db) by exact H.
    apply bind_throw. unfold construct. apply bind_throw. reflexivity.
  - erewrite bind_ok.
    2:{ unfold construct. erewrite bind_ok by reflexivity. unfold with_fuse; cbn [blocks vb ve vcap].
        eapply begin_life_mid; eauto. }
    rewrite bind_get. unfold set_end at 1. erewrite bind_ok by reflexivity.
    unfold with_end; cbn [blocks vb ve vcap vfuse fst snd].
    erewrite (IH _ _ _ _ _ (A ++ [Live x]) B k).
    + rewrite upd_upd_same, <- app_assoc. cbn [map app firstn]. do 3 f_equal. lia.
    + nthu. rewrite <- app_assoc. reflexivity.
    + len.
    + cbn in Hk. lia.
Qed.

(** assign in the same buffer: a prefix of the new contents remains. *)
Lemma assign_throw_stay (s : vec) (xs : list V) l k :
  holds SC s xs -> vfuse s = Some k -> k < length l ->
  length l <= vcap s -> (vb s = 0 \/ RB <= length l) ->
  exists s', assign_range SC RB maxn l s = Throw ElemThrow s' /\ holds SC s' (firstn k l).
Proof.
  intros H Hf Hk Hc Hst. destruct (destroy_all_spec s xs H) as (s1 & E & O & B1 & B2 & B3 & B4).
  unfold assign_range. erewrite bind_ok by exact E. unfold assign_copy.
  rewrite <- B3 in O, Hc. rewrite <- B1 in Hst.
  destruct (choose_data_spec s1 _ (length l) O ltac:(lia))
    as [(Hd & Hstay & E1)|(db & c' & bs' & E1 & Hd & HT & Hsame & Hcase)].
  2:{ exfalso. destruct Hcase as [(?&?&?&?)|(?&?)]; lia. }
  erewrite bind_ok by exact E1. cbn [fst snd].
  destruct s1 as [bs b e c f]. cbn [blocks vb ve vcap vfuse] in *. rewrite Hf in B4. subst f.
  unfold set_end at 1. erewrite bind_ok by reflexivity.
  unfold with_end; cbn [blocks vb ve vcap vfuse].
  eexists. split.
  - apply bind_throw. apply append_loop_throw with (A := []) (B := repeat Raw (c - length l)).
    + destruct O as (Hn & _). cbn [blocks vb] in Hn. rewrite Hn. cbn [app].
      rewrite <- repeat_app. do 3 f_equal. lia.
    + reflexivity.
    + exact Hk.
  - apply holds_owns. cbn [vb ve vcap]. split; [f_equal; len|]. split; [len|].
    cbn [app]. rewrite <- repeat_app.
    replace (map Live (firstn k l) ++ repeat Raw (length l - k + (c - length l)))
      with (buf c (firstn k l)) by (unfold buf; do 2 f_equal; len).
    eapply owns_upd; [exact O|]. unfold buf. len.
Qed.

(** assign into another buffer: m_begin and m_end are left in different buffers. *)
Lemma assign_throw_move (s : vec) (xs : list V) l k :
  holds SC s xs -> vfuse s = Some k -> k < length l -> room maxn (length l) ->
  (vcap s < length l \/ (vb s <> 0 /\ length l < RB)) ->
  exists s', assign_range SC RB maxn l s = Throw ElemThrow s' /\ destructor s' = UB.
Proof.
  intros H Hf Hk Hr Hm. destruct (destroy_all_spec s xs H) as (s1 & E & O & B1 & B2 & B3 & B4).
  unfold assign_range. erewrite bind_ok by exact E. unfold assign_copy.
  rewrite <- B3 in O, Hm. rewrite <- B1 in Hm.
  destruct (choose_data_spec s1 _ (length l) O ltac:(auto))
    as [(Hd & Hstay & E1)|(db & c' & bs' & E1 & Hd & HT & Hsame & Hcase)].
  { exfalso. lia. }
  erewrite bind_ok by exact E1. cbn [fst snd].
  pose proof HT as (T1 & T2 & T3 & T4 & T5 & T6).
  destruct s1 as [bs b e c f]. unfold with_blocks. cbn [blocks vb ve vcap vfuse] in *.
  rewrite Hf in B4. subst f.
  unfold set_end at 1. erewrite bind_ok by reflexivity.
  unfold with_end; cbn [blocks vb ve vcap vfuse].
  eexists. split.
  - apply bind_throw. apply append_loop_throw with (A := []) (B := repeat Raw (c' - length l)).
    + rewrite T2. cbn [app]. rewrite <- repeat_app. do 3 f_equal. lia.
    + reflexivity.
    + exact Hk.
  - unfold destructor. apply bind_ub. unfold destroy_all. rewrite bind_get. cbn [ve vb fst snd].
    replace (db =? b) with false by (symmetry; now apply Nat.eqb_neq). reflexivity.
Qed.

(** Calls which run no throwing constructor. *)
Definition nothrow {S A} (m : M S A) : Prop := forall s e s', m s <> Throw e s'.

Lemma nothrow_bind {S A B} (m : M S A) (k : A -> M S B) :
  nothrow m -> (forall a, nothrow (k a)) -> nothrow (bind m k).
Proof.
  intros Hm Hk s e s'. unfold bind. destruct (m s) as [a s1|e1 s1| |] eqn:E; try discriminate.
  - apply Hk.
  - exfalso. exact (Hm _ _ _ E).
Qed.
Lemma nothrow_ret {S A} (a : A) : nothrow (@ret S A a). Proof. intros s e s'. discriminate. Qed.
Lemma nothrow_get {S} : nothrow (@get S). Proof. intros s e s'. discriminate. Qed.
Lemma nothrow_destroy p : nothrow (@destroy V p).
Proof. intros s e s'. unfold destroy. destruct (slot_at p (blocks s)) as [[|]|]; discriminate. Qed.
Lemma nothrow_begin p v : nothrow (@begin_life V p v).
Proof. intros s e s'. unfold begin_life. destruct (slot_at p (blocks s)) as [[|]|]; discriminate. Qed.
Lemma nothrow_move_to p q : nothrow (move_to moved p q).
Proof.
  unfold move_to. apply nothrow_bind; [|intros; apply nothrow_begin].
  intros s e s'. unfold move_from. destruct (slot_at q (blocks s)) as [[|]|]; discriminate.
Qed.
Lemma nothrow_dealloc b n : nothrow (@deallocate V b n).
Proof.
  intros s e s'. unfold deallocate. destruct b; [discriminate|].
  destruct (nth_error (blocks s) (S b)) as [[l|]|]; try discriminate.
  destruct ((length l =? n) && forallb is_raw l); discriminate.
Qed.
Lemma nothrow_destroy_from b k : forall i, nothrow (@destroy_from V b i k).
Proof.
  induction k as [|k IH]; intros i; cbn [destroy_from]; [apply nothrow_ret|].
  apply nothrow_bind; [apply nothrow_destroy|auto].
Qed.
Lemma nothrow_move_range db sb k : forall di si, nothrow (move_range moved db di sb si k).
Proof.
  induction k as [|k IH]; intros di si; cbn [move_range]; [apply nothrow_ret|].
  apply nothrow_bind; [apply nothrow_move_to|auto].
Qed.
Lemma nothrow_grow_loop b pos num k : nothrow (grow_loop moved b pos num k).
Proof.
  induction k as [|k IH]; cbn [grow_loop]; [apply nothrow_ret|].
  apply nothrow_bind; [apply nothrow_move_to|intros _].
  apply nothrow_bind; [apply nothrow_destroy|auto].
Qed.

Lemma nothrow_use {S A} (m : M S A) s e s' : nothrow m -> m s = Throw e s' -> False.
Proof. intros H E. exact (H _ _ _ E). Qed.

Lemma nothrow_set_end p : nothrow (@set_end V p). Proof. intros s e s'. discriminate. Qed.
Lemma nothrow_set_buf b p c : nothrow (@set_buf V b p c). Proof. intros s e s'. discriminate. Qed.

Ltac nothrows :=
  repeat first
    [ apply nothrow_ret | apply nothrow_get | apply nothrow_set_end | apply nothrow_set_buf
    | apply nothrow_destroy_from | apply nothrow_move_range | apply nothrow_grow_loop
    | apply nothrow_dealloc
    | match goal with |- nothrow (bind _ _) => apply nothrow_bind; [|intros] end
    | match goal with |- nothrow (if ?c then _ else _) => destruct c end ].

Lemma choose_data_throw d s e s' :
  choose_data SC RB maxn d s = @Throw vec _ e s' -> e = BadAlloc /\ s' = s.
Proof.
  unfold choose_data. rewrite bind_get.
  assert (Ha : forall n c e s', (let* b := allocate maxn n in ret (b, c)) s = @Throw vec (nat * nat) e s' ->
            e = BadAlloc /\ s' = s).
  { intros n c e0 s0. unfold bind, allocate. destruct (maxn <? n)%N; [|discriminate].
    intros H. injection H as <- <-. auto. }
  destruct (negb (is_static s)).
  - destruct (N.of_nat (vcap s) <? d)%N.
    + destruct (grow_cap _ _ _); [|discriminate]. apply Ha.
    + destruct (d <? N.of_nat RB)%N; discriminate.
  - destruct (N.of_nat SC <? d)%N; [apply Ha|discriminate].
Qed.

(** Whatever makes grow_at throw, nothing has changed. *)
Lemma grow_at_throw position num s e s' :
  grow_at moved SC RB maxn position num s = Throw e s' -> s' = s /\ e <> ElemThrow.
Proof.
  unfold grow_at. unfold msize at 1, bind at 1. destruct (fst (ve s) =? vb s); [|discriminate].
  unfold throw_if at 1. unfold bind at 1.
  destruct ((position <? 0) || (Z.of_nat (snd (ve s)) <? position))%Z.
  { intros H. injection H as <- <-. split; [reflexivity|discriminate]. }
  rewrite bind_get. unfold bind at 1.
  destruct (choose_data SC RB maxn _ s) as [cdr s1|e1 s1| |] eqn:E; try discriminate.
  - intros H. exfalso. revert H. destruct (fst cdr =? vb s).
    + apply nothrow_use. nothrows.
    + apply nothrow_use. nothrows.
  - intros H. injection H as <- <-. apply choose_data_throw in E. destruct E as [-> ->].
    split; [reflexivity|discriminate].
Qed.

Lemma construct_throw p x s e s' : @construct V p x s = Throw e s' -> e = ElemThrow.
Proof.
  assert (Ht : forall v, (tick;;; begin_life p v) s = Throw e s' -> e = ElemThrow).
  { intros v. unfold bind, tick. destruct (vfuse s) as [[|k]|]; intros H.
    - injection H as <- _. reflexivity.
    - exfalso. exact (nothrow_begin _ _ _ _ _ H).
    - exfalso. exact (nothrow_begin _ _ _ _ _ H). }
  destruct x as [v|v|q]; unfold construct.
  - apply Ht.
  - intros H. exfalso. exact (nothrow_begin _ _ _ _ _ H).
  - unfold bind at 1, read. destruct (slot_at q (blocks s)) as [[|v]|]; try discriminate. apply Ht.
Qed.

Lemma insert_alloc_strong position x s e s' :
  insert1 moved SC RB maxn position x s = Throw e s' -> e <> ElemThrow -> s' = s.
Proof.
  unfold insert1, bind at 1.
  destruct (grow_at moved SC RB maxn position 1 s) as [p s1|e1 s1| |] eqn:E; try discriminate.
  - rewrite bind_get. unfold bind.
    destruct (construct (vb s1, p) x s1) as [u s2|e2 s2| |] eqn:E2; try discriminate.
    intros H He. injection H as <- <-. apply construct_throw in E2. congruence.
  - intros H _. injection H as <- <-. now apply grow_at_throw in E.
Qed.

Lemma push_back_alloc_strong x s e s' :
  push_back moved SC RB maxn x s = Throw e s' -> e <> ElemThrow -> s' = s.
Proof.
  unfold push_back. unfold msize at 1, bind at 1. destruct (fst (ve s) =? vb s); [|discriminate].
  unfold bind at 1.
  destruct (grow_at moved SC RB maxn _ 1 s) as [p s1|e1 s1| |] eqn:E; try discriminate.
  - rewrite bind_get. intros H He. apply construct_throw in H. congruence.
  - intros H _. injection H as <- <-. now apply grow_at_throw in E.
Qed.

Lemma reserve_alloc_strong n s e s' :
  reserve moved SC RB maxn n s = Throw e s' -> s' = s.
Proof.
  unfold reserve. rewrite bind_get. destruct (n <=? N.of_nat (vcap s))%N; [discriminate|].
  unfold bind at 1.
  destruct (choose_data SC RB maxn n s) as [cdr s1|e1 s1| |] eqn:E; try discriminate.
  - intros H. exfalso. revert H. unfold msize at 1, bind at 1.
    destruct (fst (ve s1) =? vb s1); [|discriminate]. generalize (snd (ve s1)). intros m.
    apply nothrow_use. nothrows.
  - intros H. injection H as <- <-. now apply choose_data_throw in E.
Qed.

(** assign destroys first and allocates later: if the allocation fails the vector still
    counts the destroyed elements. *)
Lemma assign_alloc_ub (s : vec) (xs : list V) l :
  holds SC s xs -> xs <> [] -> vb s = 0 -> SC < length l -> (maxn < N.of_nat (length l))%N ->
  exists s', assign_range SC RB maxn l s = Throw BadAlloc s' /\ destructor s' = UB.
Proof.
  intros H Hx Hb Hl Hm. pose proof H as (He & Hc & _).
  destruct (destroy_all_spec s xs H) as (s1 & E & O & B1 & B2 & B3 & B4).
  exists s1. unfold assign_range. erewrite bind_ok by exact E. split.
  - unfold assign_copy. apply bind_throw. unfold choose_data. rewrite bind_get.
    unfold is_static. rewrite B1, Hb. cbn [Nat.eqb negb].
    replace (N.of_nat SC <? N.of_nat (length l))%N with true by (symmetry; apply N.ltb_lt; lia).
    apply bind_throw. unfold allocate.
    replace (maxn <? N.of_nat (length l))%N with true by (symmetry; apply N.ltb_lt; lia). reflexivity.
  - unfold destructor. apply bind_ub. unfold destroy_all. rewrite bind_get.
    rewrite B2, He, B1. cbn [fst snd]. rewrite Nat.eqb_refl.
    destruct s1 as [bs b e c f]. cbn [blocks vb ve vcap vfuse] in *.
    destruct O as (Hn & _). cbn [blocks vb] in Hn.
    assert (0 < length xs) by (destruct xs; [congruence|cbn; lia]).
    destruct (vcap s) as [|vc] eqn:Ev; [lia|].
    eapply destroy_from_raw with (A := []) (xs := []) (B := repeat Raw vc).
    + rewrite <- B1. exact Hn.
    + reflexivity.
    + exact H0.
Qed.

(** ** The facts behind the property theorems *)
Lemma history_fact n (os : list smallsys) :
  small_sys_along dflt maxn (repeat [] n) os ->
  exists st,
    run_calls (sys_call moved dflt SC RB maxn) (repeat (init_vec SC) n) os =
      Some (st, snd (small_sys_run dflt (repeat [] n) os)) /\
    Forall2 (holds SC) st (fst (small_sys_run dflt (repeat [] n) os)).
Proof.
  intros H. destruct (sys_run_spec os _ _ (init_good n) H) as (st & E & G).
  exists st. split; [exact E|]. clear E. induction G as [|a b l l' [Ha _] G IH]; constructor; auto.
Qed.

Lemma holds_alive (s : vec) (xs : list V) : holds SC s xs -> exactly_current_alive s.
Proof.
  intros H. pose proof H as H0. pose proof H as (He & Hc & Hn & _).
  apply holds_owns in H. destruct H as (_ & _ & Hown).
  unfold exactly_current_alive. rewrite He. cbn [fst snd]. split; [reflexivity|].
  split; [exact Hc|]. intros b i. split.
  - intros (v & Hv). destruct (Nat.eq_dec b (vb s)) as [->|Hb].
    + split; [reflexivity|]. destruct (lt_dec i (length xs)) as [|Hi]; [assumption|exfalso].
      unfold slot_at in Hv; cbn [fst snd] in Hv. rewrite Hn, nth_error_app2 in Hv by len.
      apply nth_error_In, repeat_spec in Hv. discriminate.
    + exfalso. exact (other_block_dead s _ b i v Hown Hb Hv).
  - intros [-> Hi]. destruct (nth_some xs i Hi) as (v & Ev). exists v. eapply holds_slot; eauto.
Qed.

Lemma holds_one_block (s : vec) (xs : list V) : holds SC s xs -> one_block s.
Proof.
  intros H. apply holds_owns in H. destruct H as (_ & Hc & O1 & O2 & O3 & O4 & O5).
  split; [|exact O5]. eauto.
Qed.

Lemma Forall2_In_l {A B} (R : A -> B -> Prop) l l' x : Forall2 R l l' -> In x l -> exists y, R x y.
Proof.
  induction 1 as [|a b l l' Hab H IH]; intros Hx; [destruct Hx|].
  destruct Hx as [<-|Hx]; eauto.
Qed.

Lemma history_lifetimes_fact n (os : list smallsys) :
  small_sys_along dflt maxn (repeat [] n) os ->
  exists st rs,
    run_calls (sys_call moved dflt SC RB maxn) (repeat (init_vec SC) n) os = Some (st, rs) /\
    forall s, In s st -> exactly_current_alive s.
Proof.
  intros H. destruct (history_fact n os H) as (st & E & G).
  eexists _, _. split; [exact E|]. intros s Hs.
  destruct (Forall2_In_l _ _ _ _ G Hs) as (xs & Hx). eapply holds_alive; eauto.
Qed.

Lemma history_storage_fact n (os : list smallsys) :
  small_sys_along dflt maxn (repeat [] n) os ->
  exists st rs,
    run_calls (sys_call moved dflt SC RB maxn) (repeat (init_vec SC) n) os = Some (st, rs) /\
    forall s, In s st -> one_block s /\
      exists s', destructor s = Ok tt s' /\ all_released SC s'.
Proof.
  intros H. destruct (history_fact n os H) as (st & E & G).
  eexists _, _. split; [exact E|]. intros s Hs.
  destruct (Forall2_In_l _ _ _ _ G Hs) as (xs & Hx). split; [eapply holds_one_block; eauto|].
  eapply destructor_spec; eauto.
Qed.

Lemma revert_wrong (s : vec) (xs : list V) :
  holds SC s xs -> room maxn (length xs) -> vb s <> 0 -> length xs = SC ->
  exists s', revert_to_static moved SC maxn s = Ok true s' /\ vb s' <> 0.
Proof.
  clear dflt.
  intros H Hr Hb Hl. destruct (revert_spec s xs H Hr) as (r & s' & E & H' & F & R1 & R2).
  exists s'. assert (r = true) by (apply R1; lia). subst r. split; [exact E|].
  intros Q. apply R2 in Q. lia.
Qed.

Lemma empty_insert_ub_fact (s : vec) (xs : list V) pos x :
  holds SC s xs -> pos < length xs -> room maxn (length xs) ->
  (vb s = 0 \/ RB <= length xs) ->
  insert_n moved SC RB maxn (Z.of_nat pos) 0%N x s = UB /\
  insert_range moved SC RB maxn (Z.of_nat pos) [] s = UB.
Proof.
  intros H Hp Hr Hs. pose proof (empty_insert_ub s xs pos H Hp Hr Hs) as E.
  unfold insert_n, insert_range. cbn [length N.of_nat].
  split; (erewrite bind_ub; [reflexivity|exact E]).
Qed.

(** Where an empty range is harmless: at the end, and when the elements move back to the
    static buffer anyway. *)
Lemma empty_ok_fact (s : vec) (xs : list V) pos v :
  holds SC s xs -> vfuse s = None -> pos <= length xs -> room maxn (length xs) ->
  (pos = length xs \/ ~ (vb s = 0 \/ RB <= length xs)) ->
  (exists s', insert_n moved SC RB maxn (Z.of_nat pos) 0%N (CopyOf v) s = Ok pos s' /\ holds SC s' xs) /\
  (exists s', insert_range moved SC RB maxn (Z.of_nat pos) [] s = Ok pos s' /\ holds SC s' xs) /\
  (exists s', erase_range moved SC RB maxn (Z.of_nat pos) (Z.of_nat pos) s = Ok pos s' /\ holds SC s' xs).
Proof.
  intros H Hf Hp Hr Hz.
  assert (Ei : insert_at xs pos [] = xs) by (unfold insert_at; apply firstn_skipn).
  split; [|split].
  - destruct (insert_n_spec s xs pos 0 v H Hf Hp) as (s' & E & H' & _); auto.
    { now rewrite Nat.add_0_r. }
    cbn [repeat] in H'. rewrite Ei in H'. eauto.
  - destruct (insert_range_spec s xs pos [] H Hf Hp) as (s' & E & H' & _); auto.
    { now rewrite Nat.add_0_r. }
    rewrite Ei in H'. eauto.
  - destruct (shrink_at_spec s xs pos 0 H) as (s' & E & H' & _); auto; [lia|].
    exists s'. unfold erase_range. rewrite Z.ltb_irrefl. erewrite bind_ok by reflexivity.
    rewrite Z.sub_diag. split; [exact E|]. rewrite Nat.add_0_r in H'.
    unfold erase_at in H'. now rewrite firstn_skipn in H'.
Qed.

(** After reserve(n) insertions up to n elements stay in place, provided the vector is not
    about to go back to the static buffer. *)
Lemma reserve_then_push (s : vec) (xs : list V) v :
  holds SC s xs -> vfuse s = None -> room maxn (length xs + 1) ->
  length xs + 1 <= vcap s -> (vb s = 0 \/ RB <= length xs + 1) ->
  exists s', push_back moved SC RB maxn (CopyOf v) s = Ok tt s' /\ vb s' = vb s /\ vcap s' = vcap s.
Proof.
  intros H Hf Hr Hc Hs. destruct (push_back_spec s xs v H Hf Hr) as (s' & E & H' & F & G).
  exists s'. destruct (G (conj Hc Hs)). auto.
Qed.

Lemma reserve_then_insert (s : vec) (xs : list V) pos l :
  holds SC s xs -> vfuse s = None -> pos <= length xs -> l <> [] ->
  room maxn (length xs + length l) ->
  length xs + length l <= vcap s -> (vb s = 0 \/ RB <= length xs + length l) ->
  exists s', insert_range moved SC RB maxn (Z.of_nat pos) l s = Ok pos s' /\
    vb s' = vb s /\ vcap s' = vcap s.
Proof.
  intros H Hf Hp Hl Hr Hc Hs.
  destruct (insert_range_spec s xs pos l H Hf Hp Hr) as (s' & E & H' & F & G); [congruence|].
  exists s'. destruct (G (conj Hc Hs)). auto.
Qed.

Lemma reserve_fact (s : vec) (xs : list V) n :
  holds SC s xs -> room maxn n ->
  exists s', reserve moved SC RB maxn (N.of_nat n) s = Ok tt s' /\ holds SC s' xs /\
    n <= vcap s' /\ vcap s <= vcap s' /\ length xs <= vcap s'.
Proof.
  intros H Hr. destruct (reserve_spec s xs n H Hr) as (s' & E & H' & F & C1 & C2 & _).
  exists s'. pose proof H' as (_ & Hl & _). auto.
Qed.

End Proofs.
