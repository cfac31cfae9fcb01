(** Proofs about dynamic_bitset over the library's own vectors. *)
From Coq Require Import List Arith NArith ZArith Bool Lia.
From Verif Require Import Base SeqSpec VecCommon SmallVectorProofs BitsetModel BitsetSpec BitsetProofs BitsetBufModel BitsetBufSpec.
Import ListNotations.
Open Scope nat_scope.

Lemma map_upd {X Y} (f : X -> Y) l i x : map f (upd l i x) = upd (map f l) i (f x).
Proof. revert i. induction l as [|y l IH]; intros [|i]; cbn; auto. now rewrite IH. Qed.
Lemma upd_other_id {X} (l : list X) j x : nth_error l j = Some x -> upd l j x = l.
Proof. apply upd_nth_id. Qed.
Lemma nth_map {X Y} (f : X -> Y) l i x : nth_error l i = Some x -> nth_error (map f l) i = Some (f x).
Proof. intros H. rewrite nth_error_map, H. reflexivity. Qed.

Lemma idx_lt {X} (l : list X) i : i < length l -> exists x, nth_error l i = Some x.
Proof. intros H. destruct (nth_error l i) eqn:E; eauto. apply nth_error_None in E. lia. Qed.

(** * Any buffers *)
Section Generic.
Variable W : nat.
Hypothesis HW : 0 < W.
Context {F : Type}.
Variable B : buffers F.
Variable room : nat -> Prop.
Variable rep : F -> list (list N) -> Prop.
Hypothesis HB : buffers_ok W B room rep.

Definition rel (st : @gst F) (ss : list bs) : Prop :=
  rep (fst st) (map buf ss) /\ snd st = map bsize ss.

Lemma rel_words st ss i s : rel st ss -> nth_error ss i = Some s -> words_ok W (buf s).
Proof. intros (R & _) E. eapply (ok_words _ _ _ _ HB); [exact R|]. apply in_map. eapply nth_error_In; eauto. Qed.

(** What the program sees of the [i]-th bitset. *)
Lemma bits_at st ss i s : rel st ss -> nth_error ss i = Some s -> bits i st = Ok (bsize s) st.
Proof. intros (_ & E) H. unfold bits. rewrite E, (nth_map bsize _ _ _ H). reflexivity. Qed.
Lemma gsize_at st ss i s : rel st ss -> nth_error ss i = Some s -> gsize B i st = Ok (length (buf s)) st.
Proof.
  intros (R & _) H. unfold gsize, buffer. rewrite (ok_size _ _ _ _ HB _ _ _ _ R (nth_map buf _ _ _ H)). now destruct st.
Qed.
Lemma gword_at st ss i s k w : rel st ss -> nth_error ss i = Some s -> nth_error (buf s) k = Some w ->
  gword B i k st = Ok w st.
Proof.
  intros (R & _) H K. unfold gword, buffer. rewrite (ok_get _ _ _ _ HB _ _ _ _ _ _ R (nth_map buf _ _ _ H) K). now destruct st.
Qed.
Lemma rel_upd f sz ss i s b n : rep f (upd (map buf ss) i b) -> sz = upd (map bsize ss) i n ->
  nth_error ss i = Some s -> rel (f, sz) (upd ss i (mkBs b n)).
Proof. intros R -> H. split; cbn [fst snd]; rewrite map_upd; auto. Qed.
Lemma sizes_kept (ss : list bs) i s : nth_error ss i = Some s -> map bsize ss = upd (map bsize ss) i (bsize s).
Proof. intros H. symmetry. apply upd_nth_id. now apply nth_map. Qed.
Lemma gset_word_at st ss i s k w : rel st ss -> nth_error ss i = Some s -> k < length (buf s) -> small W w ->
  exists st', gset_word B i k w st = Ok tt st' /\ rel st' (upd ss i (with_buf (upd (buf s) k w) s)).
Proof.
  intros (R & E) H K L. destruct (ok_put _ _ _ _ HB _ _ _ _ _ _ R (nth_map buf _ _ _ H) K L) as (f' & G & R').
  unfold gset_word, buffer. rewrite G. eexists. split; [reflexivity|].
  eapply rel_upd; eauto. rewrite E. now apply sizes_kept.
Qed.
Lemma set_bits_at st ss i s n : rel st ss -> nth_error ss i = Some s ->
  set_bits i n st = Ok tt (fst st, upd (snd st) i n) /\ rel (fst st, upd (snd st) i n) (upd ss i (mkBs (buf s) n)).
Proof.
  intros (R & E) H. split; [reflexivity|]. eapply rel_upd; eauto; [|now rewrite E].
  now rewrite (upd_nth_id _ _ _ (nth_map buf _ _ _ H)).
Qed.

Lemma here (ss : list bs) i s s' : nth_error ss i = Some s -> nth_error (upd ss i s') i = Some s'.
Proof. intros H. apply nth_error_upd_eq. apply nth_error_Some. congruence. Qed.
Lemma elsewhere (ss : list bs) i j s' : i <> j -> nth_error (upd ss i s') j = nth_error ss j.
Proof. intros H. now apply nth_error_upd_neq. Qed.

(** The program [g] does to the [i]-th bitset what [m] does, where [m] works. *)
Definition simp {A} (i : nat) (g : M (@gst F) A) (m : M bs A) (s : bs) : Prop :=
  forall st ss a s', rel st ss -> nth_error ss i = Some s -> m s = Ok a s' ->
  exists st', g st = Ok a st' /\ rel st' (upd ss i s').
Definition sim {A} (i : nat) (g : M (@gst F) A) (m : M bs A) : Prop := forall s, simp i g m s.

Lemma simp_ret {A} i (a : A) s : simp i (ret a) (ret a) s.
Proof. intros st ss a' s' R E H. injection H as <- <-. exists st. split; [reflexivity|]. now rewrite upd_nth_id. Qed.
Lemma simp_bind {A C} i (g : M gst A) m (h : A -> M gst C) n s :
  simp i g m s -> (forall a s1, m s = Ok a s1 -> simp i (h a) (n a) s1) -> simp i (bind g h) (bind m n) s.
Proof.
  intros H K st ss c s2 R E Q. unfold bind in Q. destruct (m s) as [a s1|e s1| |] eqn:E1; try discriminate.
  destruct (H st ss a s1 R E E1) as (st1 & G & R1).
  destruct (K a s1 eq_refl st1 _ c s2 R1 (here _ _ _ _ E) Q) as (st2 & G2 & R2).
  exists st2. split; [unfold bind; now rewrite G|]. now rewrite upd_upd_same in R2.
Qed.
Lemma simp_get {A} i g (n : bs -> M bs A) s : simp i g (n s) s -> simp i g (bind get n) s.
Proof. intros H. exact H. Qed.
Lemma simp_bits {A} i (h : nat -> M gst A) m s : simp i (h (bsize s)) m s -> simp i (bind (bits i) h) m s.
Proof. intros H st ss a s' R E Q. erewrite bind_ok by (eapply bits_at; eauto). eapply H; eauto. Qed.
Lemma simp_size {A} i (h : nat -> M gst A) m s : simp i (h (length (buf s))) m s -> simp i (bind (gsize B i) h) m s.
Proof. intros H st ss a s' R E Q. erewrite bind_ok by (eapply gsize_at; eauto). eapply H; eauto. Qed.
Lemma simp_word i k s : simp i (gword B i k) (word k) s.
Proof.
  intros st ss a s' R E H. unfold word in H. destruct (nth_error (buf s) k) as [w|] eqn:K; [|discriminate].
  injection H as <- <-. exists st. split; [eapply gword_at; eauto|]. now rewrite upd_nth_id.
Qed.
Lemma simp_set_word i k w s : small W w -> simp i (gset_word B i k w) (set_word k w) s.
Proof.
  intros L st ss a s' R E H. unfold set_word in H. destruct (k <? length (buf s)) eqn:K; [|discriminate].
  injection H as <- <-. apply Nat.ltb_lt in K. now apply gset_word_at.
Qed.
Lemma simp_set_bits i n s : simp i (set_bits i n) (set_size n) s.
Proof. intros st ss a s' R E H. injection H as <- <-. destruct (set_bits_at st ss i s n R E). eauto. Qed.
Lemma simp_resize i n s : room n -> simp i (buffer (f_resize B i n)) (vec_resize n) s.
Proof.
  intros L st ss a s' (R & Z) E H. injection H as <- <-.
  destruct (ok_resize _ _ _ _ HB _ _ _ _ _ R (nth_map buf _ _ _ E) L) as (f' & G & R').
  unfold buffer. rewrite G. eexists. split; [reflexivity|]. eapply rel_upd; eauto. rewrite Z. now apply sizes_kept.
Qed.
(** The words of a bitset are words. *)
Lemma simp_words {A} i (g : M gst A) m s : (words_ok W (buf s) -> simp i g m s) -> simp i g m s.
Proof. intros H st ss a s' R E Q. eapply H; eauto. eapply rel_words; eauto. Qed.
Lemma word_inv k s w s' : word k s = Ok w s' -> s' = s /\ nth_error (buf s) k = Some w.
Proof. unfold word. destruct (nth_error (buf s) k); [|discriminate]. intros H. injection H as -> ->. auto. Qed.

(** A word is read and replaced by another. *)
Lemma simp_change i k (f : N -> N) s : (forall w, small W w -> small W (f w)) ->
  simp i (let* w := gword B i k in gset_word B i k (f w)) (let* w := word k in set_word k (f w)) s.
Proof.
  intros Hf. apply simp_words. intros L. apply simp_bind; [apply simp_word|]. intros w s1 K.
  apply word_inv in K. destruct K as (-> & K). apply simp_set_word. apply Hf. eapply words_ok_nth; eauto.
Qed.

Lemma sim_test i p : sim i (gtest W B i p) (test W p).
Proof. intros s. apply simp_bind; [apply simp_word|]. intros w ? _. apply simp_ret. Qed.
Lemma sim_set1 i p : sim i (gset1 W B i p) (set1 W p).
Proof. intros s. apply simp_change with (f := fun w => N.lor w (word_mask W p)). intros w H. apply small_lor; auto. apply small_mask; auto. Qed.
Lemma sim_reset1 i p : sim i (greset1 W B i p) (reset1 W p).
Proof. intros s. apply simp_change with (f := fun w => N.land w (wnot W (word_mask W p))). intros w H. apply small_land; auto. Qed.
Lemma sim_set_to i p b : sim i (gset_to W B i p b) (set_to W p b).
Proof. destruct b; [apply sim_set1|apply sim_reset1]. Qed.
Lemma sim_flip i p : sim i (gflip W B i p) (flip W p).
Proof. intros s. apply simp_change with (f := fun w => N.lxor w (word_mask W p)). intros w H. apply small_lxor; auto. apply small_mask; auto. Qed.
Lemma sim_any_loop i k : forall p, sim i (gany_loop B i p k) (any_loop p k).
Proof.
  induction k as [|k IH]; intros p s; cbn [gany_loop any_loop]; [apply simp_ret|].
  apply simp_bind; [apply simp_word|]. intros w s1 _. destruct (w =? 0)%N; [apply IH|apply simp_ret].
Qed.
Lemma empty_length s : is_empty s = (length (buf s) =? 0).
Proof. unfold is_empty. destruct (buf s); reflexivity. Qed.
Lemma sim_any i : sim i (gany W B i) (any_ W).
Proof.
  intros s. unfold any_, gany. apply simp_get, simp_size. rewrite empty_length.
  destruct (length (buf s) =? 0); [apply simp_ret|]. apply simp_bits.
  apply simp_bind; [apply sim_any_loop|]. intros b s1 _.
  destruct b; [apply simp_ret|]. destruct (bsize s / W =? length (buf s)); [apply simp_ret|].
  apply simp_bind; [apply simp_word|]. intros w s2 _. apply simp_ret.
Qed.
Lemma sim_none i : sim i (gnone W B i) (none_ W).
Proof. intros s. apply simp_bind; [apply sim_any|]. intros b ? _. apply simp_ret. Qed.
Lemma sim_resize i n : room (word_size W n) -> sim i (gresize W B i n) (resize W n).
Proof.
  intros L s. unfold resize, gresize. apply simp_get, simp_bits. apply simp_bind.
  - destruct (bsize s mod W =? 0); [apply simp_ret|]. apply simp_size.
    apply simp_change with (f := fun back => N.land back (wtrunc W (word_mask W (bsize s mod W) - 1))).
    intros w H. apply small_land; auto.
  - intros _ s1 _. apply simp_bind; [apply simp_set_bits|]. intros _ s2 _. now apply simp_resize.
Qed.
Lemma sim_push_back i b s : room (word_size W (bsize s + 1)) -> simp i (gpush_back W B i b) (push_back W b) s.
Proof.
  intros L. unfold push_back, gpush_back. apply simp_get, simp_bits. apply simp_bind; [now apply sim_resize|].
  intros _ s1 _. apply simp_get, simp_bits. apply sim_set_to.
Qed.
Lemma sim_iterate i fuel : forall p, sim i (giterate W B fuel i p) (iterate W fuel p).
Proof.
  induction fuel as [|fuel IH]; intros p s; cbn [giterate iterate]; apply simp_get, simp_bits;
    (destruct (p =? bsize s); [apply simp_ret|]).
  - intros st ss a s' _ _ H. discriminate.
  - apply simp_bind; [apply sim_test|]. intros b s1 _. apply simp_bind; [apply IH|]. intros l s2 _. apply simp_ret.
Qed.
Lemma sim_assign i ws s : room (length ws) -> words_ok W ws -> simp i (gassign W B i ws) (assign W ws) s.
Proof.
  intros L K st ss a s' R E H. injection H as <- <-. pose proof R as (R1 & Z).
  assert (i < length ss) as Hi by (apply nth_error_Some; congruence).
  destruct (ok_assign _ _ _ _ HB _ _ i ws R1) as (f' & G & R'); auto; [now rewrite map_length|].
  assert (rel (f', snd st) (upd ss i (mkBs ws (bsize s)))) as R2.
  { eapply rel_upd; eauto. rewrite Z. now apply sizes_kept. }
  unfold gassign. erewrite bind_ok by (unfold buffer; rewrite G; reflexivity).
  erewrite bind_ok by (eapply gsize_at; [exact R2|eapply here; eauto]).
  destruct (set_bits_at _ _ _ _ (length ws * W) R2 (here _ _ _ _ E)) as (G3 & R3).
  eexists. split; [exact G3|]. now rewrite upd_upd_same in R3.
Qed.

(** ** append *)

(** As [simp], where besides the [j]-th bitset is [o]. *)
Definition simj {A} (j : nat) (o : bs) (i : nat) (g : M (@gst F) A) (m : M bs A) (s : bs) : Prop :=
  forall st ss a s', rel st ss -> nth_error ss i = Some s -> nth_error ss j = Some o -> m s = Ok a s' ->
  exists st', g st = Ok a st' /\ rel st' (upd ss i s').
Lemma simj_of {A} j o i (g : M gst A) m s : simp i g m s -> simj j o i g m s.
Proof. intros H st ss a s' R E _ Q. eapply H; eauto. Qed.
Lemma simj_bind {A C} j o i (g : M gst A) m (h : A -> M gst C) n s : i <> j ->
  simj j o i g m s -> (forall a s1, m s = Ok a s1 -> simj j o i (h a) (n a) s1) -> simj j o i (bind g h) (bind m n) s.
Proof.
  intros D H K st ss c s2 R E J Q. unfold bind in Q. destruct (m s) as [a s1|e s1| |] eqn:E1; try discriminate.
  destruct (H st ss a s1 R E J E1) as (st1 & G & R1).
  destruct (K a s1 eq_refl st1 _ c s2 R1 (here _ _ _ _ E)) as (st2 & G2 & R2); [now rewrite elsewhere|exact Q|].
  exists st2. split; [unfold bind; now rewrite G|]. now rewrite upd_upd_same in R2.
Qed.
Lemma simj_size {A} j o i (h : nat -> M gst A) m s : simj j o i (h (length (buf o))) m s -> simj j o i (bind (gsize B j) h) m s.
Proof. intros H st ss a s' R E J Q. erewrite bind_ok by (eapply gsize_at; eauto). eapply H; eauto. Qed.
Lemma simj_bits {A} j o i (h : nat -> M gst A) m s : simj j o i (h (bsize o)) m s -> simj j o i (bind (bits j) h) m s.
Proof. intros H st ss a s' R E J Q. erewrite bind_ok by (eapply bits_at; eauto). eapply H; eauto. Qed.
Lemma simj_size_own {A} j o i (h : nat -> M gst A) m s : simj j o i (h (length (buf s))) m s -> simj j o i (bind (gsize B i) h) m s.
Proof. intros H st ss a s' R E J Q. erewrite bind_ok by (eapply gsize_at; eauto). eapply H; eauto. Qed.
Lemma simj_bits_own {A} j o i (h : nat -> M gst A) m s : simj j o i (h (bsize s)) m s -> simj j o i (bind (bits i) h) m s.
Proof. intros H st ss a s' R E J Q. erewrite bind_ok by (eapply bits_at; eauto). eapply H; eauto. Qed.
Lemma simj_word {A} j o i k w (h : N -> M gst A) m s : nth_error (buf o) k = Some w ->
  (small W w -> simj j o i (h w) m s) -> simj j o i (bind (gword B j k) h) m s.
Proof.
  intros K H st ss a s' R E J Q. erewrite bind_ok by (eapply gword_at; eauto). eapply H; eauto.
  eapply words_ok_nth; [eapply rel_words; [exact R|exact J]|exact K].
Qed.
Lemma simj_get {A} j o i g (n : bs -> M bs A) s : simj j o i g (n s) s -> simj j o i g (bind get n) s.
Proof. intros H. exact H. Qed.
Lemma simj_words {A} j o i (g : M gst A) m s : (words_ok W (buf s) -> simj j o i g m s) -> simj j o i g m s.
Proof. intros H st ss a s' R E J Q. eapply H; eauto. eapply rel_words; eauto. Qed.

Lemma skipn_cons {X} (l : list X) k x : nth_error l k = Some x -> skipn k l = x :: skipn (S k) l.
Proof. revert k. induction l as [|y l IH]; intros [|k] H; cbn in *; try discriminate; [congruence|]. now apply IH. Qed.

Lemma sim_append_loop i j o pad : i <> j -> forall fuel k myi s, length (buf o) <= k + fuel ->
  simj j o i (gappend_loop W B fuel i j k pad myi) (append_loop W (skipn k (buf o)) pad myi) s.
Proof.
  intros D. induction fuel as [|fuel IH]; intros k myi s L; cbn [gappend_loop]; apply simj_size;
    destruct (length (buf o) <=? k) eqn:K.
  - apply Nat.leb_le in K. rewrite skipn_all2 by exact K. apply simj_of, simp_ret.
  - apply Nat.leb_gt in K. lia.
  - apply Nat.leb_le in K. rewrite skipn_all2 by exact K. apply simj_of, simp_ret.
  - apply Nat.leb_gt in K. destruct (nth_error (buf o) k) as [cur|] eqn:E; [|apply nth_error_None in E; lia].
    rewrite (skipn_cons _ _ _ E). cbn [append_loop]. eapply simj_word; [exact E|]. intros Sc.
    apply simj_words. intros Sw. apply simj_bind; auto; [apply simj_of, simp_word|]. intros w s1 Hw.
    apply word_inv in Hw. destruct Hw as (-> & Hw).
    apply simj_bind; auto.
    { apply simj_of, simp_set_word. apply small_lor; auto; [eapply words_ok_nth; eauto|apply small_wshl; auto]. }
    intros _ s2 _. apply simj_get, simj_size_own. destruct (S myi =? length (buf s2)); [apply simj_of, simp_ret|].
    apply simj_bind; auto; [apply simj_of, simp_set_word; now apply small_wshr|]. intros _ s3 _. apply IH. lia.
Qed.

Lemma sim_append i j o s : i <> j ->
  (bsize s mod W = 0 -> room (length (buf s) + length (buf o))) ->
  (bsize s mod W <> 0 -> room (word_size W (bsize s + bsize o))) ->
  simj j o i (gappend W B i j) (append W o) s.
Proof.
  intros D R0 R1. unfold gappend, append. apply simj_size. rewrite empty_length.
  destruct (length (buf o) =? 0) eqn:L; [apply simj_of, simp_ret|]. apply Nat.eqb_neq in L.
  apply simj_get, simj_bits_own. destruct (bsize s mod W =? 0) eqn:P.
  - apply Nat.eqb_eq in P. intros st ss a s' R E J H. injection H as <- <-. pose proof R as (R2 & Z).
    destruct (ok_append _ _ _ _ HB _ _ i j _ _ R2 D (nth_map buf _ _ _ E) (nth_map buf _ _ _ J)) as (f' & G & R');
      [intros Q; rewrite Q in L; now apply L|auto|].
    assert (rel (f', snd st) (upd ss i (mkBs (buf s ++ buf o) (bsize s)))) as R3.
    { eapply rel_upd; eauto. rewrite Z. now apply sizes_kept. }
    erewrite bind_ok by (unfold buffer; rewrite G; reflexivity).
    erewrite bind_ok by (eapply bits_at; [exact R3|]; rewrite elsewhere; eauto).
    destruct (set_bits_at _ _ _ _ (bsize s + bsize o) R3 (here _ _ _ _ E)) as (G4 & R4).
    eexists. split; [exact G4|]. now rewrite upd_upd_same in R4.
  - apply Nat.eqb_neq in P. apply simj_size_own, simj_bits. apply simj_bind; auto.
    + apply simj_of, sim_resize; auto.
    + intros _ s1 _. apply simj_size. apply sim_append_loop with (k := 0); auto.
Qed.

Lemma sim_self_loop i pad : forall fuel k myi,
  sim i (gappend_loop W B fuel i i k pad myi) (self_append_loop W fuel k pad myi).
Proof.
  induction fuel as [|fuel IH]; intros k myi s; cbn [gappend_loop self_append_loop]; apply simp_get, simp_size;
    (destruct (length (buf s) <=? k); [apply simp_ret|]).
  - intros st ss a s' _ _ H. discriminate.
  - apply simp_words. intros Sw. apply simp_bind; [apply simp_word|]. intros cur s1 Hc.
    apply word_inv in Hc. destruct Hc as (-> & Hc).
    apply simp_bind; [apply simp_word|]. intros w s2 Hw. apply word_inv in Hw. destruct Hw as (-> & Hw).
    apply simp_bind.
    { apply simp_set_word. apply small_lor; auto; [eapply words_ok_nth; eauto|apply small_wshl; auto]. }
    intros u s3 H3. destruct u. apply simp_size.
    assert (length (buf s3) = length (buf s)) as ->.
    { unfold set_word in H3. destruct (_ <? _); [|discriminate]. injection H3 as <-. apply upd_length. }
    destruct (S myi =? length (buf s)); [apply simp_ret|].
    apply simp_bind; [apply simp_set_word; apply small_wshr; auto; eapply words_ok_nth; eauto|]. intros _ s4 _. apply IH.
Qed.
Lemma sim_self_append i s : (bsize s mod W <> 0 -> room (word_size W (bsize s + bsize s))) ->
  simp i (gappend W B i i) (self_append W) s.
Proof.
  intros L. unfold gappend, self_append. apply simp_get, simp_size. rewrite empty_length.
  destruct (length (buf s) =? 0); [apply simp_ret|]. apply simp_bits.
  destruct (bsize s mod W =? 0) eqn:P.
  - intros st ss a s' _ _ H. discriminate.
  - apply Nat.eqb_neq in P. apply simp_size, simp_bits. apply simp_bind; [apply sim_resize; auto|].
    intros _ s1 _. apply simp_get, simp_size. apply sim_self_loop.
Qed.

(** ** Histories *)

Lemma sim_call i o s l : holds_bits W s l -> bok W l o -> room (words_for W (length (fst (bstep W l o)))) ->
  simp i (gcall W B i o) (bcall W o) s.
Proof.
  intros (S1 & S2 & S3 & S4) K R. destruct o; cbn [gcall bcall bok bstep fst] in *.
  - apply simp_bind; [apply sim_test|intros ? ? _; apply simp_ret].
  - apply simp_bind; [apply sim_set1|intros ? ? _; apply simp_ret].
  - apply simp_bind; [apply sim_reset1|intros ? ? _; apply simp_ret].
  - apply simp_bind; [apply sim_set_to|intros ? ? _; apply simp_ret].
  - apply simp_bind; [apply sim_flip|intros ? ? _; apply simp_ret].
  - apply simp_bind; [apply sim_push_back|intros ? ? _; apply simp_ret].
    rewrite S1, word_size_ok by auto. rewrite app_length in R. exact R.
  - apply simp_bind; [apply sim_resize|intros ? ? _; apply simp_ret].
    rewrite word_size_ok by auto. rewrite (resize_bits_length W HW) in R; auto.
  - apply simp_bind; [apply sim_assign; auto|intros ? ? _; apply simp_ret].
    rewrite (bits_of_words_length W HW) in R. rewrite words_for_exact in R; auto; [|apply Nat.mod_mul; lia].
    now rewrite Nat.div_mul in R by lia.
  - apply simp_get, simp_bits, simp_ret.
  - apply simp_get, simp_bits. apply simp_bind; [apply sim_iterate|intros ? ? _; apply simp_ret].
  - apply simp_bind; [apply sim_any|intros ? ? _; apply simp_ret].
  - apply simp_bind; [apply sim_none|intros ? ? _; apply simp_ret].
Qed.

Lemma on_one_inv {S A} (m : M S A) i st a st' : on_one m i st = Ok a st' ->
  exists s s', nth_error st i = Some s /\ m s = Ok a s' /\ st' = upd st i s'.
Proof.
  unfold on_one. destruct (nth_error st i) as [s|]; [|discriminate].
  destruct (m s) as [x s'|e s'| |] eqn:E; try discriminate. intros H. injection H as <- <-. exists s, s'. auto.
Qed.
Lemma room_nth (cs : list (list bool)) i l : Forall (fun l => room (words_for W (length l))) cs ->
  nth_error cs i = Some l -> room (words_for W (length l)).
Proof. intros H E. eapply Forall_forall in H; eauto. eapply nth_error_In; eauto. Qed.
Lemma upd_at (cs : list (list bool)) i l k : nth_error cs i = Some l -> nth_error (upd cs i k) i = Some k.
Proof. intros H. apply nth_error_upd_eq. apply nth_error_Some. congruence. Qed.

Lemma sim_sys st ss cs o a ss' : rel st ss -> fam W ss cs -> bsys_ok W cs o ->
  Forall (fun l => room (words_for W (length l))) (fst (bsys_step W cs o)) ->
  bsys W o ss = Ok a ss' -> exists st', gsys W B o st = Ok a st' /\ rel st' ss'.
Proof.
  intros R Fm K L H. destruct o as [i op|i n v|i j|i j|i j]; cbn [bsys gsys bsys_ok bsys_step] in *.
  - destruct K as (l & E & K). rewrite E in L. destruct (bstep W l op) as (l', b) eqn:Q. cbn [fst] in L.
    apply on_one_inv in H. destruct H as (s & s' & E1 & H & ->).
    destruct (fam_nth _ _ _ _ _ Fm E) as (s0 & E0 & Hs). assert (s0 = s) as -> by congruence.
    eapply sim_call; eauto. rewrite Q. cbn [fst]. eapply room_nth; [exact L|]. eapply upd_at; eauto.
  - destruct K as (Hi & Hn & Hv). apply on_one_inv in H. destruct H as (s & s' & E1 & H & ->).
    cbn in H. injection H as <- <-. pose proof R as (R1 & Z).
    assert (i < length ss) as Hi' by (apply nth_error_Some; congruence).
    destruct (ok_make _ _ _ _ HB _ _ i (word_size W n) v R1) as (f' & G & R'); auto; [now rewrite map_length| |].
    { rewrite word_size_ok by auto. cbn [fst] in L. destruct (idx_lt _ _ Hi) as (l0 & E0).
      pose proof (room_nth _ _ _ L (upd_at _ _ _ _ E0)) as Q. unfold repeat_word in Q. now rewrite map_length, seq_length in Q. }
    assert (rel (f', snd st) (upd ss i (mkBs (repeat v (word_size W n)) (bsize s)))) as R3.
    { eapply rel_upd; eauto. rewrite Z. now apply sizes_kept. }
    erewrite bind_ok by (unfold buffer; rewrite G; reflexivity).
    destruct (set_bits_at _ _ _ _ n R3 (here _ _ _ _ E1)) as (G4 & R4).
    erewrite bind_ok by exact G4. eexists. split; [reflexivity|]. now rewrite upd_upd_same in R4.
  - destruct K as (l & k & E1 & E2 & Hn & Hij). rewrite E1, E2 in L. cbn [fst] in L.
    destruct (fam_nth _ _ _ _ _ Fm E1) as (s & F1 & (S1 & S2 & S3 & S4)).
    destruct (fam_nth _ _ _ _ _ Fm E2) as (o & F2 & (O1 & O2 & O3 & O4)).
    pose proof (room_nth _ _ _ L (upd_at _ _ _ _ E1)) as Lr. rewrite app_length in Lr.
    destruct (i =? j) eqn:Q.
    + apply Nat.eqb_eq in Q. subst j. assert (o = s) as -> by congruence. assert (k = l) as -> by congruence.
      apply on_one_inv in H. destruct H as (s0 & s' & E0 & H & ->). assert (s0 = s) as -> by congruence.
      eapply simp_bind; eauto; [|intros ? ? _; apply simp_ret]. apply sim_self_append. intros _.
      rewrite S1, word_size_ok by auto. exact Lr.
    + apply Nat.eqb_neq in Q. unfold on_pair in H. rewrite F1, F2 in H.
      unfold bind at 1 in H. rewrite bind_get in H. cbn [snd] in H. unfold onL in H. cbn [fst snd] in H.
      destruct (append W o s) as [u s'|e s'| |] eqn:A; try discriminate. cbn in H. injection H as <- <-.
      rewrite upd_other_id by (rewrite elsewhere; auto).
      destruct u. destruct (sim_append i j o s Q) with (st := st) (ss := ss) (a := tt) (s' := s') as (st' & G & R'); auto.
      * intros M. assert (length (buf s) + length (buf o) = words_for W (length l + length k)) as ->; auto.
        rewrite S2, O2. rewrite S1 in M. rewrite (words_for_exact _ HW _ M). unfold words_for.
        pose proof (Nat.div_mod (length l) W ltac:(lia)) as DM.
        replace (length l + length k + (W - 1)) with (length k + (W - 1) + length l / W * W) by lia.
        rewrite Nat.div_add by lia. lia.
      * intros _. rewrite S1, O1, word_size_ok by auto. exact Lr.
      * exists st'. split; auto. erewrite bind_ok by exact G. reflexivity.
  - destruct K as (Hi & Hj & D). destruct (idx_lt _ _ Hi) as (l & E1). destruct (idx_lt _ _ Hj) as (k & E2).
    rewrite E2 in L. cbn [fst] in L.
    destruct (fam_nth _ _ _ _ _ Fm E1) as (s & F1 & _).
    destruct (fam_nth _ _ _ _ _ Fm E2) as (o & F2 & (O1 & O2 & O3 & O4)).
    unfold on_pair in H. rewrite F1, F2 in H. cbn in H. injection H as <- <-.
    rewrite upd_other_id by (rewrite elsewhere; auto). pose proof R as (R1 & Z).
    destruct (ok_copy _ _ _ _ HB _ _ i j (buf o) R1 D) as (f' & G & R').
    { rewrite map_length. apply nth_error_Some. congruence. }
    { now apply nth_map. }
    { rewrite O2. eapply room_nth; [exact L|]. eapply upd_at; eauto. }
    assert (rel (f', snd st) (upd ss i (mkBs (buf o) (bsize s)))) as R3.
    { eapply rel_upd; eauto. rewrite Z. now apply sizes_kept. }
    erewrite bind_ok by (unfold buffer; rewrite G; reflexivity).
    erewrite bind_ok by (eapply bits_at; [exact R3|]; rewrite elsewhere; eauto).
    destruct (set_bits_at _ _ _ _ (bsize o) R3 (here _ _ _ _ F1)) as (G4 & R4).
    erewrite bind_ok by exact G4. eexists. split; [reflexivity|]. rewrite upd_upd_same in R4. now destruct o.
  - destruct K as (Hi & Hj & D). destruct (idx_lt _ _ Hi) as (l & E1). destruct (idx_lt _ _ Hj) as (k & E2).
    destruct (fam_nth _ _ _ _ _ Fm E1) as (s & F1 & _).
    destruct (fam_nth _ _ _ _ _ Fm E2) as (o & F2 & _).
    unfold on_pair in H. rewrite F1, F2 in H. cbn in H. injection H as <- <-. pose proof R as (R1 & Z).
    destruct (ok_move _ _ _ _ HB _ _ i j (buf o) R1 D) as (f' & G & R').
    { rewrite map_length. apply nth_error_Some. congruence. }
    { now apply nth_map. }
    erewrite bind_ok by (unfold buffer; rewrite G; reflexivity).
    assert (nth_error (snd st) j = Some (bsize o)) as Zj by (rewrite Z; now apply nth_map).
    erewrite bind_ok by (unfold bits; cbn [snd]; rewrite Zj; reflexivity).
    eexists. split; [reflexivity|]. split; cbn [fst snd]; rewrite !map_upd; cbn [buf bsize]; auto. now rewrite Z.
Qed.

Theorem grun_sim os : forall st ss cs, rel st ss -> fam W ss cs -> bsys_along W cs os ->
  room_along W room cs os ->
  exists st' ss', grun W B st os = Some (st', snd (bsys_run W cs os)) /\ rel st' ss' /\
    fam W ss' (fst (bsys_run W cs os)).
Proof.
  induction os as [|o os IH]; intros st ss cs R Fm Hl Hr; cbn [grun bsys_run bsys_along room_along] in *.
  - exists st, ss. auto.
  - destruct Hl as (Ho & Hl), Hr as (Hr0 & Hr).
    destruct (bsys_sim W HW ss cs o Fm Ho) as (ss1 & R1 & F1).
    destruct (sim_sys st ss cs o _ ss1 R Fm Ho Hr0 R1) as (st1 & G1 & Q1). rewrite G1.
    destruct (bsys_step W cs o) as (cs1, a). cbn [fst snd] in *.
    destruct (IH _ _ _ Q1 F1 Hl Hr) as (st2 & ss2 & G2 & Q2 & F2). rewrite G2.
    destruct (bsys_run W cs1 os) as (cs2, rs). cbn [fst snd] in *. eauto 6.
Qed.

Lemma start_rel f n : rep f (repeat [] n) -> rel (f, repeat 0 n) (repeat (mkBs [] 0) n).
Proof.
  intros H. split; cbn [fst snd].
  - replace (map buf (repeat (mkBs [] 0) n)) with (repeat (@nil N) n); auto.
    clear H. induction n; cbn; congruence.
  - clear H. induction n; cbn; congruence.
Qed.
Theorem grun_correct f n os : rep f (repeat [] n) -> bsys_along W (repeat [] n) os ->
  room_along W room (repeat [] n) os ->
  exists st', grun W B (f, repeat 0 n) os = Some (st', snd (bsys_run W (repeat [] n) os)).
Proof.
  intros H K L. destruct (grun_sim os (f, repeat 0 n) (repeat (mkBs [] 0) n) (repeat [] n)) as (st' & ss' & G & _); auto.
  - now apply start_rel.
  - clear - HW. induction n as [|n IH]; cbn; [constructor|]. constructor; [|exact IH].
    repeat split; cbn; [|intros w []|intros i Hi; lia]. unfold words_for. now rewrite Nat.div_small by lia.
  - eauto.
Qed.
End Generic.
