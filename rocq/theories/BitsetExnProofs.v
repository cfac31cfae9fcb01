From Coq Require Import List Arith NArith Bool Lia.
From Verif Require Import Base SeqSpec VecCommon BitsetModel BitsetSpec BitsetProofs
  BitsetExnModel BitsetExnSpec.
Import ListNotations.
Open Scope nat_scope.

Lemma nth_map_seq {A} (f : nat -> A) n i d : i < n -> nth i (map f (seq 0 n)) d = f i.
Proof.
  intros H. rewrite (nth_indep _ d (f 0)) by (rewrite map_length, seq_length; lia).
  rewrite (map_nth f), seq_nth by lia. reflexivity.
Qed.

Section Proofs.
Variable W : nat.
Hypothesis HW : 0 < W.

Lemma calm_ok {A} (m : M bs A) b ans a b' : m b = Ok a b' ->
  calm m (mkXbs b ans) = Ok a (mkXbs b' ans).
Proof. intros H. unfold calm. cbn [xb answers]. now rewrite H. Qed.

(** The mask of resize. *)
Definition masked (size : nat) : M bs unit := fun s =>
  (if bsize s mod W =? 0 then ret tt
   else
     let* back := word (length (buf s) - 1) in
     set_word (length (buf s) - 1) (N.land back (wtrunc W (word_mask W (bsize s mod W) - 1)))) s.

Lemma resize_masked n s : resize W n s = (masked n ;;; set_size n ;;; vec_resize (word_size W n)) s.
Proof. reflexivity. Qed.

Lemma xresize_masked n b ans :
  xresize W n (mkXbs b ans) = (calm (masked n) ;;; calm (set_size n) ;;; xvec_resize (word_size W n)) (mkXbs b ans).
Proof.
  unfold xresize. rewrite bind_get. cbn [xb]. unfold bind, calm, masked. cbn [xb answers].
  destruct (bsize b mod W =? 0); reflexivity.
Qed.

Lemma masked_ok s l n : holds_bits W s l ->
  exists b, masked n s = Ok tt (mkBs b (bsize s)) /\ holds_bits W (mkBs b (bsize s)) l /\
    length b = length (buf s).
Proof.
  intros H. pose proof H as (H1 & H2 & H3 & H4). unfold masked. rewrite H1.
  destruct (length l mod W =? 0) eqn:E.
  - exists (buf s). unfold ret. rewrite <- H1. destruct s; auto.
  - apply Nat.eqb_neq in E. pose proof (words_for_pad W HW _ E) as WF.
    destruct (word_at W HW s (length (buf s) - 1)) as (w & Ew & R); [lia|].
    erewrite bind_ok by exact R. rewrite (set_word_at W HW) by lia. rewrite <- H1.
    eexists. split; [reflexivity|]. rewrite upd_length. split; auto.
    apply holds_intro; cbn [buf bsize]; rewrite ?upd_length; auto.
    { apply words_ok_upd; auto. apply small_land; auto. eapply words_ok_nth; eauto. }
    intros p Hp. rewrite bit_of_upd by lia. destruct (p / W =? length (buf s) - 1) eqn:Q;
      [|now apply holds_bit].
    apply Nat.eqb_eq in Q. rewrite N.land_spec, H1, low_mask_tb by (auto; apply mod_lt_W; auto).
    pose proof (div_mod_W W HW p). pose proof (div_mod_W W HW (length l)).
    rewrite (proj2 (Nat.ltb_lt _ _)) by nia. rewrite andb_true_r.
    rewrite <- (holds_bit W s l p H Hp). symmetry. eapply bit_of_word; eauto.
Qed.

Lemma need_outcome b ans :
  (exists ans', need_memory (mkXbs b ans) = Ok tt (mkXbs b ans')) \/
  (exists remains rest, ans = Denied remains :: rest /\
     need_memory (mkXbs b ans) = Throw BadAlloc (mkXbs b rest)).
Proof.
  unfold need_memory, request, bind. cbn [answers]. destruct ans as [|[|remains] rest].
  - left. now exists [].
  - left. now exists rest.
  - right. now exists remains, rest.
Qed.

(** resize: done, or thrown with the new size over the old words. *)
Lemma xresize_outcome b ans l n : holds_bits W b l -> size_ok W n ->
  (exists b' ans', xresize W n (mkXbs b ans) = Ok tt (mkXbs b' ans') /\ resize W n b = Ok tt b') \/
  (words_for W (length l) < words_for W n /\ exists remains rest b',
     ans = Denied remains :: rest /\
     xresize W n (mkXbs b ans) = Throw BadAlloc (mkXbs (mkBs b' n) rest) /\
     holds_bits W (mkBs b' (bsize b)) l).
Proof.
  intros H Hn. pose proof H as (H1 & H2 & H3 & H4).
  destruct (masked_ok b l n H) as (bm & Rm & Hm & Lm).
  rewrite xresize_masked. erewrite bind_ok by (apply calm_ok; exact Rm).
  erewrite bind_ok by (apply calm_ok; reflexivity).
  unfold xvec_resize. rewrite bind_get. cbn [xb buf bsize].
  assert (forall ans', calm (vec_resize (word_size W n)) (mkXbs (mkBs bm n) ans') =
    match resize W n b with Ok a b' => Ok a (mkXbs b' ans') | Throw e b' => Throw e (mkXbs b' ans')
    | UB => UB | Diverge => Diverge end) as V.
  { intros ans'. rewrite resize_masked. erewrite bind_ok by exact Rm. reflexivity. }
  destruct (resize_ok W HW b l n H Hn) as (b' & R & _). rewrite R in V.
  destruct (length bm <? word_size W n) eqn:G.
  - apply Nat.ltb_lt in G. rewrite word_size_ok in G by auto.
    destruct (need_outcome (mkBs bm n) ans) as [(ans' & E)|(remains & rest & -> & E)].
    + left. exists b', ans'. split; auto. erewrite bind_ok by exact E. apply V.
    + right. split; [rewrite <- H2, <- Lm; exact G|]. exists remains, rest, bm. repeat split; auto; try apply Hm.
  - left. exists b', ans. split; auto. erewrite bind_ok by reflexivity. apply V.
Qed.

(** push_back: done, or thrown where resize threw. *)
Lemma xpush_back_outcome b ans l v : holds_bits W b l -> size_ok W (length l + 1) ->
  (exists b' ans', xpush_back W v (mkXbs b ans) = Ok tt (mkXbs b' ans') /\ holds_bits W b' (l ++ [v])) \/
  (words_for W (length l) < words_for W (length l + 1) /\ exists remains rest b',
     ans = Denied remains :: rest /\
     xpush_back W v (mkXbs b ans) = Throw BadAlloc (mkXbs (mkBs b' (length l + 1)) rest) /\
     holds_bits W (mkBs b' (bsize b)) l).
Proof.
  intros H Hn. unfold xpush_back. rewrite bind_get. cbn [xb]. rewrite (proj1 H).
  destruct (xresize_outcome b ans l _ H Hn) as [(b' & ans' & E & R)|(G & remains & rest & b' & -> & E & Hb)].
  - left. destruct (push_back_ok W HW b l v H Hn) as (b'' & P & H'').
    unfold push_back in P. rewrite bind_get, (proj1 H) in P. erewrite bind_ok in P by exact R.
    exists b'', ans'. split; auto. erewrite bind_ok by exact E. rewrite bind_get. cbn [xb].
    rewrite bind_get in P. now apply calm_ok.
  - right. split; auto. exists remains, rest, b'. split; auto. split.
    + unfold bind at 1. now rewrite E.
    + first [exact Hb | rewrite <- (proj1 H); exact Hb].
Qed.

Lemma xbuf_assign_outcome b ans ws :
  (exists ans', xbuf_assign ws (mkXbs b ans) = Ok tt (mkXbs (mkBs ws (bsize b)) ans')) \/
  (length (buf b) < length ws /\ exists remains rest, ans = Denied remains :: rest /\
     xbuf_assign ws (mkXbs b ans) = Throw BadAlloc (mkXbs (mkBs remains (bsize b)) rest)).
Proof.
  unfold xbuf_assign. rewrite bind_get. cbn [xb]. destruct (length (buf b) <? length ws) eqn:G.
  - unfold request, bind. cbn [answers]. destruct ans as [|[|remains] rest].
    + left. now exists [].
    + left. now exists rest.
    + right. apply Nat.ltb_lt in G. split; auto. now exists remains, rest.
  - left. now exists ans.
Qed.

Lemma xappend_outcome b ans l t k : holds_bits W b l -> holds_bits W t k ->
  size_ok W (length l + length k) ->
  (exists b' ans', xappend W t (mkXbs b ans) = Ok tt (mkXbs b' ans') /\ holds_bits W b' (l ++ k)) \/
  (exists remains rest, ans = Denied remains :: rest /\ length l mod W = 0 /\
     xappend W t (mkXbs b ans) = Throw BadAlloc (mkXbs b rest)) \/
  (length l mod W <> 0 /\ words_for W (length l) < words_for W (length l + length k) /\
   exists remains rest b',
     ans = Denied remains :: rest /\
     xappend W t (mkXbs b ans) = Throw BadAlloc (mkXbs (mkBs b' (length l + length k)) rest) /\
     holds_bits W (mkBs b' (bsize b)) l).
Proof.
  intros H Ht Hn. destruct (append_ok W HW b l t k H Ht Hn) as (b1 & A & Ha).
  unfold append in A. unfold xappend. destruct (is_empty t) eqn:Et.
  { left. exists b, ans. split; auto. injection A as <-. exact Ha. }
  rewrite bind_get in A. rewrite bind_get. cbn [xb]. cbv zeta in A |- *. destruct (bsize b mod W =? 0) eqn:E0.
  - apply Nat.eqb_eq in E0. rewrite (proj1 H) in E0.
    destruct (need_outcome b ans) as [(ans' & E)|(remains & rest & -> & E)].
    + left. exists b1, ans'. split; auto. erewrite bind_ok by exact E. replace b1 with (mkBs (buf b ++ buf t) (bsize b + bsize t)) by (unfold put in A; now inversion A). reflexivity.
    + right. left. exists remains, rest. repeat split; auto.
  - apply Nat.eqb_neq in E0. rewrite (proj1 H) in E0. rewrite (proj1 H), (proj1 Ht) in *.
    destruct (xresize_outcome b ans l _ H Hn) as [(b' & ans' & E & R)|(G & remains & rest & b' & -> & E & Hb)].
    + left. exists b1, ans'. split; auto. erewrite bind_ok by exact E.
      erewrite bind_ok in A by exact R. now apply calm_ok.
    + right. right. split; auto. split; auto. exists remains, rest, b'. split; auto. split.
      * unfold bind at 1. now rewrite E.
      * first [exact Hb | rewrite <- (proj1 H); exact Hb].
Qed.

(** * Calls *)

Lemma then_none {S A} (m : M S A) s a s' : m s = Ok a s' -> (m ;;; ret BaNone) s = Ok BaNone s'.
Proof. intros E. now erewrite bind_ok by exact E. Qed.
Lemma then_throw {S A B} (m : M S A) (k : M S B) s e s' : m s = Throw e s' -> (m ;;; k) s = Throw e s'.
Proof. intros E. unfold bind. now rewrite E. Qed.

(** The way a call ends: done; or thrown with the object as it was; or in resize; or in
    the assignment of the buffer. *)
Lemma xcall_outcome o b ans l : holds_bits W b l -> xok W l o ->
  (exists a b' ans' l', xcall W o (mkXbs b ans) = Ok a (mkXbs b' ans') /\
     holds_bits W b' l' /\ xdoes W l o l' a) \/
  (exists remains rest, ans = Denied remains :: rest /\
     xcall W o (mkXbs b ans) = Throw BadAlloc (mkXbs b rest)) \/
  (exists n remains rest b', ans = Denied remains :: rest /\ resizes_to W l o = Some n /\
     words_for W (length l) < words_for W n /\
     xcall W o (mkXbs b ans) = Throw BadAlloc (mkXbs (mkBs b' n) rest) /\
     holds_bits W (mkBs b' (bsize b)) l) \/
  (exists ws remains rest, ans = Denied remains :: rest /\ assigns o = Some ws /\
     length (buf b) < length ws /\
     xcall W o (mkXbs b ans) = Throw BadAlloc (mkXbs (mkBs remains (bsize b)) rest)).
Proof.
  intros H Hok. destruct o as [o|n|t|t].
  - assert (forall o', o = o' -> (exists a b' l', bcall W o' b = Ok a b' /\ holds_bits W b' l' /\
        l' = fst (bstep W l o') /\ a = snd (bstep W l o'))) as B.
    { intros o' <-. destruct (bcall_ok W HW b l o H Hok) as (b' & R & Hb). eauto 10. }
    destruct (B o eq_refl) as (a & b' & l' & R & Hb & -> & ->).
    destruct o; cbn [xcall];
      try (left; eexists _, b', ans, _; split; [apply calm_ok; exact R|split; [exact Hb|constructor]]; fail).
    + destruct (xpush_back_outcome b ans l b0 H Hok) as [(b2 & ans' & E & Hb2)|(G & remains & rest & b2 & -> & E & Hb2)].
      * left. exists BaNone, b2, ans', (l ++ [b0]). split; [now apply then_none in E|]. split; auto.
        apply (does_on W l (BPushBack b0)).
      * right. right. left. exists (length l + 1), remains, rest, b2. repeat split; auto; try apply Hb2.
        now apply then_throw.
    + destruct (xresize_outcome b ans l n H Hok) as [(b2 & ans' & E & R2)|(G & remains & rest & b2 & -> & E & Hb2)].
      * left. destruct (resize_ok W HW b l n H Hok) as (b3 & R3 & H3 & _). rewrite R2 in R3. injection R3 as <-.
        exists BaNone, b2, ans', (resize_bits l n). split; [now apply then_none in E|]. split; auto.
        apply (does_on W l (BResize n)).
      * right. right. left. exists n, remains, rest, b2. repeat split; auto; try apply Hb2.
        now apply then_throw.
    + destruct (xbuf_assign_outcome b ans words) as [(ans' & E)|(G & remains & rest & -> & E)].
      * left. destruct (assign_ok W HW b words Hok) as (b3 & R3 & H3). injection R3 as <-.
        exists BaNone, (mkBs words (length words * W)), ans', (bits_of_words W words). split.
        { unfold xassign. eapply then_none. erewrite bind_ok by exact E. reflexivity. }
        split; auto. apply (does_on W l (BAssign words)).
      * right. right. right. exists words, remains, rest. repeat split; auto.
        unfold xassign. now do 2 apply then_throw.
  - destruct (need_outcome b ans) as [(ans' & E)|(remains & rest & -> & E)].
    + left. exists BaNone, b, ans', l. split; [exact (then_none _ _ _ _ E)|]. split; auto. constructor.
    + right. left. exists remains, rest. split; [reflexivity|]. exact (then_throw _ _ _ _ _ E).
  - destruct Hok as (k & Ht & Hn).
    destruct (xappend_outcome b ans l t k H Ht Hn) as
      [(b' & ans' & E & Hb)|[(remains & rest & -> & E0 & E)|(E0 & G & remains & rest & b' & -> & E & Hb)]].
    + left. exists BaNone, b', ans', (l ++ k). split; [exact (then_none _ _ _ _ E)|]. split; auto.
      now constructor.
    + right. left. exists remains, rest. split; [reflexivity|]. exact (then_throw _ _ _ _ _ E).
    + right. right. left. exists (length l + length k), remains, rest, b'. repeat split; auto; try apply Hb.
      * cbn [resizes_to]. rewrite (proj2 (Nat.eqb_neq _ _)) by auto. now rewrite (proj1 Ht).
      * exact (then_throw _ _ _ _ _ E).
  - destruct Hok as (k & Ht).
    destruct (xbuf_assign_outcome b ans (buf t)) as [(ans' & E)|(G & remains & rest & -> & E)].
    + left. exists BaNone, t, ans', k. split; [|split; auto; now constructor].
      cbn [xcall]. unfold xcopy_assign. eapply then_none. erewrite bind_ok by exact E.
      unfold calm, set_size. cbn [xb buf bsize answers]. now destruct t.
    + right. right. right. exists (buf t), remains, rest. repeat split; auto.
      cbn [xcall]. unfold xcopy_assign. now do 2 apply then_throw.
Qed.

(** * Histories without trouble *)

Lemma xrun_sim os : forall b ans l, holds_bits W b l -> xhistory_ok W l os ->
  exists rs b' ans' l', xrun W os (mkXbs b ans) = Ok rs (mkXbs b' ans') /\
    holds_bits W b' l' /\ xhistory W l os rs l'.
Proof.
  induction os as [|o os IH]; intros b ans l H Ho.
  { exists [], b, ans, l. repeat split; auto; try apply H. constructor. }
  inversion Ho as [|l0 o0 os0 Hok [U1 U2] Hd Hs]; subst. cbn [xrun].
  destruct (xcall_outcome o b ans l H Hok) as
    [(a & b' & ans' & l' & E & Hb & D)|[(remains & rest & -> & E)|[(n & remains & rest & b' & -> & Rn & G & _)|
     (ws & remains & rest & -> & As & G & _)]]].
  - rewrite E. destruct (IH b' ans' l' Hb (Hd _ _ D)) as (rs & b2 & ans2 & l2 & E2 & H2 & X).
    rewrite E2. exists (Some a :: rs), b2, ans2, l2. repeat split; auto; try apply H2. econstructor; eauto.
  - rewrite E. destruct (IH b rest l H Hs) as (rs & b2 & ans2 & l2 & E2 & H2 & X).
    rewrite E2. exists (None :: rs), b2, ans2, l2. repeat split; auto; try apply H2. now constructor.
  - specialize (U1 n Rn). lia.
  - specialize (U2 ws As). destruct H as (_ & H2 & _). lia.
Qed.

(** * Trouble *)

Lemma short_broken b n : length b < words_for W n ->
  broken W (mkBs b n) /\ test W (n - 1) (mkBs b n) = UB.
Proof.
  intros G. split.
  - intros l (A & B & _). cbn [buf bsize] in *. subst n. lia.
  - assert (n <> 0).
    { intros ->. unfold words_for in G. cbn [Nat.add] in G. rewrite Nat.div_small in G by lia. lia. }
    unfold test, word, word_index, bind. cbn [buf].
    rewrite (proj2 (nth_error_None _ _)); auto.
    destruct (Nat.eq_dec (n mod W) 0) as [E|E].
    + rewrite (words_for_exact W HW) in G by auto. pose proof (div_mod_W W HW n).
      assert (n / W <> 0) by nia.
      assert ((n - 1) / W = n / W - 1); [|lia]. apply (div_eq_range W HW). nia.
    + rewrite (words_for_pad W HW) in G by auto. pose proof (div_mod_W W HW n). pose proof (mod_lt_W W HW n).
      assert ((n - 1) / W = n / W); [|lia]. apply (div_eq_range W HW). nia.
Qed.

(** Going back to the old size after a failed resize. *)
Lemma back_ok b n l : holds_bits W (mkBs b (length l)) l ->
  words_for W (length l) < words_for W n -> size_ok W n -> size_ok W (length l) -> l <> [] ->
  forall ans, exists b',
    xresize W (length l) (mkXbs (mkBs b n) ans) = Ok tt (mkXbs b' ans) /\
    holds_bits W b' (if n mod W =? 0 then l else tail_cleared W l (n mod W)).
Proof.
  intros H G Hn Hl Nl ans. pose proof H as (H1 & H2 & H3 & H4). cbn [buf bsize] in *.
  assert (0 < length b) as Lb.
  { rewrite H2. pose proof (words_for_bound W HW 0 (length l)). destruct l; [easy|]. cbn [length] in *. lia. }
  rewrite xresize_masked. unfold masked.
  assert (exists bm, (calm (fun s => (if bsize s mod W =? 0 then ret tt
   else
     let* back := word (length (buf s) - 1) in
     set_word (length (buf s) - 1) (N.land back (wtrunc W (word_mask W (bsize s mod W) - 1)))) s)) (mkXbs (mkBs b n) ans)
     = Ok tt (mkXbs (mkBs bm n) ans) /\ length bm = length b /\ words_ok W bm /\
     forall p, p < length l -> bit_of W bm p =
       if n mod W =? 0 then bit_of W b p
       else bit_of W b p && ((p / W <? length b - 1) || (p mod W <? n mod W))) as (bm & E & Lm & Km & Bm).
  { unfold calm. cbn [xb buf bsize answers]. destruct (n mod W =? 0) eqn:E0.
    - exists b. auto.
    - destruct (word_at W HW (mkBs b n) (length b - 1)) as (w & Ew & R); [cbn; lia|]. cbn [buf] in Ew.
      erewrite bind_ok by exact R. rewrite (set_word_at W HW) by (cbn; lia). cbn [buf bsize].
      eexists. split; [reflexivity|]. rewrite upd_length. split; auto. split.
      { apply words_ok_upd; auto. apply small_land; auto. eapply words_ok_nth; eauto. }
      intros p Hp. rewrite bit_of_upd by lia. pose proof (words_for_bound W HW p _ Hp) as WB. rewrite <- H2 in WB.
      destruct (p / W =? length b - 1) eqn:Q.
      + apply Nat.eqb_eq in Q. rewrite N.land_spec, low_mask_tb by (auto; apply mod_lt_W; auto).
        rewrite (bit_of_word W b _ w p Ew Q). rewrite (proj2 (Nat.ltb_ge (p / W) (length b - 1))) by lia. reflexivity.
      + apply Nat.eqb_neq in Q. rewrite (proj2 (Nat.ltb_lt (p / W) _)) by lia. cbn [orb].
        now rewrite andb_true_r. }
  erewrite bind_ok by exact E. erewrite bind_ok by (apply calm_ok; reflexivity).
  unfold xvec_resize. rewrite bind_get. cbn [xb buf bsize]. rewrite word_size_ok by auto.
  rewrite <- H2, <- Lm, Nat.ltb_irrefl. erewrite bind_ok by reflexivity.
  exists (mkBs bm (length l)). split.
  - unfold calm, vec_resize, with_buf. cbn [xb buf bsize answers].
    now rewrite firstn_all, Nat.sub_diag, app_nil_r.
  - assert (forall p, p < length l -> bit_of W b p = nth p l false) as Bb.
    { intros p Hp. apply (holds_bit W (mkBs b (length l)) l p H Hp). }
    destruct (n mod W =? 0) eqn:E0.
    + apply holds_intro; cbn [buf bsize]; auto; [lia|]. intros p Hp. rewrite Bm by auto. auto.
    + unfold tail_cleared. apply holds_intro; cbn [buf bsize]; rewrite ?map_length, ?seq_length; auto; [lia|].
      intros p Hp. rewrite Bm, Bb by auto.
      rewrite nth_map_seq by auto.
      now rewrite H2.
Qed.
End Proofs.
