(** Proofs for AmortSpec: amortization by a potential of size and capacity. *)
From Coq Require Import List Arith NArith ZArith Bool Lia.
From Verif Require Import Base SeqSpec VecCommon SmallVectorModel SmallVectorSpec SmallVectorProofs
  SmallBufSpec SmallBufProofs AmortSpec.
Import ListNotations.
Open Scope nat_scope.

Lemma grows_enough_room cap d c : grows cap d c -> (d <= c)%N.
Proof. induction 1; lia. Qed.
Lemma grows_mono cap d c : grows cap d c -> (0 < cap)%N -> (cap <= c)%N.
Proof.
  induction 1 as [cap H|cap c H G IH]; intros P; [lia|].
  assert (cap <= (cap * 3 + 1) / 2)%N by (apply N.div_le_lower_bound; lia). lia.
Qed.
Lemma grows_half cap d c : grows cap d c -> (0 < cap < d)%N -> (3 * cap <= 2 * c)%N.
Proof.
  intros G P. inversion G as [H|c' H G' E]; subst; [lia|].
  assert ((cap * 3 + 1) / 2 <= c)%N.
  { apply grows_mono in G'; [lia|]. apply N.div_str_pos. lia. }
  pose proof (N.div_mod (cap * 3 + 1) 2 ltac:(lia)). pose proof (N.mod_lt (cap * 3 + 1) 2 ltac:(lia)). lia.
Qed.

Section Small.
Context {V : Type}.
Variable moved : V -> V.
Variable dflt : V.
Variable SC RB : nat.
Variable maxn : N.

(** The buffer stays, or is_static() or capacity() tell that it is another. *)
Definition stays (s s' : @vec V) : Prop := vb s' = vb s \/ place_of s' <> place_of s.
Lemma stays_refl s : stays s s. Proof. now left. Qed.
Lemma stays_quiet s s1 s' : stays s s1 -> quiet s1 s' -> stays s s'.
Proof.
  intros [H|H] Q; [left|right].
  - destruct Q as (-> & _). exact H.
  - now rewrite (quiet_place _ _ Q).
Qed.
Lemma quiet_stays s s1 s' : quiet s s1 -> stays s1 s' -> stays s s'.
Proof.
  intros Q [H|H]; [left|right].
  - destruct Q as (<- & _). exact H.
  - now rewrite <- (quiet_place _ _ Q).
Qed.

Ltac inv E :=
  let a := fresh "a" in let s1 := fresh "t" in let E1 := fresh "E" in
  apply bind_inv in E; destruct E as (a & s1 & E1 & E).

Lemma choose_other d (s : @vec V) db c s1 : anchored SC s -> (vcap s < d -> (3 * N.of_nat d <= two64 - 1)%N) ->
  choose_data SC RB maxn (N.of_nat d) s = Ok (db, c) s1 -> db <> vb s -> made db c <> place_of s.
Proof.
  intros A B E Hn. destruct (choose_inv SC RB maxn _ _ _ _ _ A B E) as (C1 & _ & _ & _ & _ & _ & _ & C8).
  unfold place_of, is_static, capacity in *. unfold made in *.
  destruct (Nat.eqb_spec (vb s) 0) as [e|ne]; cbn [suits] in C1.
  - destruct (Nat.eqb_spec db 0) as [e0|n0]; [congruence|discriminate].
  - destruct (Nat.eqb_spec db 0) as [e0|n0]; [discriminate|]. destruct C8 as [?|[?|C8]]; [contradiction|contradiction|].
    rewrite (proj2 (Nat.leb_gt d (vcap s))) in C1 by lia. destruct C1 as (c' & G & Ec). injection Ec as <-.
    apply grows_enough_room in G. intros Eq. injection Eq as Eq. lia.
Qed.
Lemma stays_set_buf b e c (s s1 : @vec V) s' u : made b c <> place_of s -> set_buf b e c s1 = Ok u s' -> stays s s'.
Proof. intros H E. right. injection E as _ <-. exact H. Qed.

Lemma grow_at_stays (s : @vec V) n pos num p s' : anchored SC s -> ve s = (vb s, n) -> pos <= n ->
  (3 * N.of_nat (n + num) <= two64 - 1)%N ->
  grow_at moved SC RB maxn (Z.of_nat pos) (N.of_nat num) s = Ok p s' -> stays s s'.
Proof.
  intros A Ev Hp B E. unfold grow_at in E. inv E. destruct (msize_at _ _ _ _ Ev E0) as (-> & ->). clear E0.
  inv E.
  assert (t = s) as ->. { unfold throw_if in E0. destruct (_ || _)%bool; [discriminate|]. now injection E0 as _ <-. }
  rewrite bind_get in E. inv E. rewrite mod_sum in E1 by auto. destruct a0 as [db c].
  destruct (choose_inv SC RB maxn _ _ _ _ _ A (fun _ => B) E1) as (C1 & C2 & C3 & C4 & C5 & C6 & C7 & C8). cbn [fst snd] in E.
  destruct (Nat.eqb_spec db (vb s)) as [e|ne].
  - inv E. inv E. injection E as _ <-. apply keeps_set_end in E2. apply (keeps_grow_loop moved dflt) in E3.
    pose proof (quiet_trans moved dflt _ _ _ E2 E3) as (Q1 & Q2 & Q3). left. congruence.
  - inv E. inv E. inv E. inv E. inv E. injection E as _ <-.
    eapply stays_set_buf; [|exact E6]. eapply choose_other; eauto.
Qed.

Lemma clear_stays (s : @vec V) s' u : clear SC RB s = Ok u s' -> stays s s'.
Proof.
  intros E. unfold clear in E. inv E. apply (keeps_destroy_all moved dflt) in E0. rewrite bind_get in E.
  eapply quiet_stays; [exact E0|]. clear E0.
  destruct ((0 <? RB) && negb (is_static t)) eqn:C.
  - inv E. apply andb_prop in C. destruct C as (_ & C). injection E as _ <-. right.
    unfold place_of. destruct (is_static t); [discriminate|]. cbn. discriminate.
  - apply keeps_set_end in E. eapply stays_quiet; [apply stays_refl|exact E].
Qed.

Lemma shrink_at_stays (s : @vec V) n pos num p s' : anchored SC s -> ve s = (vb s, n) -> num <= n -> n <= vcap s ->
  shrink_at moved SC RB maxn (Z.of_nat pos) (N.of_nat num) s = Ok p s' -> stays s s'.
Proof.
  intros A Ev Hn Hc E. unfold shrink_at in E. inv E. destruct (msize_at _ _ _ _ Ev E0) as (-> & ->). clear E0.
  inv E. assert (t = s) as ->. { unfold throw_if in E0. destruct (_ || _)%bool; [discriminate|]. now injection E0 as _ <-. }
  clear E0. rewrite bind_get, Nat2N.id in E. destruct (Nat.eqb_spec (n - num) 0) as [e|ne].
  { inv E. injection E as _ <-. eapply clear_stays; eauto. }
  inv E. destruct a0 as [db c].
  destruct (choose_inv SC RB maxn (n - num) _ _ _ _ A ltac:(lia) E0) as (C1 & C2 & C3 & C4 & C5 & C6 & C7 & C8). cbn [fst snd] in E.
  destruct (Nat.eqb_spec db (vb s)) as [e|nb].
  - inv E. inv E. inv E. injection E as _ <-. apply (keeps_shrink_loop moved dflt) in E1. apply (keeps_destroy_from moved dflt) in E2. apply keeps_set_end in E3.
    pose proof (quiet_trans moved dflt _ _ _ E1 (quiet_trans moved dflt _ _ _ E2 E3)) as (Q1 & Q2 & Q3). left. congruence.
  - inv E. inv E. inv E. inv E. inv E. injection E as _ <-.
    assert (made db c <> place_of s) as O by (eapply choose_other; [exact A| |exact E0|exact nb]; lia).
    right. injection E5 as _ <-. unfold made in O.
    destruct (Nat.eqb_spec db 0) as [e0|n0]; [|destruct C8 as [?|[?|C8]]; [contradiction|contradiction|lia]].
    subst db. exact O.
Qed.

Lemma reserve_stays (s : @vec V) n k u s' : anchored SC s -> ve s = (vb s, n) -> (3 * N.of_nat k <= two64 - 1)%N ->
  reserve moved SC RB maxn (N.of_nat k) s = Ok u s' -> stays s s'.
Proof.
  intros A Ev B E. unfold reserve in E. rewrite bind_get in E.
  destruct (N.leb_spec (N.of_nat k) (N.of_nat (vcap s))) as [Le|Gt].
  { injection E as _ <-. apply stays_refl. }
  inv E. destruct a as [db c].
  destruct (choose_inv SC RB maxn _ _ _ _ _ A (fun _ => B) E0) as (C1 & C2 & C3 & C4 & C5 & C6 & C7 & C8). cbn [fst snd] in E.
  inv E. inv E. inv E. inv E.
  destruct (Nat.eq_dec db (vb s)) as [e|ne]; [left; injection E as _ <-; exact e|].
  eapply stays_set_buf; [|exact E]. eapply choose_other; eauto.
Qed.
Lemma resize_stays (s : @vec V) n k x u s' : anchored SC s -> ve s = (vb s, n) -> (3 * N.of_nat k <= two64 - 1)%N ->
  resize_val moved SC RB maxn (N.of_nat k) x s = Ok u s' -> stays s s'.
Proof.
  intros A Ev B E. unfold resize_val in E. inv E. apply (reserve_stays _ _ _ _ _ A Ev B) in E0.
  inv E. apply keeps_msize in E1. inv E. apply (keeps_cut_loop moved dflt) in E2. inv E. apply keeps_msize in E3.
  apply (keeps_extend_loop moved dflt) in E. pose proof (quiet_trans moved dflt _ _ _ (quiet_trans moved dflt _ _ _ E1 E2) (quiet_trans moved dflt _ _ _ E3 E)) as Q.
  eapply stays_quiet; eauto.
Qed.
Lemma grow_then_stays (s : @vec V) n pos num (k : nat -> @vec V -> M (@vec V) nat) p s' :
  anchored SC s -> ve s = (vb s, n) -> pos <= n -> (3 * N.of_nat (n + num) <= two64 - 1)%N ->
  (forall a t, keeps (k a t)) ->
  (let* a := grow_at moved SC RB maxn (Z.of_nat pos) (N.of_nat num) in let* t := get in k a t) s = Ok p s' -> stays s s'.
Proof.
  intros A Ev Hp B K E. inv E. apply (grow_at_stays _ _ _ _ _ _ A Ev Hp B) in E0.
  rewrite bind_get in E. apply K in E. eapply stays_quiet; eauto.
Qed.

Hypothesis HSC : 0 < SC.
Hypothesis HRB : RB <= SC + 1.
Hypothesis Hmax : (maxn < two63)%N.

Ltac keep := repeat first
  [apply keeps_ret | apply keeps_get | apply keeps_destroy | apply keeps_read | apply keeps_move_from
  | apply (keeps_construct moved dflt) | apply (keeps_move_to moved dflt) | apply keeps_set_end | apply keeps_deallocate
  | apply keeps_msize | apply keeps_throw_if | apply keeps_ub | apply keeps_if
  | apply (keeps_bind moved dflt); [|intros] | assumption].

Lemma call_stays (s : @vec V) xs o s' r :
  holds SC s xs -> vfuse s = None -> small_ok maxn xs (Seq o) -> adds_or_takes o = true ->
  observe (call moved dflt SC RB maxn (Seq o) s) = Some (s', r) -> stays s s'.
Proof.
  intros H Hf Ho Ha E.
  destruct (call_spec moved dflt SC RB maxn HSC HRB Hmax s xs (Seq o) H Hf Ho) as (s2 & E2 & H2 & F2).
  rewrite E in E2. injection E2 as <- Er. clear F2.
  pose proof (holds_anchored _ _ _ HSC H) as A. pose proof (holds_size _ _ _ H) as (Ev & Hc).
  pose proof (bound_of SC RB maxn HSC HRB Hmax) as bound_of'.
  assert (same : s' = s -> stays s s') by (intros ->; apply stays_refl).
  destruct o as [v| |pos v|pos n v|pos l|pos|first last|n|n v| |n v|l];
      cbn [small_step valid_pos spec_step fits snd small_ok] in *; try discriminate Ha.
    + apply observe_ok in E; [|subst r; discriminate]. destruct E as (a & E). cbn [call] in E. apply no_answer_inv in E.
      destruct E as (u & E). unfold push_back in E. inv E. destruct (msize_at _ _ _ _ Ev E0) as (-> & ->).
      change 1%N with (N.of_nat 1) in E. inv E.
      apply (grow_at_stays _ _ _ _ _ _ A Ev (le_n _) (bound_of' _ Ho)) in E1.
      rewrite bind_get in E. apply (keeps_construct moved dflt) in E. eapply stays_quiet; eauto.
    + destruct (Nat.eqb_spec (length xs) 0) as [e|ne].
      * destruct xs; [|discriminate]. cbn [snd] in Er. subst r. apply same. apply observe_throw in E.
        cbn [call] in E. unfold no_answer, pop_back in E.
        erewrite bind_throw in E.
        2:{ erewrite bind_ok by (apply msize_spec; apply H).
        erewrite bind_throw; [reflexivity|]. eapply shrink_at_bad; eauto; cbn; lia. }
        congruence.
      * apply observe_ok in E; [|subst r; destruct xs; [now destruct ne|discriminate]]. destruct E as (a & E). cbn [call] in E. apply no_answer_inv in E.
        destruct E as (u & E). unfold pop_back in E. inv E. destruct (msize_at _ _ _ _ Ev E0) as (-> & ->).
        inv E. injection E as _ <-. change 1%N with (N.of_nat 1) in E1.
        replace (Z.of_nat (length xs) - 1)%Z with (Z.of_nat (length xs - 1)) in E1 by lia.
        apply (shrink_at_stays _ _ _ _ _ _ A Ev) in E1; auto; lia.
    + destruct (Nat.leb_spec pos (length xs)) as [Hp|Hp].
      * apply observe_ok in E; [|subst r; discriminate]. destruct E as (a & E). cbn [call] in E. apply position_inv in E.
        destruct E as (u & E). unfold insert1 in E. change 1%N with (N.of_nat 1) in E.
        eapply grow_then_stays in E; eauto. intros; keep.
      * cbn [snd] in Er. subst r. apply same. apply observe_throw in E. cbn [call] in E. unfold position_answer, insert1 in E.
        erewrite bind_throw in E.
        2:{ erewrite bind_throw; [reflexivity|]. eapply grow_at_bad; eauto; lia. }
        congruence.
    + destruct Ho as [Ho _]. destruct (Nat.leb_spec pos (length xs)) as [Hp|Hp].
      * apply observe_ok in E; [|subst r; discriminate]. destruct E as (a & E). cbn [call] in E. apply position_inv in E.
        destruct E as (u & E). unfold insert_n in E.
        eapply grow_then_stays in E; eauto. intros; keep. apply (keeps_fill_loop moved dflt).
      * cbn [snd] in Er. subst r. apply same. apply observe_throw in E. cbn [call] in E. unfold position_answer, insert_n in E.
        erewrite bind_throw in E.
        2:{ erewrite bind_throw; [reflexivity|]. eapply grow_at_bad; eauto; lia. }
        congruence.
    + destruct Ho as [Ho _]. destruct (Nat.leb_spec pos (length xs)) as [Hp|Hp].
      * apply observe_ok in E; [|subst r; discriminate]. destruct E as (a & E). cbn [call] in E. apply position_inv in E.
        destruct E as (u & E). unfold insert_range in E.
        eapply grow_then_stays in E; eauto. intros; keep. apply (keeps_copy_loop moved dflt).
      * cbn [snd] in Er. subst r. apply same. apply observe_throw in E. cbn [call] in E. unfold position_answer, insert_range in E.
        erewrite bind_throw in E.
        2:{ erewrite bind_throw; [reflexivity|]. eapply grow_at_bad; eauto; lia. }
        congruence.
    + destruct (Nat.ltb_spec pos (length xs)) as [Hp|Hp].
      * apply observe_ok in E; [|subst r; discriminate]. destruct E as (a & E). cbn [call] in E. apply position_inv in E.
        destruct E as (u & E). unfold erase in E. change 1%N with (N.of_nat 1) in E.
        apply (shrink_at_stays _ _ _ _ _ _ A Ev) in E; auto; lia.
      * cbn [snd] in Er. subst r. apply same. apply observe_throw in E. cbn [call] in E. unfold position_answer, erase in E.
        erewrite bind_throw in E.
        2:{ eapply shrink_at_bad; eauto; lia. }
        congruence.
    + destruct (Nat.ltb_spec last first) as [Hlf|Hlf]; cbn [orb snd] in Er.
      * subst r. apply same. apply observe_throw in E.
        cbn [call] in E. unfold position_answer, erase_range in E.
        erewrite bind_throw in E.
        2:{ replace (Z.of_nat last <? Z.of_nat first)%Z with true by (symmetry; apply Z.ltb_lt; lia).
        erewrite bind_throw; reflexivity. }
        congruence.
      * destruct (Nat.leb_spec last (length xs)) as [Hp|Hp].
        -- apply observe_ok in E; [|subst r; discriminate]. destruct E as (a & E). cbn [call] in E. apply position_inv in E.
           destruct E as (u & E). unfold erase_range in E.
           replace (Z.of_nat last <? Z.of_nat first)%Z with false in E by (symmetry; apply Z.ltb_ge; lia).
           replace (Z.to_N (Z.of_nat last - Z.of_nat first)) with (N.of_nat (last - first)) in E by lia.
           inv E. injection E0 as _ <-.
           apply (shrink_at_stays _ _ _ _ _ _ A Ev) in E; auto; lia.
        -- cbn [snd] in Er. subst r. apply same. apply observe_throw in E. cbn [call] in E. unfold position_answer, erase_range in E.
           replace (Z.of_nat last <? Z.of_nat first)%Z with false in E by (symmetry; apply Z.ltb_ge; lia).
           erewrite bind_throw in E.
        2:{ erewrite bind_ok by reflexivity. eapply shrink_at_bad; eauto; lia. }
        congruence.
    + apply observe_ok in E; [|subst r; discriminate]. destruct E as (a & E). cbn [call] in E. apply no_answer_inv in E.
      destruct E as (u & E). unfold resize in E. eapply resize_stays; eauto.
    + apply observe_ok in E; [|subst r; discriminate]. destruct E as (a & E). cbn [call] in E. apply no_answer_inv in E.
      destruct E as (u & E). eapply resize_stays; eauto.
    + apply observe_ok in E; [|subst r; discriminate]. destruct E as (a & E). cbn [call] in E. apply no_answer_inv in E.
      destruct E as (u & E). apply clear_stays in E. eauto.
Qed.

(** * The potential *)
Hypothesis Hhalf : 2 * RB <= SC.

Definition phi (p : place) (n : nat) : nat :=
  match p with
  | None => 4 * (2 * n - SC) + 2 * n
  | Some c => (3 * n - 2 * c) + 2 * (SC + 1 - n) + 2 * n
  end.
Definition fair (p : place) (n : nat) : Prop :=
  n <= room_of SC p /\ match p with Some c => SC <= c | None => True end.
(** [d] elements instead of [n], in [p'] instead of [p]. *)
Definition paid (p : place) (n : nat) (p' : place) (d : nat) : Prop :=
  phi p' d <= phi p n + 10 * (d - n) /\
  (p' <> p -> Nat.min n d + phi p' d <= phi p n + 10 * (d - n)).

Lemma paid_stay p n d : paid p n p d.
Proof. split; [|congruence]. destruct p; cbn [phi]; lia. Qed.
Lemma paid_suits p n d p' : fair p n -> suits SC RB p d p' -> paid p n p' d.
Proof.
  intros (Hn & Hc) S. destruct p as [c|]; cbn [suits room_of] in *.
  - destruct (Nat.leb_spec d c) as [L|G].
    + destruct (Nat.ltb_spec d RB) as [Lr|Gr]; subst p'; [|apply paid_stay].
      unfold paid. cbn [phi]. lia.
    + destruct S as (c' & S & ->). pose proof (grows_enough_room _ _ _ S). apply grows_half in S; [|lia].
      unfold paid. cbn [phi]. lia.
  - destruct (Nat.leb_spec d SC) as [L|G]; subst p'; [apply paid_stay|]. unfold paid. cbn [phi]. lia.
Qed.
Lemma paid_emptied p n : fair p n -> paid p n (emptied RB p) 0.
Proof.
  intros (Hn & Hc). unfold emptied. destruct (Nat.eqb_spec RB 0); [apply paid_stay|].
  destruct p; [|apply paid_stay]. unfold paid. cbn [phi]. lia.
Qed.
Lemma paid_lessened p n d p' : fair p n -> lessened SC RB p d p' -> paid p n p' d.
Proof.
  intros F L. unfold lessened in L. destruct (Nat.eqb_spec d 0) as [->|ne].
  - subst p'. now apply paid_emptied.
  - now apply paid_suits.
Qed.
Lemma paid_enlarged p n d p' : fair p n -> enlarged SC RB p d p' -> paid p n p' d.
Proof.
  intros F L. unfold enlarged in L. destruct (d <=? room_of SC p).
  - subst p'. apply paid_stay.
  - now apply paid_suits.
Qed.

Ltac len := unfold insert_at, erase_at, resize_to; cbn [fst]; rewrite ?app_length, ?firstn_length, ?skipn_length, ?repeat_length; cbn [length]; lia.
Lemma paid_step p (xs : list V) o p' : fair p (length xs) -> adds_or_takes o = true ->
  place_step SC RB p (length xs) (Seq o) p' ->
  paid p (length xs) p' (length (fst (small_step dflt xs (Seq o)))).
Proof.
  intros F Ha S. destruct o as [v| |pos v|pos n v|pos l|pos|first last|n|n v| |n v|l]; try discriminate Ha;
    cbn [place_step small_step valid_pos spec_step fits] in *.
  - replace (length (fst _)) with (length xs + 1) by len. now apply paid_suits.
  - destruct (Nat.eqb_spec (length xs) 0) as [e|ne].
    + destruct xs; [|discriminate]. subst p'. apply paid_stay.
    + replace (length (fst _)) with (length xs - 1); [now apply paid_lessened|].
      destruct xs as [|x xs] using rev_ind; [now destruct ne|]. rewrite app_length. cbn [length].
      destruct (xs ++ [x]) eqn:E; [now destruct xs|]. rewrite <- E. cbn [fst]. rewrite removelast_last. lia.
  - destruct (Nat.leb_spec pos (length xs)); [|subst p'; apply paid_stay].
    replace (length (fst _)) with (length xs + 1) by len. now apply paid_suits.
  - destruct (Nat.leb_spec pos (length xs)); [|subst p'; apply paid_stay].
    replace (length (fst _)) with (length xs + n) by len. now apply paid_suits.
  - destruct (Nat.leb_spec pos (length xs)); [|subst p'; apply paid_stay].
    replace (length (fst _)) with (length xs + length l) by len. now apply paid_suits.
  - destruct (Nat.ltb_spec pos (length xs)); [|subst p'; apply paid_stay].
    replace (length (fst _)) with (length xs - 1) by len. now apply paid_lessened.
  - destruct (Nat.leb_spec first last) as [L|G]; cbn [andb] in S.
    + rewrite (proj2 (Nat.ltb_ge last first)) by lia. cbn [orb].
      destruct (Nat.leb_spec last (length xs)); [|subst p'; apply paid_stay].
      replace (length (fst _)) with (length xs - (last - first)) by len. now apply paid_lessened.
    + rewrite (proj2 (Nat.ltb_lt last first)) by lia. cbn [orb fst]. subst p'. apply paid_stay.
  - replace (length (fst _)) with n by len. now apply paid_enlarged.
  - replace (length (fst _)) with n by len. now apply paid_enlarged.
  - subst p'. now apply paid_emptied.
Qed.

Lemma holds_fair (s : @vec V) xs : holds SC s xs -> fair (place_of s) (length xs).
Proof.
  intros (H1 & H2 & H3 & H4 & H5 & H6). unfold fair, place_of, is_static, capacity.
  destruct (Nat.eqb_spec (vb s) 0) as [e|ne]; cbn [room_of].
  - rewrite <- (H4 e). auto.
  - split; [exact H2|]. apply H5; auto.
Qed.

Lemma small_amort os : forall (s : @vec V) xs, holds SC s xs -> vfuse s = None ->
  small_along dflt maxn xs os ->
  exists c a z, small_cost moved dflt SC RB maxn s os = Some (c, a, z) /\
    c <= phi (place_of s) (length xs) + 10 * a.
Proof.
  induction os as [|o os IH]; intros s xs H Hf Al.
  - exists 0, 0, s. split; [reflexivity|lia].
  - destruct Al as ((Ha & Ho) & Al). cbn [small_cost].
    destruct (call_spec moved dflt SC RB maxn HSC HRB Hmax s xs (Seq o) H Hf Ho) as (s' & E & H' & F').
    rewrite E. destruct (call_place moved dflt SC RB maxn HSC HRB Hmax s xs _ s' _ H Hf Ho E) as (q & Pl & L & _).
    pose proof (call_stays s xs o s' _ H Hf Ho Ha E) as St.
    destruct (IH s' _ H' F' Al) as (c & a & z & Ec & B). rewrite Ec.
    eexists _, _, z. split; [reflexivity|].
    destruct (paid_step (place_of s) xs o q (holds_fair _ _ H) Ha Pl) as (P1 & P2).
    rewrite <- L in *. set (n' := length (fst (small_step dflt xs (Seq o)))) in *.
    destruct (holds_size _ _ _ H) as (Ev & _). destruct (holds_size _ _ _ H') as (Ev' & _).
    fold n' in Ev'. unfold carried, more, size_of. rewrite Ev, Ev'. cbn [snd].
    destruct (Nat.eqb_spec (vb s) (vb s')) as [e|ne]; [lia|].
    destruct St as [St|St]; [congruence|]. specialize (P2 St). lia.
Qed.
End Small.
