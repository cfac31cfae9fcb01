(** C87: dynamic_bitset over a buffer which may run out of memory. *)
From Coq Require Import List Arith NArith Bool Lia.
From Verif Require Import Base VecCommon BitsetModel BitsetSpec BitsetProofs
  BitsetExnModel BitsetExnSpec BitsetExnProofs.
Import ListNotations.
Open Scope nat_scope.

(** Every call on a bitset in order ends in one of four ways: it does its work; or it
    throws and the object is as it was; or it throws out of resize, which needed more
    words; or it throws out of the assignment of more words.  Only a refusal of the
    environment makes a call throw. *)
Theorem C87_calls_partial : forall (W : nat) (o : xop) (b : bs) (ans : list answer) (l : list bool),
  0 < W -> holds_bits W b l -> xok W l o ->
  match xcall W o (mkXbs b ans) with
  | Ok a s' => exists l', holds_bits W (xb s') l' /\ xdoes W l o l' a
  | Throw e s' =>
      e = BadAlloc /\ (exists remains rest, ans = Denied remains :: rest) /\
      (untouchable W l o -> xb s' = b)
  | UB | Diverge => False
  end.
Proof.
  intros W o b ans l HW H Hok.
  destruct (xcall_outcome W HW o b ans l H Hok) as
    [(a & b' & ans' & l' & E & Hb & D)|[(remains & rest & Ea & E)|
     [(n & remains & rest & b' & Ea & Rn & G & E & _)|(ws & remains & rest & Ea & As & G & E)]]];
    rewrite E.
  - exists l'. auto.
  - repeat split; eauto.
  - repeat split; eauto. intros [U _]. specialize (U n Rn). lia.
  - repeat split; eauto. intros [_ U]. specialize (U ws As). destruct H as (_ & H2 & _). lia.
Qed.
Print Assumptions C87_calls_partial.

(** A history of calls which need no more words through resize or assignment - reserve,
    append at a word boundary and everything which stays within its words - goes through
    every refusal: each call does its work or changes nothing. *)
Theorem C87_history_partial : forall (W : nat) (os : list xop) (b : bs) (ans : list answer) (l : list bool),
  0 < W -> holds_bits W b l -> xhistory_ok W l os ->
  exists rs s' l', xrun W os (mkXbs b ans) = Ok rs s' /\
    holds_bits W (xb s') l' /\ xhistory W l os rs l'.
Proof.
  intros W os b ans l HW H Ho.
  destruct (xrun_sim W HW os b ans l H Ho) as (rs & b' & ans' & l' & E & Hb & X).
  exists rs, (mkXbs b' ans'), l'. auto.
Qed.
Print Assumptions C87_history_partial.

(** resize, push_back and append within a word: whenever the call needs more words and
    the memory is refused, the bitset is left with the new size over the old words.  It
    holds no sequence of bits any more, and testing its last bit is undefined
    behaviour. *)
Theorem C87_resize_refuted :
  forall (W : nat) (o : xop) (b : bs) (remains : list N) (rest : list answer) (l : list bool) (n : nat),
  0 < W -> holds_bits W b l -> xok W l o ->
  resizes_to W l o = Some n -> words_for W (length l) < words_for W n ->
  exists s', xcall W o (mkXbs b (Denied remains :: rest)) = Throw BadAlloc s' /\
    bsize (xb s') = n /\ length (buf (xb s')) = words_for W (length l) /\
    broken W (xb s') /\
    test W (n - 1) (xb s') = UB /\
    xcall W (XOn (BTest (n - 1))) s' = UB.
Proof.
  intros W o b remains rest l n HW H Hok Rn G.
  assert (forall b', holds_bits W (mkBs b' (bsize b)) l ->
    xcall W o (mkXbs b (Denied remains :: rest)) = Throw BadAlloc (mkXbs (mkBs b' n) rest) ->
    exists s', xcall W o (mkXbs b (Denied remains :: rest)) = Throw BadAlloc s' /\
    bsize (xb s') = n /\ length (buf (xb s')) = words_for W (length l) /\
    broken W (xb s') /\
    test W (n - 1) (xb s') = UB /\
    xcall W (XOn (BTest (n - 1))) s' = UB) as K.
  { intros b' (_ & L & _) E. cbn [buf] in L. exists (mkXbs (mkBs b' n) rest). split; auto.
    cbn [xb buf bsize]. split; auto. split; auto.
    destruct (short_broken W HW b' n) as [B T]; [lia|]. split; auto. split; auto.
    cbn [xcall]. unfold calm, bcall. cbn [xb]. unfold bind. now rewrite T. }
  destruct o as [o|m|t|t]; cbn [resizes_to] in Rn; try discriminate.
  - destruct o; try discriminate; injection Rn as <-; cbn [xok bok] in Hok.
    + destruct (xpush_back_outcome W HW b (Denied remains :: rest) l b0 H Hok) as
        [(b2 & ans' & E & Hb2)|(_ & r2 & rest2 & b2 & Ea & E & Hb2)].
      * exfalso. unfold xpush_back in E. rewrite bind_get in E. cbn [xb] in E. rewrite (proj1 H) in E.
        destruct (masked_ok W HW b l (length l + 1) H) as (bm & Rm & Hm & Lm).
        unfold bind at 1 in E. rewrite xresize_masked in E.
        erewrite bind_ok in E by (apply calm_ok; exact Rm).
        erewrite bind_ok in E by (apply calm_ok; reflexivity).
        unfold xvec_resize in E. rewrite bind_get in E. cbn [xb buf] in E.
        rewrite (proj2 (Nat.ltb_lt _ _)) in E; [discriminate|].
        rewrite word_size_ok by auto. destruct H as (_ & H2 & _). lia.
      * injection Ea as <- <-. apply (K b2 Hb2). cbn [xcall]. now apply then_throw.
    + destruct (xresize_outcome W HW b (Denied remains :: rest) l n0 H Hok) as
        [(b2 & ans' & E & _)|(_ & r2 & rest2 & b2 & Ea & E & Hb2)].
      * exfalso. destruct (masked_ok W HW b l n0 H) as (bm & Rm & Hm & Lm).
        rewrite xresize_masked in E.
        erewrite bind_ok in E by (apply calm_ok; exact Rm).
        erewrite bind_ok in E by (apply calm_ok; reflexivity).
        unfold xvec_resize in E. rewrite bind_get in E. cbn [xb buf] in E.
        rewrite (proj2 (Nat.ltb_lt _ _)) in E; [discriminate|].
        rewrite word_size_ok by auto. destruct H as (_ & H2 & _). lia.
      * injection Ea as <- <-. apply (K b2 Hb2). cbn [xcall]. now apply then_throw.
  - destruct (length l mod W =? 0) eqn:E0; [discriminate|]. injection Rn as <-.
    destruct Hok as (k & Ht & Hn). rewrite (proj1 Ht) in *.
    destruct (xresize_outcome W HW b (Denied remains :: rest) l _ H Hn) as
      [(b2 & ans' & E & _)|(_ & r2 & rest2 & b2 & Ea & E & Hb2)].
    + exfalso. destruct (masked_ok W HW b l (length l + length k) H) as (bm & Rm & Hm & Lm).
      rewrite xresize_masked in E.
      erewrite bind_ok in E by (apply calm_ok; exact Rm).
      erewrite bind_ok in E by (apply calm_ok; reflexivity).
      unfold xvec_resize in E. rewrite bind_get in E. cbn [xb buf] in E.
      rewrite (proj2 (Nat.ltb_lt _ _)) in E; [discriminate|].
      rewrite word_size_ok by auto. destruct H as (_ & H2 & _). lia.
    + injection Ea as <- <-. apply (K b2 Hb2). cbn [xcall]. apply then_throw. unfold xappend.
      destruct (is_empty t) eqn:Et.
      { apply (holds_empty W HW t k Ht) in Et. subst k. cbn [length] in G. rewrite Nat.add_0_r in G. lia. }
      rewrite bind_get. cbn [xb]. rewrite (proj1 H), E0, (proj1 Ht). now apply then_throw.
Qed.
Print Assumptions C87_resize_refuted.

(** Resizing back to the old size repairs the object, but not its bits: unless the size
    which failed is a multiple of the word size, the bits of the last word from
    n mod W on are gone. *)
Theorem C87_bits_lost_refuted :
  forall (W : nat) (b : bs) (remains : list N) (rest : list answer) (l : list bool) (n : nat),
  0 < W -> holds_bits W b l -> l <> [] -> size_ok W n -> size_ok W (length l) ->
  words_for W (length l) < words_for W n ->
  exists s1 s2,
    xcall W (XOn (BResize n)) (mkXbs b (Denied remains :: rest)) = Throw BadAlloc s1 /\
    xcall W (XOn (BResize (length l))) s1 = Ok BaNone s2 /\
    holds_bits W (xb s2) (if n mod W =? 0 then l else tail_cleared W l (n mod W)).
Proof.
  intros W b remains rest l n HW H Nl Hn Hl G.
  destruct (xcall_outcome W HW (XOn (BResize n)) b (Denied remains :: rest) l H Hn) as
    [(a & b' & ans' & l' & E & Hb & D)|[(r2 & rest2 & Ea & E)|
     [(m & r2 & rest2 & b' & Ea & Rn & _ & E & Hb)|(ws & r2 & rest2 & Ea & As & _ & _)]]].
  - exfalso. destruct (C87_resize_refuted W (XOn (BResize n)) b remains rest l n HW H Hn eq_refl G)
      as (s' & E' & _). rewrite E in E'. discriminate.
  - exfalso. destruct (C87_resize_refuted W (XOn (BResize n)) b remains rest l n HW H Hn eq_refl G)
      as (s' & E' & _ & _ & B & _). rewrite E in E'. injection E' as <-. cbn [xb] in B. now apply (B l).
  - injection Rn as <-. rewrite (proj1 H) in Hb.
    destruct (back_ok W HW b' n l Hb G Hn Hl Nl rest2) as (b2 & E2 & Hb2).
    exists (mkXbs (mkBs b' n) rest2), (mkXbs b2 rest2). split; auto. split; auto.
    cbn [xcall]. now apply then_none in E2.
  - discriminate.
Qed.
Print Assumptions C87_bits_lost_refuted.

(** Assignment of more words than there are: the size stays, the words are whatever the
    buffer's own assignment leaves.  A buffer which leaves its words as they were leaves
    the bitset as it was; one which leaves fewer (itlib::small_vector leaves none) leaves
    a broken bitset. *)
Theorem C87_assign_refuted :
  forall (W : nat) (o : xop) (b : bs) (ws remains : list N) (rest : list answer) (l : list bool),
  0 < W -> holds_bits W b l -> xok W l o ->
  assigns o = Some ws -> words_for W (length l) < length ws ->
  exists s', xcall W o (mkXbs b (Denied remains :: rest)) = Throw BadAlloc s' /\
    (remains = buf b -> xb s' = b) /\
    (length remains < words_for W (length l) ->
       bsize (xb s') = length l /\ broken W (xb s') /\ test W (length l - 1) (xb s') = UB).
Proof.
  intros W o b ws remains rest l HW H Hok As G.
  assert (length (buf b) < length ws) as G' by (destruct H as (_ & H2 & _); lia).
  assert (xbuf_assign ws (mkXbs b (Denied remains :: rest)) =
    Throw BadAlloc (mkXbs (mkBs remains (bsize b)) rest)) as E.
  { unfold xbuf_assign. rewrite bind_get. cbn [xb]. rewrite (proj2 (Nat.ltb_lt _ _)) by auto. reflexivity. }
  exists (mkXbs (mkBs remains (bsize b)) rest). split; [|split].
  - destruct o as [o|m|t|t]; try discriminate.
    + destruct o; try discriminate. injection As as ->. cbn [xcall]. unfold xassign.
      now do 2 apply then_throw.
    + injection As as <-. cbn [xcall]. unfold xcopy_assign. now do 2 apply then_throw.
  - intros ->. cbn [xb]. now destruct b.
  - cbn [xb bsize]. intros L. rewrite (proj1 H). split; auto.
    destruct (short_broken W HW remains (length l) L) as [B T]. auto.
Qed.
Print Assumptions C87_assign_refuted.

(** Eight bits, all ones, in words of eight: a reserve and an append which fail change
    nothing; a push_back which fails leaves nine bits in one word; a resize to 9 which
    fails and a resize back leave one bit of the eight. *)
Definition C87_eight : bs := mkBs [255%N] 8.
Definition C87_no : list answer := [Denied []; Denied []].
Example C87_met :
  holds_bits 8 C87_eight (repeat true 8) /\
  xhistory_ok 8 (repeat true 8) [XReserve 100; XAppend C87_eight; XOn (BTest 7)] /\
  xrun 8 [XReserve 100; XAppend C87_eight; XOn (BTest 7)] (mkXbs C87_eight C87_no) =
    Ok [None; None; Some (BaBool true)] (mkXbs C87_eight []) /\
  resizes_to 8 (repeat true 8) (XOn (BPushBack true)) = Some 9 /\
  words_for 8 (length (repeat true 8)) < words_for 8 9 /\
  xok 8 (repeat true 8) (XOn (BPushBack true)) /\
  xcall 8 (XOn (BPushBack true)) (mkXbs C87_eight C87_no) =
    Throw BadAlloc (mkXbs (mkBs [255%N] 9) [Denied []]) /\
  tail_cleared 8 (repeat true 8) (9 mod 8) = [true; false; false; false; false; false; false; false] /\
  xok 8 (repeat true 8) (XOn (BAssign [1%N; 2%N])) /\
  xcall 8 (XOn (BAssign [1%N; 2%N])) (mkXbs C87_eight C87_no) =
    Throw BadAlloc (mkXbs (mkBs [] 8) [Denied []]).
Proof.
  assert (holds_bits 8 C87_eight (repeat true 8)) as H8.
  { split; [reflexivity|]. split; [reflexivity|]. split.
    - intros w [<-|[]]. reflexivity.
    - intros i Hi. do 8 (destruct i; [reflexivity|]). cbn in Hi. lia. }
  split; auto. split.
  { constructor.
    - exact Logic.I.
    - split; discriminate.
    - intros l' a D. inversion D; subst. constructor.
      + exists (repeat true 8). split; auto. reflexivity.
      + split; discriminate.
      + intros l' a' D'. inversion D'; subst. constructor.
        * cbn [xok bok]. rewrite app_length. cbn. lia.
        * split; discriminate.
        * intros. constructor.
        * constructor.
      + constructor; [cbn; lia|split; discriminate|constructor|constructor].
    - constructor.
      + exists (repeat true 8). split; auto. reflexivity.
      + split; discriminate.
      + intros l' a' D'. inversion D'; subst. constructor.
        * cbn [xok bok]. rewrite app_length. cbn. lia.
        * split; discriminate.
        * intros. constructor.
        * constructor.
      + constructor; [cbn; lia|split; discriminate|constructor|constructor]. }
  split; [reflexivity|]. split; [reflexivity|]. split; [cbn; lia|]. split; [reflexivity|].
  split; [reflexivity|]. split; [reflexivity|]. split; [|reflexivity].
  intros w [<-|[<-|[]]]; reflexivity.
Qed.
