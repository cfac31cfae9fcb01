(** Proofs about flat_map and flat_set whose elements are in any order. *)
From Coq Require Import List Arith Bool Lia.
From Verif Require Import Base SeqSpec VecCommon FlatModel FlatSpec FlatProofs FlatEditModel FlatEditSpec.
Import ListNotations.

Section Any.
Context {E K Q C CT T : Type}.
Variable key : E -> K.
Variable kq : C -> K -> Q -> bool.
Variable qk : C -> Q -> K -> bool.
Variable cont : container E CT.
Variable cap : option nat.
Variable rep : CT -> list E -> Prop.
Hypothesis CF : conforms cont cap rep.
Variable c : C.

Section State.
Variable t : CT.
Variable l : list E.
Hypothesis R : rep t l.
Local Notation s := (mkFlat c t).

Lemma any_lower_loop q fuel : forall first len,
  len <= fuel -> first + len <= length l ->
  exists p, lower_loop key kq cont q fuel first len s = Ok p s /\ first <= p <= first + len.
Proof.
  induction fuel as [|fuel IH]; intros first len Hf Hl; cbn [lower_loop].
  - destruct (Nat.eqb_spec len 0); [|lia]. exists first. split; [reflexivity|lia].
  - destruct (Nat.eqb_spec len 0) as [->|Hn]; [exists first; split; [reflexivity|lia]|].
    pose proof (half_lt len Hn) as Hh. set (half := len / 2) in *. clearbody half.
    destruct (nth_get l (first + half)) as [e He]; [lia|].
    erewrite bind_ok by (eapply elem_spec; eauto). unfold cmp_. erewrite bind_ok by reflexivity.
    cbn [fcmp]. destruct (kq c (key e) q).
    + destruct (IH (first + half + 1) (len - half - 1)) as (p & Hp & Hb); [lia|lia|].
      exists p. split; [exact Hp|lia].
    + destruct (IH first half) as (p & Hp & Hb); [lia|lia|].
      exists p. split; [exact Hp|lia].
Qed.

Lemma any_upper_loop q fuel : forall first len,
  len <= fuel -> first + len <= length l ->
  exists p, upper_loop key qk cont q fuel first len s = Ok p s /\ first <= p <= first + len.
Proof.
  induction fuel as [|fuel IH]; intros first len Hf Hl; cbn [upper_loop].
  - destruct (Nat.eqb_spec len 0); [|lia]. exists first. split; [reflexivity|lia].
  - destruct (Nat.eqb_spec len 0) as [->|Hn]; [exists first; split; [reflexivity|lia]|].
    pose proof (half_lt len Hn) as Hh. set (half := len / 2) in *. clearbody half.
    destruct (nth_get l (first + half)) as [e He]; [lia|].
    erewrite bind_ok by (eapply elem_spec; eauto). unfold cmp_. erewrite bind_ok by reflexivity.
    cbn [fcmp]. destruct (qk c q (key e)).
    + destruct (IH first half) as (p & Hp & Hb); [lia|lia|].
      exists p. split; [exact Hp|lia].
    + destruct (IH (first + half + 1) (len - half - 1)) as (p & Hp & Hb); [lia|lia|].
      exists p. split; [exact Hp|lia].
Qed.

Lemma any_equal_loop q fuel : forall first len,
  len <= fuel -> first + len <= length l ->
  exists p r, equal_loop key kq qk cont q fuel first len s = Ok (p, r) s /\ first <= p <= r /\ r <= first + len.
Proof.
  induction fuel as [|fuel IH]; intros first len Hf Hl; cbn [equal_loop].
  - destruct (Nat.eqb_spec len 0); [|lia]. exists first, first. split; [reflexivity|lia].
  - destruct (Nat.eqb_spec len 0) as [->|Hn]; [exists first, first; split; [reflexivity|lia]|].
    pose proof (half_lt len Hn) as Hh. set (half := len / 2) in *. clearbody half.
    destruct (nth_get l (first + half)) as [e He]; [lia|].
    erewrite bind_ok by (eapply elem_spec; eauto). unfold cmp_. erewrite bind_ok by reflexivity.
    cbn [fcmp]. destruct (kq c (key e) q).
    + destruct (IH (first + half + 1) (len - half - 1)) as (p & r & Hp & Hb); [lia|lia|].
      exists p, r. split; [exact Hp|lia].
    + destruct (qk c q (key e)).
      * destruct (IH first half) as (p & r & Hp & Hb); [lia|lia|].
        exists p, r. split; [exact Hp|lia].
      * destruct (any_lower_loop q half first half) as (p & Hp & Hb); [lia|lia|].
        destruct (any_upper_loop q (first + len - (first + half + 1)) (first + half + 1)
          (first + len - (first + half + 1))) as (r & Hr & Hc); [lia|lia|].
        exists p, r. erewrite bind_ok by exact Hp. erewrite bind_ok by exact Hr.
        split; [reflexivity|lia].
Qed.

Lemma any_lower q : exists p, lower_bound key kq cont q s = Ok p s /\ p <= length l.
Proof.
  unfold lower_bound. erewrite bind_ok by (eapply size_spec; eauto).
  destruct (any_lower_loop q (length l) 0 (length l)) as (p & Hp & Hb); [lia|lia|].
  exists p. split; [exact Hp|lia].
Qed.
Lemma any_upper q : exists p, upper_bound key qk cont q s = Ok p s /\ p <= length l.
Proof.
  unfold upper_bound. erewrite bind_ok by (eapply size_spec; eauto).
  destruct (any_upper_loop q (length l) 0 (length l)) as (p & Hp & Hb); [lia|lia|].
  exists p. split; [exact Hp|lia].
Qed.

Lemma any_found q : exists p b,
  lower_bound key kq cont q s = Ok p s /\ present_at key qk cont q p s = Ok b s /\
  p <= length l /\ (b = true -> p < length l).
Proof.
  destruct (any_lower q) as (p & Hp & Hb). eexists p, _.
  split; [exact Hp|]. split; [eapply present_at_spec; eauto|]. split; [exact Hb|].
  destruct (nth_error l p) eqn:E1; [|discriminate]. intros _. now apply nth_lt_len in E1.
Qed.

Lemma any_find q : exists p, find key kq qk cont q s = Ok p s /\ p <= length l.
Proof.
  destruct (any_found q) as (p & b & H1 & H2 & H3 & H4). unfold find.
  erewrite bind_ok by exact H1. erewrite bind_ok by exact H2. destruct b.
  - exists p. split; [reflexivity|exact H3].
  - exists (length l). split; [eapply size_spec; eauto|lia].
Qed.

Lemma any_insert q e : exists t' l' a,
  fobserve ((let* r := insert key kq qk cont q e in ret (AIns (fst r) (snd r) : fret T)) s) =
    Some (mkFlat c t', a) /\ rep t' l' /\
  ((exists p, p < length l /\ l' = l /\ a = AIns p false) \/
   one_more cap l e l' (fun p => AIns p true) a).
Proof.
  destruct (any_found q) as (p & b & H1 & H2 & H3 & H4). unfold insert.
  destruct b.
  - exists t, l, (AIns p false).
    erewrite bind_ok. 2:{ erewrite bind_ok by exact H1. erewrite bind_ok by exact H2. reflexivity. }
    split; [reflexivity|]. split; [exact R|]. left. exists p. auto.
  - unfold one_more. destruct (fits cap (length l + 1)) eqn:F.
    + destruct (emplace_spec cont cap rep CF c t l R p e H3 F) as (t' & E1 & R').
      exists t', (insert_at l p [e]), (AIns p true).
      erewrite bind_ok.
      2:{ erewrite bind_ok by exact H1. erewrite bind_ok by exact H2. cbv beta iota. erewrite bind_ok by exact E1. reflexivity. }
      split; [reflexivity|]. split; [exact R'|]. right. exists p. auto.
    + destruct (emplace_full cont cap rep CF c t l R p e H3 F) as (t' & E1 & R').
      exists t', l, (AThrow OutOfRange).
      erewrite bind_throw.
      2:{ erewrite bind_ok by exact H1. erewrite bind_ok by exact H2. apply bind_throw. exact E1. }
      split; [reflexivity|]. split; [exact R'|]. right. auto.
Qed.

Variable asq : E -> Q.

Lemma any_fcall (o : fop E Q) : ferase_ok l o ->
  exists t' l' a, fobserve (fcall (T := T) key kq qk cont asq o s) = Some (mkFlat c t', a) /\
    rep t' l' /\ fshape cap l o l' a.
Proof.
  intros Hok. destruct o as [e|q e|e|pos|q|q|q|q|q|q| |]; cbn [fcall fshape ferase_ok] in *.
  - apply any_insert.
  - apply any_insert.
  - apply any_insert.
  - destruct (erase_spec cont cap rep CF c t l R pos Hok) as (t' & E1 & R').
    exists t', (erase_at l pos (S pos)), (AIter pos). erewrite bind_ok by exact E1. auto.
  - unfold erase_key. destruct (any_find q) as (p & H1 & H2).
    destruct (Nat.eqb_spec p (length l)) as [->|Hn].
    + exists t, l, (ACount 0).
      erewrite bind_ok. 2:{ erewrite bind_ok by exact H1. erewrite bind_ok by (eapply size_spec; eauto).
        rewrite Nat.eqb_refl. reflexivity. }
      auto.
    + assert (L : p < length l) by lia.
      destruct (erase_spec cont cap rep CF c t l R p L) as (t' & E1 & R').
      exists t', (erase_at l p (S p)), (ACount 1).
      erewrite bind_ok. 2:{ erewrite bind_ok by exact H1. erewrite bind_ok by (eapply size_spec; eauto).
        rewrite (proj2 (Nat.eqb_neq p (length l)) Hn). cbv beta iota. erewrite bind_ok by exact E1. reflexivity. }
      split; [reflexivity|]. split; [exact R'|]. right. exists p. auto.
  - destruct (any_find q) as (p & H1 & H2). exists t, l, (AIter p).
    erewrite bind_ok by exact H1. split; [reflexivity|]. split; [exact R|]. split; [reflexivity|]. now exists p.
  - unfold count. destruct (any_find q) as (p & H1 & H2).
    exists t, l, (ACount (if p =? length l then 0 else 1)).
    erewrite bind_ok. 2:{ erewrite bind_ok by exact H1. erewrite bind_ok by (eapply size_spec; eauto). reflexivity. }
    split; [reflexivity|]. split; [exact R|]. split; [reflexivity|]. destruct (p =? length l); auto.
  - destruct (any_lower q) as (p & H1 & H2). exists t, l, (AIter p).
    erewrite bind_ok by exact H1. split; [reflexivity|]. split; [exact R|]. split; [reflexivity|]. now exists p.
  - destruct (any_upper q) as (p & H1 & H2). exists t, l, (AIter p).
    erewrite bind_ok by exact H1. split; [reflexivity|]. split; [exact R|]. split; [reflexivity|]. now exists p.
  - destruct (any_equal_loop q (length l) 0 (length l)) as (p & r & H1 & H2 & H3); [lia|lia|].
    exists t, l, (ARange p r). unfold equal_range.
    erewrite bind_ok. 2:{ erewrite bind_ok by (eapply size_spec; eauto). exact H1. }
    split; [reflexivity|]. split; [exact R|]. split; [reflexivity|]. exists p, r. split; [lia|reflexivity].
  - destruct (cf_clear _ _ _ CF t l R) as (t' & E1 & R').
    exists t', [], ANone. unfold clear.
    erewrite bind_ok. 2:{ erewrite bind_ok. 2:{ unfold onc. cbn [fcont fcmp]. rewrite E1. reflexivity. } reflexivity. }
    auto.
  - exists t, l, (ACount (length l)). erewrite bind_ok by (eapply size_spec; eauto). auto.
Qed.
End State.

(** Histories, for any calls which keep within the shapes. *)
Section Run.
Context {O : Type}.
Variable call : O -> M (flat C CT) (fret T).
Variable shape : list E -> O -> list E -> fret T -> Prop.
Variable ok : list E -> O -> Prop.
Hypothesis step : forall t l o, rep t l -> ok l o ->
  exists t' l' a, fobserve (call o (mkFlat c t)) = Some (mkFlat c t', a) /\ rep t' l' /\ shape l o l' a.

Lemma any_ucall t l (o : uop O E) : rep t l -> uok ok l o ->
  exists t' l' a, fobserve (ucall cont call o (mkFlat c t)) = Some (mkFlat c t', a) /\
    rep t' l' /\ ushape cap shape l o l' a.
Proof.
  intros R Hok. destruct o as [o|pos e|pos e|pos]; cbn [ucall ushape uok] in *.
  - now apply step.
  - destruct (cf_put _ _ _ CF t l pos e R Hok) as (t' & E1 & R').
    exists t', (upd l pos e), ANone. unfold bind, onc. cbn [fcont fcmp]. rewrite E1. auto.
  - destruct (fits cap (length l + 1)) eqn:F.
    + destruct (cf_insert _ _ _ CF t l pos e R Hok F) as (t' & E1 & R').
      exists t', (insert_at l pos [e]), ANone. unfold bind, onc. cbn [fcont fcmp]. rewrite E1. auto.
    + destruct (cf_full _ _ _ CF t l pos e R Hok F) as (t' & E1 & R').
      exists t', l, (AThrow OutOfRange). unfold bind, onc. cbn [fcont fcmp]. rewrite E1. auto.
  - destruct (cf_erase _ _ _ CF t l pos R Hok) as (t' & E1 & R').
    exists t', (erase_at l pos (S pos)), ANone. unfold bind, onc. cbn [fcont fcmp]. rewrite E1. auto.
Qed.

Lemma any_urun os : forall t l, rep t l -> uok_along cap shape ok l os ->
  exists t' l' rs, frun (ucall cont call) (mkFlat c t) os = Some (mkFlat c t', rs) /\
    rep t' l' /\ ushapes cap shape l os rs l'.
Proof.
  induction os as [|o os IH]; intros t l R H.
  - exists t, l, []. repeat split; [exact R|constructor].
  - inversion H as [|l0 o0 os0 H1 H2]; subst.
    destruct (any_ucall t l o R H1) as (t1 & l1 & a & E1 & R1 & S1).
    destruct (IH t1 l1 R1 (H2 _ _ S1)) as (t2 & l2 & rs & E2 & R2 & S2).
    exists t2, l2, (a :: rs). cbn [frun]. rewrite E1, E2. split; [reflexivity|].
    split; [exact R2|]. econstructor; eauto.
Qed.
End Run.
End Any.

Section AnyMap.
Context {K T Q C CT : Type}.
Variable kq : C -> K -> Q -> bool.
Variable qk : C -> Q -> K -> bool.
Variable cont : container (K * T) CT.
Variable cap : option nat.
Variable rep : CT -> list (K * T) -> Prop.
Hypothesis CF : conforms cont cap rep.
Variable c : C.
Variable conv : Q -> K.
Variable dflt : T.
Variable asq : K -> Q.

Section State.
Variable t : CT.
Variable l : list (K * T).
Hypothesis R : rep t l.
Local Notation s := (mkFlat c t).

Lemma any_index q : exists t' l',
  rep t' l' /\
  ((exists p e, index kq qk cont conv dflt q s = Ok p (mkFlat c t') /\ nth_error l p = Some e /\ l' = l) \/
   (fits cap (length l + 1) = true /\ exists p,
      index kq qk cont conv dflt q s = Ok p (mkFlat c t') /\ p <= length l /\ l' = insert_at l p [(conv q, dflt)]) \/
   (fits cap (length l + 1) = false /\ index kq qk cont conv dflt q s = Throw OutOfRange (mkFlat c t') /\ l' = l)).
Proof.
  destruct (any_found fst kq qk cont cap rep CF c t l R q) as (p & b & H1 & H2 & H3 & H4). unfold index.
  erewrite bind_ok by exact H1. erewrite bind_ok by exact H2. destruct b.
  - exists t, l. split; [exact R|]. left. destruct (nth_get l p (H4 eq_refl)) as [e He]. exists p, e. auto.
  - destruct (fits cap (length l + 1)) eqn:F.
    + destruct (emplace_spec cont cap rep CF c t l R p (conv q, dflt) H3 F) as (t' & E1 & R').
      exists t', (insert_at l p [(conv q, dflt)]). split; [exact R'|]. right. left. split; [reflexivity|].
      exists p. auto.
    + destruct (emplace_full cont cap rep CF c t l R p (conv q, dflt) H3 F) as (t' & E1 & R').
      exists t', l. split; [exact R'|]. right. right. auto.
Qed.

Lemma any_at q : (exists p e, at_ kq qk cont q s = Ok p s /\ nth_error l p = Some e) \/
  at_ kq qk cont q s = Throw OutOfRange s.
Proof.
  destruct (any_found fst kq qk cont cap rep CF c t l R q) as (p & b & H1 & H2 & H3 & H4). unfold at_.
  erewrite bind_ok by exact H1. erewrite bind_ok by exact H2. destruct b.
  - left. destruct (nth_get l p (H4 eq_refl)) as [e He]. exists p, e. auto.
  - right. reflexivity.
Qed.
End State.

Lemma nth_insert_same {E} (l : list E) p x : p <= length l -> nth_error (insert_at l p [x]) p = Some x.
Proof.
  intros H. rewrite nth_insert_at by exact H. rewrite Nat.ltb_irrefl, Nat.eqb_refl. reflexivity.
Qed.
Lemma upd_insert {E} (l : list E) p x y : p <= length l -> upd (insert_at l p [x]) p y = insert_at l p [y].
Proof.
  revert p. induction l as [|a l IH]; intros [|p] H; cbn in *; try lia; try reflexivity.
  unfold insert_at in *. cbn. f_equal. apply IH. lia.
Qed.

Lemma any_second t l i e : rep t l -> nth_error l i = Some e ->
  second cont i (mkFlat c t) = Ok (snd e) (mkFlat c t).
Proof. intros R He. unfold second. erewrite bind_ok by (eapply elem_spec; eauto). reflexivity. Qed.
Lemma any_set_second t l i e v : rep t l -> nth_error l i = Some e ->
  exists t', set_second cont i v (mkFlat c t) = Ok tt (mkFlat c t') /\ rep t' (upd l i (fst e, v)).
Proof.
  intros R He. pose proof (nth_lt_len _ _ _ He) as Hi.
  destruct (put_spec cont cap rep CF c t l R i (fst e, v) Hi) as (t' & Ht & Hr).
  exists t'. split; [|exact Hr]. unfold set_second. erewrite bind_ok by (eapply elem_spec; eauto). exact Ht.
Qed.

Lemma any_mcall t l (o : mop K T Q) : rep t l -> merase_ok l o ->
  exists t' l' a, fobserve (mcall kq qk cont conv dflt asq o (mkFlat c t)) = Some (mkFlat c t', a) /\
    rep t' l' /\ mshape cap conv dflt l o l' a.
Proof.
  intros R Hok. destruct o as [o|q|q v|q|q v|pos v]; cbn [mcall mshape merase_ok] in *.
  - exact (any_fcall fst kq qk cont cap rep CF c t l R _ o Hok).
  - destruct (any_index t l R q) as (t' & l' & R' & [(p & e & E1 & H & ->)|[(F & p & E1 & H & ->)|(F & E1 & ->)]]).
    + exists t', l, (AVal (snd e)). erewrite bind_ok by exact E1.
      erewrite bind_ok by (eapply any_second; eauto). split; [reflexivity|]. split; [exact R'|].
      left. exists e. split; [eapply nth_error_In; eauto|auto].
    + exists t', (insert_at l p [(conv q, dflt)]), (AVal dflt). erewrite bind_ok by exact E1.
      erewrite bind_ok by (eapply any_second; eauto; now apply nth_insert_same).
      split; [reflexivity|]. split; [exact R'|]. right. unfold one_more. rewrite F. exists p. auto.
    + exists t', l, (AThrow OutOfRange). erewrite bind_throw by exact E1.
      split; [reflexivity|]. split; [exact R'|]. right. unfold one_more. rewrite F. auto.
  - destruct (any_index t l R q) as (t' & l' & R' & [(p & e & E1 & H & ->)|[(F & p & E1 & H & ->)|(F & E1 & ->)]]).
    + destruct (any_set_second t' l p e v R' H) as (t2 & E2 & R2).
      exists t2, (upd l p (fst e, v)), ANone. erewrite bind_ok by exact E1. erewrite bind_ok by exact E2.
      split; [reflexivity|]. split; [exact R2|]. left. exists p, e. auto.
    + destruct (any_set_second t' _ p (conv q, dflt) v R' (nth_insert_same l p _ H)) as (t2 & E2 & R2).
      cbn [fst] in R2. rewrite upd_insert in R2 by exact H.
      exists t2, (insert_at l p [(conv q, v)]), ANone. erewrite bind_ok by exact E1. erewrite bind_ok by exact E2.
      split; [reflexivity|]. split; [exact R2|]. right. unfold one_more. rewrite F. exists p. auto.
    + exists t', l, (AThrow OutOfRange). erewrite bind_throw by exact E1.
      split; [reflexivity|]. split; [exact R'|]. right. unfold one_more. rewrite F. auto.
  - destruct (any_at t l R q) as [(p & e & E1 & H)|E1].
    + exists t, l, (AVal (snd e)). erewrite bind_ok by exact E1.
      erewrite bind_ok by (eapply any_second; eauto). split; [reflexivity|]. split; [exact R|].
      split; [reflexivity|]. right. exists e. split; [eapply nth_error_In; eauto|reflexivity].
    + exists t, l, (AThrow OutOfRange). erewrite bind_throw by exact E1. auto.
  - destruct (any_at t l R q) as [(p & e & E1 & H)|E1].
    + destruct (any_set_second t l p e v R H) as (t2 & E2 & R2).
      exists t2, (upd l p (fst e, v)), ANone. erewrite bind_ok by exact E1. erewrite bind_ok by exact E2.
      split; [reflexivity|]. split; [exact R2|]. right. exists p, e. auto.
    + exists t, l, (AThrow OutOfRange). erewrite bind_throw by exact E1. auto.
  - destruct (nth_get l pos Hok) as [e H].
    destruct (any_set_second t l pos e v R H) as (t2 & E2 & R2).
    exists t2, (upd l pos (fst e, v)), ANone. erewrite bind_ok by exact E2.
    split; [reflexivity|]. split; [exact R2|]. exists e. auto.
Qed.
End AnyMap.

(** * What is found says whether the elements are in order *)
Section Found.
Context {E K Q C CT : Type}.
Variable key : E -> K.
Variable lt : C -> K -> K -> bool.
Variable kq : C -> K -> Q -> bool.
Variable qk : C -> Q -> K -> bool.
Variable conv : Q -> K.
Variable cont : container E CT.
Variable cap : option nat.
Variable rep : CT -> list E -> Prop.
Hypothesis CF : conforms cont cap rep.
Variable c : C.
Hypothesis W : strict_weak_order (lt c).
Hypothesis Hkq : forall k q, kq c k q = lt c k (conv q).
Hypothesis Hqk : forall k q, qk c q k = lt c (conv q) k.
Variable t : CT.
Variable l : list E.
Hypothesis R : rep t l.
Local Notation s := (mkFlat c t).

(** Two lookups which end at different places parted at some element. *)
Lemma parted q q' fuel : forall first len i j,
  len <= fuel -> first + len <= length l -> i < j ->
  lower_loop key kq cont q fuel first len s = Ok i s ->
  lower_loop key kq cont q' fuel first len s = Ok j s ->
  exists m e, i <= m < j /\ nth_error l m = Some e /\
    lt c (key e) (conv q) = false /\ lt c (key e) (conv q') = true.
Proof.
  induction fuel as [|fuel IH]; intros first len i j Hf Hl Hij; cbn [lower_loop].
  - destruct (Nat.eqb_spec len 0); [|lia]. intros E1 E2. injection E1 as <-. injection E2 as <-. lia.
  - destruct (Nat.eqb_spec len 0) as [->|Hn].
    { intros E1 E2. injection E1 as <-. injection E2 as <-. lia. }
    pose proof (half_lt len Hn) as Hh. set (half := len / 2) in *. clearbody half.
    destruct (nth_get l (first + half)) as [e He]; [lia|].
    intros E1 E2.
    erewrite bind_ok in E1 by (eapply elem_spec; eauto). erewrite bind_ok in E2 by (eapply elem_spec; eauto).
    unfold cmp_ in *. erewrite bind_ok in E1 by reflexivity. erewrite bind_ok in E2 by reflexivity.
    cbn [fcmp] in *. rewrite !Hkq in *.
    destruct (lt c (key e) (conv q)) eqn:L1; destruct (lt c (key e) (conv q')) eqn:L2.
    + eapply IH; [| |exact Hij|exact E1|exact E2]; lia.
    + exfalso.
      destruct (any_lower_loop key kq cont cap rep CF c t l R q fuel (first + half + 1) (len - half - 1))
        as (p & Hp & Hb); [lia|lia|].
      destruct (any_lower_loop key kq cont cap rep CF c t l R q' fuel first half) as (p' & Hp' & Hb'); [lia|lia|].
      rewrite Hp in E1. rewrite Hp' in E2. injection E1 as <-. injection E2 as <-. lia.
    + destruct (any_lower_loop key kq cont cap rep CF c t l R q fuel first half) as (p & Hp & Hb); [lia|lia|].
      destruct (any_lower_loop key kq cont cap rep CF c t l R q' fuel (first + half + 1) (len - half - 1))
        as (p' & Hp' & Hb'); [lia|lia|].
      rewrite Hp in E1. rewrite Hp' in E2. injection E1 as <-. injection E2 as <-.
      exists (first + half), e. split; [lia|]. auto.
    + eapply IH; [| |exact Hij|exact E1|exact E2]; lia.
Qed.

(** What find finds is at the lower bound. *)
Lemma find_lower q i : i < length l -> find key kq qk cont q s = Ok i s -> lower_bound key kq cont q s = Ok i s.
Proof.
  intros Hi. destruct (any_found key kq qk cont cap rep CF c t l R q) as (p & b & H1 & H2 & H3 & H4). unfold find.
  erewrite bind_ok by exact H1. erewrite bind_ok by exact H2. destruct b.
  - intros E1. injection E1 as ->. exact H1.
  - erewrite (size_spec cont cap rep CF) by exact R. intros E1. injection E1 as <-. lia.
Qed.

Lemma found_ascending (asq : E -> Q) : (forall e, conv (asq e) = key e) ->
  (forall i e, nth_error l i = Some e -> find key kq qk cont (asq e) s = Ok i s) <->
  ascending key (lt c) l.
Proof.
  intros Ha. split.
  - intros H i j a b Hij Hi Hj.
    pose proof (find_lower _ _ (nth_lt_len _ _ _ Hi) (H _ _ Hi)) as L1.
    pose proof (find_lower _ _ (nth_lt_len _ _ _ Hj) (H _ _ Hj)) as L2.
    unfold lower_bound in *. erewrite bind_ok in L1 by (eapply size_spec; eauto).
    erewrite bind_ok in L2 by (eapply size_spec; eauto).
    destruct (parted (asq a) (asq b) (length l) 0 (length l) i j) as (m & e & Hm & He & X1 & X2); auto.
    rewrite Ha in X1, X2. apply (nlt_lt _ W) with (key e); assumption.
  - intros A i e He. pose proof (enum_exists key lt c W l A) as EN.
    destruct (find_fact key lt kq qk cont cap rep CF conv c W Hkq Hqk t l _ R EN (asq e)) as (p & E1 & [P1 P2] & _).
    rewrite E1. f_equal.
    assert (X : List.find (fun e0 => equivb lt c (conv (asq e)) (key e0)) l = Some e).
    { apply (proj2 EN). split; [eapply nth_error_In; eauto|]. rewrite Ha. now apply (equiv_refl _ W). }
    rewrite X in P2. eapply (asc_unique key lt c l A); eauto. now apply (equiv_refl _ W).
Qed.

(** A write keeps the order exactly if the new element is between its neighbours. *)
Lemma write_ascending pos e : ascending key (lt c) l -> pos < length l ->
  (ascending key (lt c) (upd l pos e) <-> between key (lt c) l pos e).
Proof.
  intros A Hp. split.
  - intros A'. split.
    + intros a H0 Ha. apply (A' (pos - 1) pos); [lia| |].
      * rewrite nth_error_upd_neq by lia. exact Ha.
      * now apply nth_error_upd_eq.
    + intros b Hb. apply (A' pos (S pos)); [lia| |].
      * now apply nth_error_upd_eq.
      * rewrite nth_error_upd_neq by lia. exact Hb.
  - intros [B1 B2] i j a b Hij Hi Hj.
    destruct (Nat.eq_dec i pos) as [->|Ni].
    + rewrite nth_error_upd_eq in Hi by exact Hp. injection Hi as <-.
      rewrite nth_error_upd_neq in Hj by lia.
      destruct (Nat.eq_dec j (S pos)) as [->|Nj]; [auto|].
      destruct (nth_get l (S pos)) as [x Hx]; [apply nth_lt_len in Hj; lia|].
      apply (swo_trans _ W) with (key x); [auto|]. apply (A (S pos) j); auto; lia.
    + rewrite nth_error_upd_neq in Hi by lia.
      destruct (Nat.eq_dec j pos) as [->|Nj].
      * rewrite nth_error_upd_eq in Hj by exact Hp. injection Hj as <-.
        destruct (Nat.eq_dec i (pos - 1)) as [->|Nk]; [apply B1; [lia|exact Hi]|].
        destruct (nth_get l (pos - 1)) as [x Hx]; [lia|].
        apply (swo_trans _ W) with (key x); [apply (A i (pos - 1)); auto; lia|apply B1; [lia|exact Hx]].
      * rewrite nth_error_upd_neq in Hj by lia. now apply (A i j).
Qed.

(** In every set with two elements there is a write which puts it out of order. *)
Lemma write_breaks a b l0 : l = a :: b :: l0 -> ~ between key (lt c) l 0 b.
Proof.
  intros -> [_ B]. specialize (B b eq_refl). rewrite (swo_irrefl _ W) in B. discriminate.
Qed.
End Found.
