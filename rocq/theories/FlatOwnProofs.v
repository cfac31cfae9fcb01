(** Proofs for C112. *)
From Coq Require Import List Arith NArith ZArith Bool Lia.
From Verif Require Import Base SeqSpec VecCommon FlatModel FlatSpec FlatProofs
  FlatExnModel FlatExnSpec FlatExnProofs SmallFlatModel SmallFlatSpec SmallFlatProofs FlatOwnModel FlatOwnSpec.
From Verif Require StaticVectorModel StaticVectorSpec StaticVectorProofs
  SmallVectorModel SmallVectorSpec SmallVectorProofs.
Import ListNotations.

Lemma border_unique {E} (P : E -> Prop) l p p' : border P l p -> border P l p' -> p = p'.
Proof.
  intros (L & A & B) (L' & A' & B').
  destruct (lt_eq_lt_dec p p') as [[H|H]|H]; auto; exfalso.
  - destruct (nth_get l p ltac:(lia)) as [e He]. exact (B p e (le_n _) He (A' p e H He)).
  - destruct (nth_get l p' ltac:(lia)) as [e He]. exact (B' p' e (le_n _) He (A p' e H He)).
Qed.

(** emplace of the container with an argument of its own. *)
Definition plain {E CT} (cont : container E CT) (i : nat) (e : E) : M CT nat :=
  let* r := c_call cont (Insert i e) in
  match r with Some p => ret p | None => ub end.

Lemma onc_plain {E C CT} (cont : container E CT) i e (s : flat C CT) :
  onc (plain cont i e) s = emplace_at cont i e s.
Proof.
  unfold onc, plain, emplace_at, bind, onc.
  destruct (c_call cont (Insert i e) (fcont s)) as [[p|] t| | |]; reflexivity.
Qed.

Section Own.
Context {E K Q C CT : Type}.
Variable key : E -> K.
Variable lt : C -> K -> K -> bool.
Variable kq : C -> K -> Q -> bool.
Variable qk : C -> Q -> K -> bool.
Variable conv : Q -> K.
Variable cont : container E CT.
Variable cap : option nat.
Variable rep : CT -> list E -> Prop.
Hypothesis CF : conforms cont cap rep.
Variable ce : nat -> nat -> (E -> E) -> M CT nat.
Variable c : C.
Hypothesis W : strict_weak_order (lt c).
Hypothesis Hkq : forall k q, kq c k q = lt c k (conv q).
Hypothesis Hqk : forall k q, qk c q k = lt c (conv q) k.
Variable t : CT.
Variable l : list E.
Variable m : K -> option E.
Hypothesis R : rep t l.
Hypothesis EN : enumerates key lt c l m.
Local Notation s := (mkFlat c t).
Variable j : nat.
Variable x : E.
Hypothesis Hx : nth_error l j = Some x.

Lemma insert_own_same q make :
  (m (conv (q x)) = None -> forall p, belongs key (lt c) l (conv (q x)) p ->
     ce p j make t = plain cont p (make x) t) ->
  insert_own key kq qk cont ce q make j s = insert key kq qk cont (q x) (make x) s.
Proof.
  intros H. unfold insert_own, insert.
  erewrite bind_ok by (eapply elem_spec; eauto).
  destruct (lookup_fact key lt kq qk cont cap rep CF conv c W Hkq Hqk t l m R EN (q x))
    as (p & Hp & Hb & Hle & Hm).
  rewrite !(bind_ok _ _ _ _ _ Hp).
  destruct (m (conv (q x))) as [e|] eqn:Em.
  - destruct Hm as (_ & _ & Hpr). rewrite !(bind_ok _ _ _ _ _ Hpr). reflexivity.
  - rewrite !(bind_ok _ _ _ _ _ Hm). cbv iota. unfold bind. rewrite <- onc_plain. unfold onc.
    cbn [fcont fcmp]. now rewrite (H eq_refl p Hb).
Qed.

Lemma insert_own_odd q make p r : m (conv (q x)) = None ->
  belongs key (lt c) l (conv (q x)) p ->
  ce p j make t = r ->
  insert_own key kq qk cont ce q make j s =
  match r with
  | Ok i t' => Ok (i, true) (mkFlat c t')
  | Throw e t' => Throw e (mkFlat c t')
  | UB => UB
  | Diverge => Diverge
  end.
Proof.
  intros Em Hb Hr. unfold insert_own.
  erewrite bind_ok by (eapply elem_spec; eauto).
  destruct (lookup_fact key lt kq qk cont cap rep CF conv c W Hkq Hqk t l m R EN (q x))
    as (p' & Hp & Hb' & Hle & Hm).
  rewrite (border_unique _ _ _ _ Hb' Hb) in *. rewrite Em in Hm.
  rewrite !(bind_ok _ _ _ _ _ Hp). rewrite !(bind_ok _ _ _ _ _ Hm). cbv iota.
  unfold bind, onc. cbn [fcont fcmp]. rewrite Hr. now destruct r.
Qed.
End Own.

Section OwnMap.
Context {K T Q C CT : Type}.
Variable lt : C -> K -> K -> bool.
Variable kq : C -> K -> Q -> bool.
Variable qk : C -> Q -> K -> bool.
Variable conv : Q -> K.
Variable dflt : T.
Variable cont : container (K * T) CT.
Variable cap : option nat.
Variable rep : CT -> list (K * T) -> Prop.
Hypothesis CF : conforms cont cap rep.
Variable ce : nat -> nat -> (K * T -> K * T) -> M CT nat.
Variable c : C.
Hypothesis W : strict_weak_order (lt c).
Hypothesis Hkq : forall k q, kq c k q = lt c k (conv q).
Hypothesis Hqk : forall k q, qk c q k = lt c (conv q) k.
Variable t : CT.
Variable l : list (K * T).
Variable m : K -> option (K * T).
Hypothesis R : rep t l.
Hypothesis EN : enumerates fst lt c l m.
Local Notation s := (mkFlat c t).
Variable j : nat.
Variable x : K * T.
Hypothesis Hx : nth_error l j = Some x.

(** operator[] is insert of (k, mapped_type()) without the flag. *)
Lemma index_own_insert sel :
  index_own kq qk cont ce conv dflt sel j s =
  match insert_own fst kq qk cont ce sel (fun e => (conv (sel e), dflt)) j s with
  | Ok r s' => Ok (fst r) s'
  | Throw e s' => Throw e s'
  | UB => UB
  | Diverge => Diverge
  end.
Proof.
  unfold index_own, insert_own.
  assert (He : elem cont j s = Ok x s) by (eapply elem_spec; eauto). rewrite !(bind_ok _ _ _ _ _ He).
  destruct (lookup_fact fst lt kq qk cont cap rep CF conv c W Hkq Hqk t l m R EN (sel x))
    as (p & Hp & Hb & Hle & Hm).
  rewrite !(bind_ok _ _ _ _ _ Hp).
  destruct (m (conv (sel x))) as [e|].
  - destruct Hm as (_ & _ & Hpr). rewrite !(bind_ok _ _ _ _ _ Hpr). reflexivity.
  - rewrite !(bind_ok _ _ _ _ _ Hm). cbv iota. unfold bind, ret.
    now destruct (onc (ce p j (fun e => (conv (sel e), dflt))) s).
Qed.

Lemma index_own_same sel :
  (m (conv (sel x)) = None -> forall p, belongs fst (lt c) l (conv (sel x)) p ->
     ce p j (fun e => (conv (sel e), dflt)) t = plain cont p (conv (sel x), dflt) t) ->
  index_own kq qk cont ce conv dflt sel j s = index kq qk cont conv dflt (sel x) s.
Proof.
  intros H. rewrite index_own_insert.
  erewrite insert_own_same by eauto.
  destruct (lookup_fact fst lt kq qk cont cap rep CF conv c W Hkq Hqk t l m R EN (sel x))
    as (p & Hp & Hb & Hle & Hm).
  unfold insert, index. rewrite !(bind_ok _ _ _ _ _ Hp).
  destruct (m (conv (sel x))) as [e|].
  - destruct Hm as (_ & _ & Hpr). rewrite !(bind_ok _ _ _ _ _ Hpr). reflexivity.
  - rewrite !(bind_ok _ _ _ _ _ Hm). cbv iota. unfold bind, ret.
    now destruct (emplace_at cont p (conv (sel x), dflt) s).
Qed.
End OwnMap.

(** * The containers *)

Lemma vec_own {E} (l : list E) i j make x : nth_error l j = Some x ->
  vec_emplace_own i j make l = plain (vec_cont E) i (make x) l.
Proof.
  intros H. unfold vec_emplace_own, plain, bind. rewrite H. cbn [c_call vec_cont vec_call].
  now destruct (i <=? length l).
Qed.

Section Static.
Context {E : Type}.
Variable moved : E -> E.
Variable dflt : E.
Variable Capacity : nat.
Hypothesis Hcap : (N.of_nat Capacity < two63)%N.
Notation cont := (sv_cont E moved dflt Capacity).

Lemma sv_own t l i j make : sv_holds E Capacity t l -> i <= length l -> j < length l ->
  length l < Capacity ->
  (j = i -> sv_emplace_own moved Capacity i j make t = UB) /\
  (j <> i -> forall y, nth_error l (if j <? i then j else j - 1) = Some y ->
   sv_emplace_own moved Capacity i j make t = plain cont i (make y) t).
Proof.
  intros (R & F) Hi Hj Hc. pose proof (StaticVectorProofs.represents_inv Capacity Hcap t l R) as ->.
  cbn [StaticVectorModel.fuse StaticVectorProofs.repr] in F. rewrite F.
  assert (HG : StaticVectorModel.grow_at moved Capacity i 1%N (StaticVectorProofs.repr Capacity l None) =
    Ok i (StaticVectorProofs.gap Capacity l i 1 None)).
  { change 1%N with (N.of_nat 1). apply StaticVectorProofs.grow_at_spec; auto. lia. }
  pose proof (StaticVectorProofs.gap_own_slot Capacity Hcap l i j None Hi Hj) as HS.
  unfold sv_emplace_own. rewrite !(bind_ok _ _ _ _ _ HG). split.
  - intros ->. rewrite Nat.ltb_irrefl, Nat.eqb_refl in HS. apply bind_ub.
    unfold StaticVectorModel.read. now rewrite HS.
  - intros Hne y Hy.
    assert (HR : StaticVectorModel.read j (StaticVectorProofs.gap Capacity l i 1 None) =
      Ok y (StaticVectorProofs.gap Capacity l i 1 None)).
    { unfold StaticVectorModel.read. rewrite HS. destruct (j <? i); [now rewrite Hy|].
      destruct (Nat.eqb_spec j i); [contradiction|]. now rewrite Hy. }
    erewrite bind_ok by exact HR. erewrite bind_ok by reflexivity.
    unfold plain. cbn [c_call sv_cont StaticVectorModel.call].
    unfold StaticVectorModel.insert1, position_answer, bind. rewrite HG.
    cbn [StaticVectorModel.construct]. unfold bind, ret.
    unfold StaticVectorModel.tick. cbn [StaticVectorModel.fuse StaticVectorProofs.gap].
    now destruct (StaticVectorModel.begin_life i (make y) _).
Qed.

Lemma sv_own_full t l i j make e : sv_holds E Capacity t l -> i <= length l -> length l = Capacity ->
  sv_emplace_own moved Capacity i j make t = plain cont i e t.
Proof.
  intros (R & F) Hi Hl. pose proof (StaticVectorProofs.represents_inv Capacity Hcap t l R) as ->.
  assert (HG : StaticVectorModel.grow_at moved Capacity i 1%N
      (StaticVectorProofs.repr Capacity l (StaticVectorModel.fuse t)) =
    Throw OutOfRange (StaticVectorProofs.repr Capacity l (StaticVectorModel.fuse t))).
  { apply StaticVectorProofs.grow_at_full; auto; unfold two63, two64 in *; lia. }
  unfold sv_emplace_own, plain. cbn [c_call sv_cont StaticVectorModel.call].
  unfold StaticVectorModel.insert1, position_answer, bind. now rewrite HG.
Qed.
End Static.

Section Small.
Context {E : Type}.
Variable moved : E -> E.
Variable dflt : E.
Variable SC RB : nat.
Variable maxn : N.
Hypothesis HSC : 0 < SC.
Hypothesis HRB : RB <= SC + 1.
Hypothesis Hmax : (maxn < two63)%N.
Notation lim := (limited moved dflt SC RB maxn).
Import SmallVectorModel.

Lemma small_own_moved (t : @vec E) l i j make : SmallVectorSpec.holds SC t l ->
  i <= length l -> SmallVectorSpec.room maxn (length l + 1) -> changes_buffer RB (length l) t ->
  small_emplace_own moved SC RB maxn i j make t = UB.
Proof.
  intros H Hi Hr Hm.
  destruct (SmallVectorProofs.grow_at_spec moved SC RB maxn HSC HRB Hmax t l i 1 H Hi Hr ltac:(lia))
    as (s1 & G & _ & _ & G3 & _ & _ & G6).
  unfold small_emplace_own. rewrite bind_get. erewrite bind_ok by exact G. apply bind_ub.
  unfold read. destruct (slot_at (vb t, j) (blocks s1)) as [[|v]|] eqn:Es; auto. exfalso.
  specialize (G6 Hm).
  apply (SmallVectorProofs.other_block_dead SC RB maxn HSC HRB Hmax s1 _ (vb t) j v G3 (fun X => G6 (eq_sym X)) Es).
Qed.

Lemma small_own t l i j make : small_rep SC (length l) t l ->
  i <= length l -> j < length l -> SmallVectorSpec.room maxn (length l + 1) ->
  ~ changes_buffer RB (length l) t ->
  (j = i -> small_emplace_own moved SC RB maxn i j make t = UB) /\
  (j <> i -> forall y, nth_error l (if j <? i then j else j - 1) = Some y ->
   small_emplace_own moved SC RB maxn i j make t = plain (lim (S (length l))) i (make y) t).
Proof.
  intros (H & F & _) Hi Hj Hr Hm.
  assert (Hst : length l + 1 <= vcap t /\ (vb t = 0 \/ RB <= length l + 1)).
  { unfold changes_buffer in Hm. lia. }
  destruct (SmallVectorProofs.grow_at_spec moved SC RB maxn HSC HRB Hmax t l i 1 H Hi Hr ltac:(lia))
    as (s1 & G & _ & _ & G3 & G4 & G5 & _).
  destruct (G5 Hst) as (Hb & _). destruct G3 as (HN & _).
  change (N.of_nat 1) with 1%N in G.
  unfold small_emplace_own. rewrite bind_get. rewrite !(bind_ok _ _ _ _ _ G).
  pose proof (SmallVectorProofs.gapped_slot SC RB maxn HSC HRB Hmax (vcap s1) l i j Hi Hj) as HS. split.
  - intros ->. apply bind_ub. unfold read, slot_at. cbn [fst snd]. rewrite <- Hb, HN, HS.
    now rewrite Nat.ltb_irrefl, Nat.eqb_refl.
  - intros Hne y Hy.
    assert (HR : read (vb t, j) s1 = Ok y s1).
    { unfold read, slot_at. cbn [fst snd]. rewrite <- Hb, HN, HS.
      destruct (j <? i); [now rewrite Hy|].
      destruct (Nat.eqb_spec j i); [contradiction|]. now rewrite Hy. }
    assert (HT : tick s1 = Ok tt s1) by (unfold tick; now rewrite G4, F).
    erewrite bind_ok by exact HR. erewrite bind_ok by exact HT. rewrite bind_get.
    pose proof H as (He & _).
    unfold plain. cbn [c_call limited]. unfold bind at 2. rewrite He. cbn [snd].
    rewrite (proj2 (Nat.leb_gt _ _)) by lia. cbn [c_call small_cont call].
    unfold position_answer, insert1, bind. rewrite G. unfold get. cbn [construct].
    unfold bind. rewrite HT. unfold ret.
    now destruct (begin_life (vb s1, i) (make y) s1).
Qed.
End Small.

(** * Facts for the property theorems *)

Lemma misplaced {E K C} (key : E -> K) (lt : C -> K -> K -> bool) c l p e z m :
  p <= length l -> nth_error l p = Some z -> lt c (key e) (key z) = false ->
  ~ enumerates key lt c (insert_at l p [e]) m.
Proof.
  intros Hp Hz Hlt (A & _).
  rewrite (A p (S p) e z) in Hlt; [discriminate|lia| |].
  - rewrite nth_insert_at by exact Hp. now rewrite Nat.ltb_irrefl, Nat.eqb_refl.
  - rewrite nth_insert_at by exact Hp.
    destruct (Nat.ltb_spec (S p) p); [lia|]. destruct (Nat.eqb_spec (S p) p); [lia|].
    now replace (S p - 1) with p by lia.
Qed.

Lemma before_border {E K} (key : E -> K) (lt : K -> K -> bool) l k p j x :
  belongs key lt l k p -> nth_error l j = Some x -> lt (key x) k = true -> j < p.
Proof.
  intros (_ & _ & B) Hx H. destruct (le_lt_dec p j) as [L|L]; [|exact L].
  exfalso. exact (B j x L Hx H).
Qed.

(** What the call leaves when its argument lies behind the place of the new element. *)
Lemma shifted {E K C} (key : E -> K) (lt : C -> K -> K -> bool) {CT} (cont : container E CT) cap rep
  (CF : conforms cont cap rep) c t l p j k (make : E -> E) :
  rep t l -> fits cap (length l + 1) = true -> belongs key (lt c) l k p -> p < j -> j < length l ->
  exists y z t', nth_error l (j - 1) = Some y /\ nth_error l p = Some z /\
    plain cont p (make y) t = Ok p t' /\ rep t' (insert_at l p [make y]) /\
    (lt c (key (make y)) (key z) = false ->
     forall m', ~ enumerates key lt c (insert_at l p [make y]) m').
Proof.
  intros R Hf (Hp & _) Hj Hl.
  destruct (nth_get l (j - 1) ltac:(lia)) as [y Hy], (nth_get l p ltac:(lia)) as [z Hz].
  destruct (cf_insert _ _ _ CF t l p (make y) R Hp Hf) as (t' & Ht & Hr).
  exists y, z, t'. split; [exact Hy|]. split; [exact Hz|]. split.
  - unfold plain. erewrite bind_ok by exact Ht. reflexivity.
  - split; [exact Hr|]. intros H m'. now apply misplaced with (z := z).
Qed.

Section Facts.
Context {E K Q C : Type}.
Variable key : E -> K.
Variable lt : C -> K -> K -> bool.
Variable kq : C -> K -> Q -> bool.
Variable qk : C -> Q -> K -> bool.
Variable conv : Q -> K.
Hypothesis W : forall c, strict_weak_order (lt c).
Hypothesis Hkq : forall c k q, kq c k q = lt c k (conv q).
Hypothesis Hqk : forall c k q, qk c q k = lt c (conv q) k.
Variable q : E -> Q.
Variable make : E -> E.
Hypothesis Hmake : forall e, conv (q e) = key (make e).

Section Any.
Context {T CT : Type}.
Variable cont : container E CT.
Variable cap : option nat.
Variable rep : CT -> list E -> Prop.
Hypothesis CF : conforms cont cap rep.
Variable ce : nat -> nat -> (E -> E) -> M CT nat.

Lemma insert_right c t l m j x :
  rep t l -> enumerates key lt c l m -> nth_error l j = Some x ->
  (m (conv (q x)) = None -> forall p, belongs key (lt c) l (conv (q x)) p ->
     ce p j make t = plain cont p (make x) t) ->
  exists t' l' m' (a : fret T),
    fobserve ((let* r := insert_own key kq qk cont ce q make j in ret (AIns (fst r) (snd r)))
                (mkFlat c t)) = Some (mkFlat c t', a) /\
    inserted key lt cap c l l' m m' (make x) a /\ rep t' l' /\ enumerates key lt c l' m'.
Proof.
  intros R EN Hx H.
  destruct (insert_fact (T := T) key lt kq qk cont cap rep CF conv c (W c) (Hkq c) (Hqk c) t l m R EN
    (q x) (make x) (Hmake x)) as (t' & l' & m' & (a & H1 & H2) & H3 & H4).
  exists t', l', m', a. split; [|auto]. rewrite <- H1. f_equal. unfold bind.
  now rewrite (insert_own_same key lt kq qk conv cont cap rep CF ce c (W c) (Hkq c) (Hqk c) t l m R EN
    j x Hx q make H).
Qed.
End Any.
End Facts.

Section MapFacts.
Context {K T Q C CT : Type}.
Variable lt : C -> K -> K -> bool.
Variable kq : C -> K -> Q -> bool.
Variable qk : C -> Q -> K -> bool.
Variable conv : Q -> K.
Variable dflt : T.
Hypothesis W : forall c, strict_weak_order (lt c).
Hypothesis Hkq : forall c k q, kq c k q = lt c k (conv q).
Hypothesis Hqk : forall c k q, qk c q k = lt c (conv q) k.
Variable cont : container (K * T) CT.
Variable cap : option nat.
Variable rep : CT -> list (K * T) -> Prop.
Hypothesis CF : conforms cont cap rep.
Variable ce : nat -> nat -> (K * T -> K * T) -> M CT nat.
Variable sel : K * T -> Q.

Lemma index_right c t l m j x :
  rep t l -> enumerates fst lt c l m -> nth_error l j = Some x ->
  (m (conv (sel x)) = None -> forall p, belongs fst (lt c) l (conv (sel x)) p ->
     ce p j (fun e => (conv (sel e), dflt)) t = plain cont p (conv (sel x), dflt) t) ->
  exists t' l' m' a,
    fobserve ((let* i := index_own kq qk cont ce conv dflt sel j in
               let* v := second cont i in ret (AVal v)) (mkFlat c t)) = Some (mkFlat c t', a) /\
    mmeans lt conv dflt cap c l l' m (MIndex (sel x)) m' a /\ rep t' l' /\
    enumerates fst lt c l' m'.
Proof.
  intros R EN Hx H.
  pose proof (index_own_same lt kq qk conv dflt cont cap rep CF ce c (W c) (Hkq c) (Hqk c) t l m R EN
    j x Hx sel H) as HS.
  pose proof (index_fact lt kq qk cont cap rep CF conv dflt c (W c) (Hkq c) (Hqk c) t l m R EN (sel x)) as HI.
  cbn [mmeans]. rewrite <- HS in HI. destruct (m (conv (sel x))) as [e|] eqn:Em.
  - destruct HI as (i & Hi & He). exists t, l, m, (AVal (snd e)).
    split; [|now split]. erewrite bind_ok by exact Hi.
    erewrite bind_ok by (eapply second_spec; eauto). reflexivity.
  - destruct (fits cap (length l + 1)).
    + destruct HI as (i & t' & l' & Hi & Hr & He & Hn).
      exists t', l', (fput fst lt c m (conv (sel x), dflt)), (AVal dflt).
      split; [|now split]. erewrite bind_ok by exact Hi.
      erewrite bind_ok by (eapply second_spec; eauto). reflexivity.
    + destruct HI as (t' & Ht & Hr). exists t', l, m, (AThrow OutOfRange).
      split; [|now split]. erewrite bind_throw by exact Ht. reflexivity.
Qed.
End MapFacts.

Lemma sv_right {E K C} (key : E -> K) (lt : C -> K -> K -> bool) moved (de : E) Capacity
  (Hcap : (N.of_nat Capacity < two63)%N) (c : C) t l p j x (make : E -> E) k :
  sv_holds E Capacity t l -> nth_error l j = Some x -> belongs key (lt c) l k p ->
  length l = Capacity \/ lt c (key x) k = true ->
  sv_emplace_own moved Capacity p j make t = plain (sv_cont E moved de Capacity) p (make x) t.
Proof.
  intros R Hx Hb Hc. assert (Hp : p <= length l) by apply Hb.
  destruct (Nat.eq_dec (length l) Capacity) as [Hl|Hl].
  - now apply sv_own_full with (l := l).
  - destruct Hc as [Hc|Hc]; [contradiction|].
    pose proof (before_border key (lt c) l k p j x Hb Hx Hc) as Hj.
    assert (Hle : length l <= Capacity) by apply R.
    destruct (sv_own moved de Capacity Hcap t l p j make R Hp (nth_lt_len _ _ _ Hx) ltac:(lia)) as (_ & H).
    apply H; [lia|]. now rewrite (proj2 (Nat.ltb_lt _ _) Hj).
Qed.

Lemma sv_wrong {E K C} (key : E -> K) (lt : C -> K -> K -> bool) moved (de : E) Capacity
  (Hcap : (N.of_nat Capacity < two63)%N) (c : C) t l p j x (make : E -> E) k :
  sv_holds E Capacity t l -> nth_error l j = Some x -> belongs key (lt c) l k p ->
  length l < Capacity ->
  let run := match sv_emplace_own moved Capacity p j make t with
             | Ok i t' => Ok (i, true) (mkFlat c t')
             | Throw e t' => Throw e (mkFlat c t')
             | UB => UB
             | Diverge => Diverge
             end in
  (j = p -> run = UB) /\
  (p < j -> exists y z t', nth_error l (j - 1) = Some y /\ nth_error l p = Some z /\
     run = Ok (p, true) (mkFlat c t') /\ sv_holds E Capacity t' (insert_at l p [make y]) /\
     (lt c (key (make y)) (key z) = false ->
      forall m', ~ enumerates key lt c (insert_at l p [make y]) m')).
Proof.
  intros R Hx Hb Hc run. assert (Hp : p <= length l) by apply Hb.
  pose proof (nth_lt_len _ _ _ Hx) as Hj.
  destruct (sv_own moved de Capacity Hcap t l p j make R Hp Hj Hc) as (H1 & H2). subst run. split.
  - intros E1. now rewrite (H1 E1).
  - intros L.
    destruct (shifted key lt _ _ _ (sv_conforms E moved de Capacity Hcap) c t l p j k make R) as
      (y & z & t' & Hy & Hz & Ht & Hr & Hn); auto.
    { cbn [fits]. apply Nat.leb_le. lia. }
    exists y, z, t'. split; [exact Hy|]. split; [exact Hz|]. split; [|auto].
    rewrite (H2 ltac:(lia) y), Ht; [reflexivity|].
    now rewrite (proj2 (Nat.ltb_ge _ _)) by lia.
Qed.

Lemma small_rises {V} SC n t l : small_rep SC n t l -> small_rep (V := V) SC (S n) t l.
Proof. intros (H & F & L). split; [exact H|]. split; [exact F|lia]. Qed.

Lemma inserted_cap {E K C T} (key : E -> K) (lt : C -> K -> K -> bool) n c l l' m m' e (a : fret T) :
  length l <= n ->
  inserted key lt (Some (S n)) c l l' m m' e a -> inserted key lt None c l l' m m' e a.
Proof.
  intros L. unfold inserted. destruct (m (key e)); [auto|]. cbn [fits].
  now rewrite (proj2 (Nat.leb_le _ _)) by lia.
Qed.

Lemma small_right {E K C} (key : E -> K) (lt : C -> K -> K -> bool) moved de SC RB maxn
  (HSC : 0 < SC) (HRB : RB <= SC + 1) (Hmax : (maxn < two63)%N) (c : C) t l p j x (make : E -> E) k :
  small_rep SC (length l) t l -> nth_error l j = Some x -> belongs key (lt c) l k p ->
  SmallVectorSpec.room maxn (length l + 1) -> ~ changes_buffer RB (length l) t ->
  lt c (key x) k = true ->
  small_emplace_own moved SC RB maxn p j make t =
  plain (limited moved de SC RB maxn (S (length l))) p (make x) t.
Proof.
  intros R Hx Hb Hr Hm Hc. assert (Hp : p <= length l) by apply Hb.
  pose proof (before_border key (lt c) l k p j x Hb Hx Hc) as Hj.
  destruct (small_own moved de SC RB maxn HSC HRB Hmax t l p j make R Hp (nth_lt_len _ _ _ Hx) Hr Hm) as (_ & H).
  apply H; [lia|]. now rewrite (proj2 (Nat.ltb_lt _ _) Hj).
Qed.

Lemma small_wrong {E K C} (key : E -> K) (lt : C -> K -> K -> bool) (moved : E -> E) (de : E) SC RB maxn
  (HSC : 0 < SC) (HRB : RB <= SC + 1) (Hmax : (maxn < two63)%N) (c : C) t l p j x (make : E -> E) k :
  small_rep SC (length l) t l -> nth_error l j = Some x -> belongs key (lt c) l k p ->
  SmallVectorSpec.room maxn (length l + 1) ->
  let run := match small_emplace_own moved SC RB maxn p j make t with
             | Ok i t' => Ok (i, true) (mkFlat c t')
             | Throw e t' => Throw e (mkFlat c t')
             | UB => UB
             | Diverge => Diverge
             end in
  (changes_buffer RB (length l) t -> run = UB) /\
  (j = p -> run = UB) /\
  (~ changes_buffer RB (length l) t -> p < j ->
   exists y z t', nth_error l (j - 1) = Some y /\ nth_error l p = Some z /\
     run = Ok (p, true) (mkFlat c t') /\ small_rep SC (S (length l)) t' (insert_at l p [make y]) /\
     (lt c (key (make y)) (key z) = false ->
      forall m', ~ enumerates key lt c (insert_at l p [make y]) m')).
Proof.
  intros R Hx Hb Hr run. assert (Hp : p <= length l) by apply Hb.
  pose proof (nth_lt_len _ _ _ Hx) as Hj. subst run.
  assert (HM : changes_buffer RB (length l) t -> small_emplace_own moved SC RB maxn p j make t = UB).
  { intros Hm. eapply small_own_moved; eauto. apply R. }
  assert (HD : changes_buffer RB (length l) t \/ ~ changes_buffer RB (length l) t)
    by (unfold changes_buffer; lia).
  split; [intros Hm; now rewrite (HM Hm)|]. split.
  - intros E1. destruct HD as [Hm|Hm]; [now rewrite (HM Hm)|].
    destruct (small_own moved de SC RB maxn HSC HRB Hmax t l p j make R Hp Hj Hr Hm) as (H1 & _).
    now rewrite (H1 E1).
  - intros Hm L.
    destruct (small_own moved de SC RB maxn HSC HRB Hmax t l p j make R Hp Hj Hr Hm) as (_ & H2).
    assert (Hr' : SmallVectorSpec.room maxn (S (length l))) by (now rewrite <- Nat.add_1_r).
    destruct (shifted key lt _ _ _ (limited_conforms moved de SC RB maxn HSC HRB Hmax (S (length l)) Hr')
      c t l p j k make (small_rises _ _ _ _ R)) as (y & z & t' & Hy & Hz & Ht & Hrr & Hn); auto.
    { cbn [fits]. apply Nat.leb_le. lia. }
    exists y, z, t'. split; [exact Hy|]. split; [exact Hz|]. split; [|auto].
    rewrite (H2 ltac:(lia) y), Ht; [reflexivity|].
    now rewrite (proj2 (Nat.ltb_ge _ _)) by lia.
Qed.
