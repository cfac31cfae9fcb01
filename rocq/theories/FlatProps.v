(** The property theorems of flat_map and flat_set: C22 - C27. *)
From Coq Require Import List Arith NArith Bool Lia.
From Verif Require Import Base SeqSpec VecCommon StaticVectorModel StaticVectorSpec
  FlatModel FlatSpec FlatProofs.
Import ListNotations.

(** * C22: flat_map is a finite map *)

(** Any number of maps, each with its own comparator, over any container which behaves
    like std::vector (possibly bounded), and any history of calls on them, copy and move
    assignment and swap between them included: every call has the answer, and leaves the
    contents, which the finite map specification gives it. *)
Theorem C22_flat_map_histories :
  forall (K T Q C CT : Type) (lt : C -> K -> K -> bool) (kq : C -> K -> Q -> bool)
    (qk : C -> Q -> K -> bool) (conv : Q -> K) (asq : K -> Q) (dflt : T)
    (cont : container (K * T) CT) (cap : option nat) (rep : CT -> list (K * T) -> Prop),
  conforms cont cap rep ->
  (forall c, strict_weak_order (lt c)) ->
  (forall c k q, kq c k q = lt c k (conv q)) ->
  (forall c k q, qk c q k = lt c (conv q) k) ->
  (forall k, conv (asq k) = k) ->
  forall (st : list (flat C CT)) (cs : list (C * (K -> option (K * T))))
    (os : list (fsysop (mop K T Q))),
  Forall2 (holds fst lt rep) st cs ->
  legal fst lt (mmeans lt conv dflt cap) (mallowed lt conv) cs os ->
  exists st' rs cs',
    frun (fsys cont (mcall kq qk cont conv dflt asq)) st os = Some (st', rs) /\
    follows fst lt (mmeans lt conv dflt cap) cs os rs cs' /\
    Forall2 (holds fst lt rep) st' cs'.
Proof.
  intros K T Q C CT lt kq qk conv asq dflt cont cap rep CF W Hkq Hqk Ha st cs os HF HL.
  eapply frun_fact; eauto. intros c t l m o R EN Hok.
  eapply mcall_fact; eauto.
Qed.
Print Assumptions C22_flat_map_histories.

(** The container of the default template argument is one of these: the contents of a
    std::vector are its representation, and a move empties its source. *)
Theorem C22_std_vector_conforms :
  forall E : Type, conforms (vec_cont E) None (fun t l => t = l).
Proof. exact vec_conforms. Qed.
Print Assumptions C22_std_vector_conforms.

(** The empty map is where histories can start. *)
Theorem C22_flat_map_empty :
  forall (K T C CT : Type) (lt : C -> K -> K -> bool) (rep : CT -> list (K * T) -> Prop) c t,
  rep t [] -> holds fst lt rep (mkFlat c t) (c, fempty).
Proof.
  intros. split; [reflexivity|]. exists []. split; [assumption|apply enum_empty].
Qed.
Print Assumptions C22_flat_map_empty.

(** operator== of maps with the same comparator compares the contents. *)
Theorem C22_flat_map_equality :
  forall (K T C CT : Type) (lt : C -> K -> K -> bool) (cont : container (K * T) CT)
    (cap : option nat) (rep : CT -> list (K * T) -> Prop) (eqb : K * T -> K * T -> bool),
  conforms cont cap rep ->
  (forall c, strict_weak_order (lt c)) ->
  (forall x y, eqb x y = true <-> x = y) ->
  forall (a b : flat C CT) c ma mb,
  holds fst lt rep a (c, ma) -> holds fst lt rep b (c, mb) ->
  exists r, equal cont eqb a b = Ok r (fcont a, fcont b) /\
    not_equal cont eqb a b = Ok (negb r) (fcont a, fcont b) /\
    (r = true <-> forall k, ma k = mb k).
Proof. intros. eapply equal_maps_fact; eauto. Qed.
Print Assumptions C22_flat_map_equality.

Lemma nat_swo : strict_weak_order Nat.ltb.
Proof.
  constructor.
  - intros a. apply Nat.ltb_irrefl.
  - intros a b c H1 H2. apply Nat.ltb_lt in H1, H2. apply Nat.ltb_lt. lia.
  - intros a b c [H1 H2] [H3 H4]. apply Nat.ltb_ge in H1, H2, H3, H4.
    split; apply Nat.ltb_ge; lia.
Qed.
(** Comparing by tens: keys which differ may be equivalent. *)
Definition tens (up : bool) (a b : nat) : bool :=
  if up then a / 10 <? b / 10 else b / 10 <? a / 10.
Lemma tens_swo up : strict_weak_order (tens up).
Proof.
  destruct nat_swo as [I T X]. destruct up; constructor; unfold tens, equivalent; intros.
  - apply I.
  - eapply T; eauto.
  - eapply X; unfold equivalent; eauto.
  - apply I.
  - eapply T; eauto.
  - destruct (X (c / 10) (b / 10) (a / 10)); unfold equivalent; tauto.
Qed.

Example C22_case :
  let m := mkFlat true [] : flat bool (list (nat * nat)) in
  let n := mkFlat false [] : flat bool (list (nat * nat)) in
  let conv := fun k : nat => k in
  conforms (vec_cont (nat * nat)) None (fun t l => t = l) /\
  Forall2 (holds fst tens (fun t l => t = l)) [m; n] [(true, fempty); (false, fempty)] /\
  legal fst tens (mmeans tens conv 0 None) (mallowed tens conv)
    [(true, fempty); (false, fempty)]
    [FOn 0 (MCommon (FInsert (35, 1))); FOn 0 (MCommon (FErase 0))] /\
  frun (fsys (vec_cont _) (mcall tens tens (vec_cont _) conv 0 (fun k => k))) [m; n]
    [FOn 0 (MCommon (FInsert (35, 1))); FOn 0 (MIndexSet 12 2); FOn 0 (MIndexSet 38 3);
     FOn 0 (MAt 50); FSwap 0 1; FOn 0 (MIndex 7); FOn 1 (MCommon (FFind 31));
     FOn 1 (MCommon (FEraseKey 19)); FOn 1 (MCommon FSize)]
  = Some ([mkFlat false [(7, 0)]; mkFlat true [(35, 3)]],
          [AIns 0 true; ANone; ANone; AThrow OutOfRange; ANone; AVal 0; AIter 1; ACount 1;
           ACount 1]).
Proof.
  cbv zeta. split; [apply vec_conforms|]. split; [|split; [|vm_compute; reflexivity]].
  - repeat constructor; exists []; (split; [reflexivity|apply enum_empty]).
  - constructor.
    + exists (true, fempty). split; [reflexivity|exact I].
    + intros cs' a ((c & m) & (c' & m') & Hx & (Hc & l & l' & H1 & H2 & H3) & ->).
      injection Hx as <- <-. cbn [fst snd] in *. subst c'.
      constructor; [|intros; constructor].
      exists (true, m'). split; [reflexivity|]. exists l'. split; [exact H2|].
      cbn in H3. destruct H3 as [H3 _]. specialize (H3 35). cbn in H3.
      destruct H2 as [_ H2]. apply H2 in H3 as [H3 _]. now destruct l'; [|apply Nat.lt_0_succ].
Qed.

(** * C23: iteration is strictly ascending *)

Theorem C23_flat_map_ascending :
  forall (K T Q C CT : Type) (lt : C -> K -> K -> bool) (kq : C -> K -> Q -> bool)
    (qk : C -> Q -> K -> bool) (conv : Q -> K) (asq : K -> Q) (dflt : T)
    (cont : container (K * T) CT) (cap : option nat) (rep : CT -> list (K * T) -> Prop),
  conforms cont cap rep ->
  (forall c, strict_weak_order (lt c)) ->
  (forall c k q, kq c k q = lt c k (conv q)) ->
  (forall c k q, qk c q k = lt c (conv q) k) ->
  (forall k, conv (asq k) = k) ->
  forall (st : list (flat C CT)) cs (os : list (fsysop (mop K T Q))),
  Forall2 (holds fst lt rep) st cs ->
  legal fst lt (mmeans lt conv dflt cap) (mallowed lt conv) cs os ->
  exists st' rs,
    frun (fsys cont (mcall kq qk cont conv dflt asq)) st os = Some (st', rs) /\
    forall s, In s st' ->
      exists l, rep (fcont s) l /\ c_size cont (fcont s) = length l /\
        ascending fst (lt (fcmp s)) l.
Proof.
  intros K T Q C CT lt kq qk conv asq dflt cont cap rep CF W Hkq Hqk Ha st cs os HF HL.
  destruct (C22_flat_map_histories K T Q C CT lt kq qk conv asq dflt cont cap rep CF W Hkq Hqk
              Ha st cs os HF HL) as (st' & rs & cs' & H1 & _ & H3).
  exists st', rs. split; [exact H1|]. intros s Hs. eapply held_ascending; eauto.
Qed.
Print Assumptions C23_flat_map_ascending.

Theorem C23_flat_set_ascending :
  forall (K Q C CT : Type) (lt : C -> K -> K -> bool) (kq : C -> K -> Q -> bool)
    (qk : C -> Q -> K -> bool) (conv : Q -> K) (asq : K -> Q)
    (cont : container K CT) (cap : option nat) (rep : CT -> list K -> Prop),
  conforms cont cap rep ->
  (forall c, strict_weak_order (lt c)) ->
  (forall c k q, kq c k q = lt c k (conv q)) ->
  (forall c k q, qk c q k = lt c (conv q) k) ->
  (forall k, conv (asq k) = k) ->
  forall (st : list (flat C CT)) cs (os : list (fsysop (fop K Q))),
  Forall2 (holds (fun k => k) lt rep) st cs ->
  legal (T := unit) (fun k => k) lt (fmeans (fun k => k) lt conv cap)
    (fallowed (fun k => k) lt conv) cs os ->
  exists st' (rs : list (fret unit)),
    frun (fsys cont (fcall (fun k => k) kq qk cont asq)) st os = Some (st', rs) /\
    forall s, In s st' ->
      exists l, rep (fcont s) l /\ c_size cont (fcont s) = length l /\
        ascending (fun k => k) (lt (fcmp s)) l.
Proof.
  intros K Q C CT lt kq qk conv asq cont cap rep CF W Hkq Hqk Ha st cs os HF HL.
  assert (H : exists st' (rs : list (fret unit)) cs',
    frun (fsys cont (fcall (fun k => k) kq qk cont asq)) st os = Some (st', rs) /\
    follows (fun k => k) lt (fmeans (fun k => k) lt conv cap) cs os rs cs' /\
    Forall2 (holds (fun k => k) lt rep) st' cs').
  { eapply frun_fact; eauto. intros c t l m o R EN Hok. eapply fcall_fact; eauto. }
  destruct H as (st' & rs & cs' & H1 & _ & H3).
  exists st', rs. split; [exact H1|]. intros s Hs. eapply held_ascending; eauto.
Qed.
Print Assumptions C23_flat_set_ascending.

(** Construction from any sequence gives a strictly ascending one, of flat_map
    ([E = K * T]) as of flat_set ([E = K]). *)
Theorem C23_construction_ascending :
  forall (E K C CT : Type) (key : E -> K) (lt : C -> K -> K -> bool)
    (cont : container E CT) (cap : option nat) (rep : CT -> list E -> Prop)
    (moved : E -> E) (sort : (E -> E -> bool) -> list E -> list E),
  conforms cont cap rep -> sorts sort ->
  forall c t l,
  strict_weak_order (lt c) -> rep t l ->
  exists s l',
    construct key lt cont moved sort c t = Ok tt s /\ fcmp s = c /\
    rep (fcont s) l' /\ ascending key (lt c) l'.
Proof.
  intros E K C CT key lt cont cap rep moved sort CF S c t l W R.
  destruct (construct_fact key lt cont cap rep CF moved sort S c W t l R)
    as (s & l' & H1 & H2 & H3 & H4 & _). eauto 6.
Qed.
Print Assumptions C23_construction_ascending.

(** The hypotheses of the three are met by [C22_case], [C26_case] and [C25_case]. *)

(** * C24: bounds *)

(** Lookup keys of any type whose comparisons with keys respect the order: what is less
    than an element which is less than the lookup key is less than it too, and so on. A
    lookup key may be equivalent to several elements. *)
Theorem C24_bounds :
  forall (E K Q C CT : Type) (key : E -> K) (lt : C -> K -> K -> bool)
    (kq : C -> K -> Q -> bool) (qk : C -> Q -> K -> bool)
    (cont : container E CT) (cap : option nat) (rep : CT -> list E -> Prop),
  conforms cont cap rep ->
  forall c t l q,
  rep t l -> ascending key (lt c) l ->
  (forall a b, lt c a b = true -> kq c b q = true -> kq c a q = true) ->
  (forall a b, lt c a b = true -> qk c q a = true -> qk c q b = true) ->
  (forall a, kq c a q = true -> qk c q a = false) ->
  exists p r,
    lower_bound key kq cont q (mkFlat c t) = Ok p (mkFlat c t) /\
    upper_bound key qk cont q (mkFlat c t) = Ok r (mkFlat c t) /\
    equal_range key kq qk cont q (mkFlat c t) = Ok (p, r) (mkFlat c t) /\
    border (fun e => kq c (key e) q = true) l p /\
    border (fun e => qk c q (key e) = false) l r /\
    p <= r /\
    forall i e, nth_error l i = Some e ->
      (p <= i < r <-> kq c (key e) q = false /\ qk c q (key e) = false).
Proof. exact @bounds_fact. Qed.
Print Assumptions C24_bounds.

(** With a lookup key that stands for a key, equal_range has at most one element. *)
Theorem C24_equal_range_one :
  forall (E K Q C CT : Type) (key : E -> K) (lt : C -> K -> K -> bool)
    (kq : C -> K -> Q -> bool) (qk : C -> Q -> K -> bool) (conv : Q -> K)
    (cont : container E CT) (cap : option nat) (rep : CT -> list E -> Prop),
  conforms cont cap rep ->
  forall c t l q,
  strict_weak_order (lt c) ->
  (forall k, kq c k q = lt c k (conv q)) ->
  (forall k, qk c q k = lt c (conv q) k) ->
  rep t l -> ascending key (lt c) l ->
  exists p r,
    equal_range key kq qk cont q (mkFlat c t) = Ok (p, r) (mkFlat c t) /\
    p <= r <= p + 1 /\
    forall i e, nth_error l i = Some e ->
      (p <= i < r <-> equivalent (lt c) (key e) (conv q)).
Proof. exact @equal_range_one_fact. Qed.
Print Assumptions C24_equal_range_one.

(** Looking up the group of ten: a lookup key equivalent to several elements. *)
Example C24_case :
  let kq := fun (_ : unit) k q => k / 10 <? q in
  let qk := fun (_ : unit) q k => q <? k / 10 in
  let l := [3; 11; 15; 18; 40] in
  let s := mkFlat tt l in
  ascending (fun k => k) Nat.ltb l /\
  (forall a b, Nat.ltb a b = true -> kq tt b 1 = true -> kq tt a 1 = true) /\
  (forall a b, Nat.ltb a b = true -> qk tt 1 a = true -> qk tt 1 b = true) /\
  (forall a, kq tt a 1 = true -> qk tt 1 a = false) /\
  equal_range (fun k => k) kq qk (vec_cont nat) 1 s = Ok (1, 4) s.
Proof.
  cbv zeta. repeat match goal with |- _ /\ _ => split end.
  - intros i j a b Hij Ha Hb.
    do 5 (destruct i as [|i]; [do 5 (destruct j as [|j];
      [try lia; cbn in Ha, Hb; injection Ha as <-; injection Hb as <-; reflexivity|]);
      destruct j; discriminate|]). destruct i; discriminate.
  - intros a b H H1. apply Nat.ltb_lt in H, H1. apply Nat.ltb_lt.
    pose proof (Nat.div_le_mono a b 10). lia.
  - intros a b H H1. apply Nat.ltb_lt in H, H1. apply Nat.ltb_lt.
    pose proof (Nat.div_le_mono a b 10). lia.
  - intros a H. apply Nat.ltb_lt in H. apply Nat.ltb_ge. lia.
  - vm_compute. reflexivity.
Qed.

(** * C25: construction from a sequence *)

Theorem C25_construction :
  forall (E K C CT : Type) (key : E -> K) (lt : C -> K -> K -> bool)
    (cont : container E CT) (cap : option nat) (rep : CT -> list E -> Prop)
    (moved : E -> E) (sort : (E -> E -> bool) -> list E -> list E),
  conforms cont cap rep -> sorts sort ->
  forall c t l,
  strict_weak_order (lt c) -> rep t l ->
  exists s l' m,
    construct key lt cont moved sort c t = Ok tt s /\
    holds key lt rep s (c, m) /\
    rep (fcont s) l' /\
    ascending key (lt c) l' /\
    (forall e, In e l' -> In e l) /\
    (forall e, In e l -> exists e', In e' l' /\ equivalent (lt c) (key e) (key e')) /\
    (forall e e', In e l' -> In e' l' -> equivalent (lt c) (key e) (key e') -> e = e').
Proof.
  intros E K C CT key lt cont cap rep moved sort CF S c t l W R.
  destruct (construct_fact key lt cont cap rep CF moved sort S c W t l R)
    as (s & l' & H1 & H2 & H3 & H4 & H5 & H6).
  exists s, l', (fun k => List.find (fun e => equivb lt c k (key e)) l').
  split; [exact H1|]. split.
  { split; [exact H2|]. exists l'. split; [exact H3|]. now apply enum_exists. }
  repeat (split; [assumption|]).
  intros e e' He He' Hee. apply In_nth_error in He as [i Hi]. apply In_nth_error in He' as [j Hj].
  pose proof (asc_unique key lt c l' H4 i j e e' Hi Hj Hee). congruence.
Qed.
Print Assumptions C25_construction.

(** A sort which meets the promise exists (insertion sort), and construction by it. *)
Fixpoint isert {E} (lt : E -> E -> bool) (x : E) (l : list E) : list E :=
  match l with
  | [] => [x]
  | y :: l' => if lt y x then y :: isert lt x l' else x :: y :: l'
  end.
Definition isort {E} (lt : E -> E -> bool) (l : list E) : list E :=
  fold_right (isert lt) [] l.

Example C25_case :
  sorts (@isort (nat * nat)) /\
  construct fst tens (vec_cont (nat * nat)) (fun e => (0, 0)) isort true
    [(35, 1); (7, 2); (31, 3); (12, 4); (3, 5); (39, 6)] =
  Ok tt (mkFlat true [(7, 2); (12, 4); (35, 1)]).
Proof. split; [apply (isort_sorts isert isort); reflexivity|vm_compute; reflexivity]. Qed.

(** * C26: flat_set is a finite set *)

Theorem C26_flat_set_histories :
  forall (K Q C CT : Type) (lt : C -> K -> K -> bool) (kq : C -> K -> Q -> bool)
    (qk : C -> Q -> K -> bool) (conv : Q -> K) (asq : K -> Q)
    (cont : container K CT) (cap : option nat) (rep : CT -> list K -> Prop),
  conforms cont cap rep ->
  (forall c, strict_weak_order (lt c)) ->
  (forall c k q, kq c k q = lt c k (conv q)) ->
  (forall c k q, qk c q k = lt c (conv q) k) ->
  (forall k, conv (asq k) = k) ->
  forall (st : list (flat C CT)) (cs : list (C * (K -> option K))) (os : list (fsysop (fop K Q))),
  Forall2 (holds (fun k => k) lt rep) st cs ->
  legal (T := unit) (fun k => k) lt (fmeans (fun k => k) lt conv cap)
    (fallowed (fun k => k) lt conv) cs os ->
  exists st' (rs : list (fret unit)) cs',
    frun (fsys cont (fcall (fun k => k) kq qk cont asq)) st os = Some (st', rs) /\
    follows (fun k => k) lt (fmeans (fun k => k) lt conv cap) cs os rs cs' /\
    Forall2 (holds (fun k => k) lt rep) st' cs'.
Proof.
  intros K Q C CT lt kq qk conv asq cont cap rep CF W Hkq Hqk Ha st cs os HF HL.
  eapply frun_fact; eauto. intros c t l m o R EN Hok. eapply fcall_fact; eauto.
Qed.
Print Assumptions C26_flat_set_histories.

Theorem C26_flat_set_equality :
  forall (K C CT : Type) (lt : C -> K -> K -> bool) (cont : container K CT)
    (cap : option nat) (rep : CT -> list K -> Prop) (eqb : K -> K -> bool),
  conforms cont cap rep ->
  (forall c, strict_weak_order (lt c)) ->
  (forall x y, eqb x y = true <-> x = y) ->
  forall (a b : flat C CT) c ma mb,
  holds (fun k => k) lt rep a (c, ma) -> holds (fun k => k) lt rep b (c, mb) ->
  exists r, equal cont eqb a b = Ok r (fcont a, fcont b) /\
    not_equal cont eqb a b = Ok (negb r) (fcont a, fcont b) /\
    (r = true <-> forall k, ma k = mb k).
Proof. intros. eapply equal_maps_fact; eauto. Qed.
Print Assumptions C26_flat_set_equality.

Example C26_case :
  let s := mkFlat true [] : flat bool (list nat) in
  legal (T := unit) (fun k => k) tens (fmeans (fun k => k) tens (fun k : nat => k) None)
    (fallowed (fun k => k) tens (fun k : nat => k))
    [(true, fempty)]
    [FOn 0 (FInsert 35); FOn 0 (FInsert 31)] /\
  frun (fsys (vec_cont _) (fcall (T := unit) (fun k => k) tens tens (vec_cont _) (fun k => k))) [s]
    [FOn 0 (FInsert 35); FOn 0 (FInsert 31); FOn 0 (FEmplace 12); FOn 0 (FCount 37);
     FOn 0 (FErase 0); FOn 0 (FLower 99)]
  = Some ([mkFlat true [35]],
          [AIns 0 true; AIns 0 false; AIns 0 true; ACount 1; AIter 0; AIter 1]).
Proof.
  cbv zeta. split; [|vm_compute; reflexivity].
  constructor.
  - exists (true, fempty). split; [reflexivity|exact I].
  - intros cs' a (x & x' & Hx & _ & ->). constructor; [|intros; constructor].
    exists x'. split; [reflexivity|exact I].
Qed.

(** * C27: flat_map over a bounded container *)

(** static_vector is a container as the theorems above want it: all of them hold for
    flat_map and flat_set over it, with [cap = Some Capacity]. *)
Theorem C27_static_vector_conforms :
  forall (E : Type) (moved : E -> E) (dflt : E) (Capacity : nat),
  (N.of_nat Capacity < two63)%N ->
  conforms (sv_cont E moved dflt Capacity) (Some Capacity)
    (fun t l => represents Capacity t l /\ fuse t = None).
Proof. exact sv_conforms. Qed.
Print Assumptions C27_static_vector_conforms.

(** A full map: a new key throws and nothing changes, a present key is answered. *)
Theorem C27_flat_map_over_static_vector :
  forall (K T C : Type) (lt : C -> K -> K -> bool) (moved : K * T -> K * T)
    (de : K * T) (dflt : T) (Capacity : nat),
  (N.of_nat Capacity < two63)%N ->
  (forall c, strict_weak_order (lt c)) ->
  forall (s : flat C (@sv (K * T))) m e,
  let cont := sv_cont (K * T) moved de Capacity in
  holds fst lt (fun t l => represents Capacity t l /\ fuse t = None) s (fcmp s, m) ->
  StaticVectorModel.size (fcont s) = Capacity ->
  match m (fst e) with
  | None =>
      FlatModel.insert fst lt lt cont (fst e) e s = Throw OutOfRange s /\
      index lt lt cont (fun k => k) dflt (fst e) s = Throw OutOfRange s
  | Some old =>
      (exists p, FlatModel.insert fst lt lt cont (fst e) e s = Ok (p, false) s /\
        elem cont p s = Ok old s) /\
      (exists p, index lt lt cont (fun k => k) dflt (fst e) s = Ok p s /\
        elem cont p s = Ok old s)
  end.
Proof. exact @full_map_fact. Qed.
Print Assumptions C27_flat_map_over_static_vector.

Example C27_case :
  let s := mkFlat tt (mkSv [Live (2, 7); Live (5, 8)] 2 None) in
  let cont := sv_cont (nat * nat) (fun e => e) (0, 0) 2 in
  let lt := fun _ : unit => Nat.ltb in
  StaticVectorModel.size (fcont s) = 2 /\
  holds fst lt (fun t l => represents 2 t l /\ fuse t = None) s
    (tt, fun k => List.find (fun e => equivb lt tt k (fst e)) [(2, 7); (5, 8)]) /\
  FlatModel.insert fst lt lt cont 3 (3, 1) s = Throw OutOfRange s /\
  FlatModel.insert fst lt lt cont 5 (5, 1) s = Ok (1, false) s.
Proof.
  cbv zeta. split; [reflexivity|]. split; [|split; vm_compute; reflexivity].
  split; [reflexivity|]. exists [(2, 7); (5, 8)]. split.
  - split; [|reflexivity]. split; [reflexivity|]. split; [reflexivity|].
    split; [apply le_n|]. intros i Hi. destruct i as [|[|i]]; [reflexivity|reflexivity|lia].
  - apply (enum_exists fst (fun _ : unit => Nat.ltb) tt nat_swo).
    intros [|[|i]] [|[|j]] a b Hij Ha Hb; try lia; cbn in *; try congruence;
      try (destruct i; discriminate); try (destruct j; discriminate).
    injection Ha as <-. injection Hb as <-. reflexivity.
Qed.
