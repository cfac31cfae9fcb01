(** C116: flat_map and flat_set when users write to their elements. *)
From Coq Require Import List Arith Bool Lia.
From Verif Require Import Base SeqSpec VecCommon StaticVectorModel StaticVectorSpec FlatModel FlatSpec FlatProofs
  FlatEditModel FlatEditSpec FlatEditProofs.
Import ListNotations.

(** ** Nothing leaves the container *)

(** Any comparator (nothing is asked of it), any contents, any history of calls, of writes
    through iterators and of insertions and erasures in modify_container(): no call is undefined
    or runs forever, and each does what its shape says: lookups change nothing and give an iterator
    into the container or its end, insertions add one element or find one, erasures erase one
    element at most. *)
Theorem C116_flat_set_safe :
  forall (K Q C CT : Type) (kq : C -> K -> Q -> bool) (qk : C -> Q -> K -> bool) (asq : K -> Q)
    (cont : container K CT) (cap : option nat) (rep : CT -> list K -> Prop),
  conforms cont cap rep ->
  forall (c : C) (os : list (uop (fop K Q) K)) t l,
  rep t l -> uok_along (T := unit) cap (fshape cap) ferase_ok l os ->
  exists t' l' rs,
    frun (ucall cont (fcall (T := unit) (fun k => k) kq qk cont asq)) (mkFlat c t) os = Some (mkFlat c t', rs) /\
    rep t' l' /\ ushapes cap (fshape cap) l os rs l'.
Proof.
  intros K Q C CT kq qk asq cont cap rep CF c os t l R H.
  eapply any_urun; eauto. intros. eapply any_fcall; eauto.
Qed.
Print Assumptions C116_flat_set_safe.

Theorem C116_flat_map_safe :
  forall (K T Q C CT : Type) (kq : C -> K -> Q -> bool) (qk : C -> Q -> K -> bool)
    (conv : Q -> K) (asq : K -> Q) (dflt : T)
    (cont : container (K * T) CT) (cap : option nat) (rep : CT -> list (K * T) -> Prop),
  conforms cont cap rep ->
  forall (c : C) (os : list (uop (mop K T Q) (K * T))) t l,
  rep t l -> uok_along cap (mshape cap conv dflt) merase_ok l os ->
  exists t' l' rs,
    frun (ucall cont (mcall kq qk cont conv dflt asq)) (mkFlat c t) os = Some (mkFlat c t', rs) /\
    rep t' l' /\ ushapes cap (mshape cap conv dflt) l os rs l'.
Proof.
  intros K T Q C CT kq qk conv asq dflt cont cap rep CF c os t l R H.
  eapply any_urun; eauto. intros. eapply any_mcall; eauto.
Qed.
Print Assumptions C116_flat_map_safe.

(** A set of three put out of order through an iterator, with a comparator which is no order
    (it says "less" to everything), and the calls after that. *)
Example C116_safe_met :
  exists t' l' rs,
    frun (ucall (vec_cont nat) (fcall (T := unit) (fun k => k) (fun _ _ _ => true) (fun _ _ _ => true)
      (vec_cont nat) (fun k => k))) (mkFlat tt [1; 3; 5])
      [UWrite 0 9; UCall (FInsert 4); UCall (FFind 9); UCall (FEqual 3)] = Some (mkFlat tt t', rs) /\
    t' = l' /\ ushapes None (fshape (T := unit) None) [1; 3; 5]
      [UWrite 0 9; UCall (FInsert 4); UCall (FFind 9); UCall (FEqual 3)] rs l'.
Proof.
  refine (C116_flat_set_safe nat nat unit (list nat) _ _ _ (vec_cont nat) None (fun t l => t = l)
    (vec_conforms nat) tt _ [1; 3; 5] [1; 3; 5] eq_refl _).
  repeat (constructor; [cbn; auto; lia|intros]). constructor.
Qed.
Example C116_safe_case :
  frun (ucall (vec_cont nat) (fcall (T := unit) (fun k => k) (fun _ => Nat.ltb) (fun _ => Nat.ltb)
    (vec_cont nat) (fun k => k))) (mkFlat tt [1; 3; 5])
    [UWrite 0 9; UCall (FFind 9); UCall (FInsert 9); UCall FSize] =
  Some (mkFlat tt [9; 3; 5; 9], [ANone; AIter 3; AIns 3 true; ACount 4]).
Proof. reflexivity. Qed.

(** ** What is found says whether the elements are in order *)

(** With a strict weak order: the elements are strictly ascending (and then C22 and C26 hold of
    the object) exactly if find() finds each of them where it is.  So every damage can be seen by
    looking for the elements there are, and a container which finds all of them is not
    damaged. *)
Theorem C116_found_iff_ordered :
  forall (E K Q C CT : Type) (key : E -> K) (lt : C -> K -> K -> bool) (kq : C -> K -> Q -> bool)
    (qk : C -> Q -> K -> bool) (conv : Q -> K) (asq : E -> Q)
    (cont : container E CT) (cap : option nat) (rep : CT -> list E -> Prop),
  conforms cont cap rep ->
  forall c, strict_weak_order (lt c) ->
  (forall k q, kq c k q = lt c k (conv q)) ->
  (forall k q, qk c q k = lt c (conv q) k) ->
  (forall e, conv (asq e) = key e) ->
  forall t l, rep t l ->
  (forall i e, nth_error l i = Some e -> find key kq qk cont (asq e) (mkFlat c t) = Ok i (mkFlat c t)) <->
  (exists m, holds key lt rep (mkFlat c t) (c, m)).
Proof.
  intros E K Q C CT key lt kq qk conv asq cont cap rep CF c W Hkq Hqk Ha t l R.
  rewrite (found_ascending key lt kq qk conv cont cap rep CF c W Hkq Hqk t l R asq Ha). split.
  - intros A. eexists. split; [reflexivity|]. exists l. split; [exact R|]. cbn [fst snd].
    apply enum_exists; assumption.
  - intros (m & _ & l' & R' & EN). cbn [fst snd fcont] in *.
    assert (l' = l) as <-; [|apply EN].
    apply nth_error_ext. intros i.
    pose proof (cf_size _ _ _ CF t l R) as S1. pose proof (cf_size _ _ _ CF t l' R') as S2.
    destruct (nth_error l' i) as [x|] eqn:E1; destruct (nth_error l i) as [y|] eqn:E2.
    + pose proof (cf_get _ _ _ CF t l i y R E2) as G1. pose proof (cf_get _ _ _ CF t l' i x R' E1) as G2.
      rewrite G1 in G2. now injection G2 as ->.
    + apply nth_error_None in E2. apply nth_lt_len in E1. lia.
    + apply nth_error_None in E1. apply nth_lt_len in E2. lia.
    + reflexivity.
Qed.
Print Assumptions C116_found_iff_ordered.

Lemma ltb_order : strict_weak_order Nat.ltb.
Proof.
  constructor.
  - apply Nat.ltb_irrefl.
  - intros a b c. rewrite !Nat.ltb_lt. lia.
  - intros a b c [H1 H2] [H3 H4]. unfold equivalent. rewrite !Nat.ltb_ge in *. lia.
Qed.
Example C116_found_met :
  (forall i e, nth_error [1; 3; 5] i = Some e ->
     find (fun k => k) (fun _ => Nat.ltb) (fun _ => Nat.ltb) (vec_cont nat) e (mkFlat tt [1; 3; 5]) =
       Ok i (mkFlat tt [1; 3; 5])) <->
  (exists m, holds (fun k => k) (fun _ => Nat.ltb) (fun t l => t = l) (mkFlat tt [1; 3; 5]) (tt, m)).
Proof.
  refine (C116_found_iff_ordered nat nat nat unit (list nat) _ _ _ _ (fun k => k) (fun k => k) (vec_cont nat)
    None (fun t l => t = l) (vec_conforms nat) tt ltb_order _ _ _ [1; 3; 5] [1; 3; 5] eq_refl); reflexivity.
Qed.

(** ** Which writes keep a map or set one *)

(** Writing [e] over an element of a good map or set leaves a good one exactly if [e] is between
    its neighbours; otherwise some element is not found where it is. *)
Theorem C116_writes_partial :
  forall (E K Q C CT : Type) (key : E -> K) (lt : C -> K -> K -> bool) (kq : C -> K -> Q -> bool)
    (qk : C -> Q -> K -> bool) (conv : Q -> K) (asq : E -> Q)
    (cont : container E CT) (cap : option nat) (rep : CT -> list E -> Prop)
    (O T : Type) (call : O -> M (flat C CT) (fret T)),
  conforms cont cap rep ->
  forall c, strict_weak_order (lt c) ->
  (forall k q, kq c k q = lt c k (conv q)) ->
  (forall k q, qk c q k = lt c (conv q) k) ->
  (forall e, conv (asq e) = key e) ->
  forall t l pos e, rep t l -> ascending key (lt c) l -> pos < length l ->
  exists t', ucall cont call (UWrite pos e) (mkFlat c t) = Ok ANone (mkFlat c t') /\ rep t' (upd l pos e) /\
    ((forall i x, nth_error (upd l pos e) i = Some x ->
        find key kq qk cont (asq x) (mkFlat c t') = Ok i (mkFlat c t')) <->
     between key (lt c) l pos e).
Proof.
  intros E K Q C CT key lt kq qk conv asq cont cap rep O T call CF c W Hkq Hqk Ha t l pos e R A Hp.
  destruct (put_spec cont cap rep CF c t l R pos e Hp) as (t' & E1 & R').
  exists t'. split; [cbn [ucall]; now erewrite bind_ok by exact E1|]. split; [exact R'|].
  rewrite (found_ascending key lt kq qk conv cont cap rep CF c W Hkq Hqk t' _ R' asq Ha).
  now apply write_ascending.
Qed.
Print Assumptions C116_writes_partial.

Example C116_writes_met :
  exists t', ucall (vec_cont nat) (fun _ : unit => ret (@ANone unit)) (UWrite 1 4) (mkFlat tt [1; 3; 5]) =
    Ok ANone (mkFlat tt t') /\ t' = [1; 4; 5] /\
    ((forall i x, nth_error [1; 4; 5] i = Some x ->
        find (fun k => k) (fun _ => Nat.ltb) (fun _ => Nat.ltb) (vec_cont nat) x (mkFlat tt t') = Ok i (mkFlat tt t')) <->
     between (fun k => k) Nat.ltb [1; 3; 5] 1 4).
Proof.
  refine (C116_writes_partial nat nat nat unit (list nat) _ (fun _ => Nat.ltb) _ _ (fun k => k) (fun k => k) (vec_cont nat)
    None (fun t l => t = l) unit unit _ (vec_conforms nat) tt ltb_order _ _ _ [1; 3; 5] [1; 3; 5] 1 4 eq_refl _ _); auto; [|cbn; lia].
  intros [|[|[|i]]] [|[|[|j]]] a b Hij Hi Hj; cbn in *; try lia; try (destruct i; discriminate);
    try (destruct j; discriminate); injection Hi as <-; injection Hj as <-; reflexivity.
Qed.
Example C116_between_case : between (fun k => k) Nat.ltb [1; 3; 5] 1 4 /\ ~ between (fun k => k) Nat.ltb [1; 3; 5] 1 5.
Proof.
  split; [split; cbn; intros a; [intros _|]; intros H; injection H as <-; reflexivity|].
  intros [_ H]. specialize (H 5 eq_refl). discriminate.
Qed.

(** The claim that elements cannot be put out of order without modify_container() is false: in
    every map or set with at least two elements there is a write through begin() after which some
    element is not found where it is. *)
Theorem C116_keys_protected_refuted :
  forall (E K Q C CT : Type) (key : E -> K) (lt : C -> K -> K -> bool) (kq : C -> K -> Q -> bool)
    (qk : C -> Q -> K -> bool) (conv : Q -> K) (asq : E -> Q)
    (cont : container E CT) (cap : option nat) (rep : CT -> list E -> Prop)
    (O T : Type) (call : O -> M (flat C CT) (fret T)),
  conforms cont cap rep ->
  forall c, strict_weak_order (lt c) ->
  (forall k q, kq c k q = lt c k (conv q)) ->
  (forall k q, qk c q k = lt c (conv q) k) ->
  (forall e, conv (asq e) = key e) ->
  forall t l, rep t l -> ascending key (lt c) l -> 2 <= length l ->
  exists e t', ucall cont call (UWrite 0 e) (mkFlat c t) = Ok ANone (mkFlat c t') /\ rep t' (upd l 0 e) /\
    ~ (forall i x, nth_error (upd l 0 e) i = Some x ->
        find key kq qk cont (asq x) (mkFlat c t') = Ok i (mkFlat c t')).
Proof.
  intros E K Q C CT key lt kq qk conv asq cont cap rep O T call CF c W Hkq Hqk Ha t l R A Hl.
  destruct l as [|a [|b l]]; [cbn in Hl; lia..|].
  destruct (C116_writes_partial E K Q C CT key lt kq qk conv asq cont cap rep O T call CF c W Hkq Hqk Ha t _ 0 b R A)
    as (t' & E1 & R' & H); [cbn; lia|].
  exists b, t'. split; [exact E1|]. split; [exact R'|]. rewrite H.
  eapply write_breaks; eauto.
Qed.
Print Assumptions C116_keys_protected_refuted.

Example C116_refuting_case :
  ucall (vec_cont nat) (fun _ : unit => ret (@ANone unit)) (UWrite 0 9) (mkFlat tt [1; 3; 5]) =
    Ok ANone (mkFlat tt [9; 3; 5]) /\
  find (fun k => k) (fun _ => Nat.ltb) (fun _ => Nat.ltb) (vec_cont nat) 9 (mkFlat tt [9; 3; 5]) =
    Ok 3 (mkFlat tt [9; 3; 5]).
Proof. split; reflexivity. Qed.
