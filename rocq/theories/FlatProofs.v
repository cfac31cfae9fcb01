(** Proofs about the model of flat_map and flat_set. *)
From Coq Require Import List Arith Bool Lia Permutation NArith.
From Verif Require Import Base SeqSpec VecCommon StaticVectorModel StaticVectorSpec
  StaticVectorProofs FlatModel FlatSpec.
Import ListNotations.

(** * Lists *)

Lemma nth_insert_at {E} (l : list E) p x i : p <= length l ->
  nth_error (insert_at l p [x]) i =
  if i <? p then nth_error l i else if i =? p then Some x else nth_error l (i - 1).
Proof.
  intros Hp. unfold insert_at. cbn [app].
  destruct (Nat.ltb_spec i p).
  - rewrite nth_error_app1 by (rewrite firstn_length; lia). rewrite nth_error_firstn. now destruct (Nat.ltb_spec i p); [|lia].
  - rewrite nth_error_app2 by (rewrite firstn_length; lia). rewrite firstn_length, min_l by lia.
    destruct (Nat.eqb_spec i p) as [->|].
    + now rewrite Nat.sub_diag.
    + replace (i - p) with (S (i - p - 1)) by lia. cbn [nth_error].
      rewrite nth_error_skipn. f_equal. lia.
Qed.

Lemma nth_erase_at {E} (l : list E) p i : p < length l ->
  nth_error (erase_at l p (S p)) i =
  if i <? p then nth_error l i else nth_error l (S i).
Proof.
  intros Hp. unfold erase_at. destruct (Nat.ltb_spec i p).
  - rewrite nth_error_app1 by (rewrite firstn_length; lia). rewrite nth_error_firstn. now destruct (Nat.ltb_spec i p); [|lia].
  - rewrite nth_error_app2 by (rewrite firstn_length; lia). rewrite firstn_length, min_l by lia.
    rewrite nth_error_skipn. f_equal. lia.
Qed.

Lemma In_insert_at {E} (l : list E) p x e : In e (insert_at l p [x]) <-> e = x \/ In e l.
Proof.
  unfold insert_at. rewrite !in_app_iff. rewrite <- (firstn_skipn p l) at 3.
  rewrite in_app_iff. cbn. intuition.
Qed.

Lemma nth_lt_len {E} (l : list E) i e : nth_error l i = Some e -> i < length l.
Proof. intros H. apply nth_error_Some. congruence. Qed.
Lemma nth_get {E} (l : list E) i : i < length l -> exists e, nth_error l i = Some e.
Proof. intros H. apply nth_error_Some in H. destruct (nth_error l i); eauto; congruence. Qed.

Lemma skipn_cons_nth {E} (l : list E) i e :
  nth_error l i = Some e -> skipn i l = e :: skipn (S i) l.
Proof.
  revert i. induction l as [|x l IH]; intros [|i] H; cbn in *; try discriminate.
  - now injection H as ->.
  - now apply IH.
Qed.

Section Order.
Context {K : Type}.
Variable lt : K -> K -> bool.
Hypothesis W : strict_weak_order lt.

Lemma lt_asym a b : lt a b = true -> lt b a = false.
Proof.
  intros H. destruct (lt b a) eqn:H2; [|reflexivity].
  pose proof (swo_trans _ W _ _ _ H H2) as H3. rewrite (swo_irrefl _ W) in H3. congruence.
Qed.
Lemma equiv_refl a : equivalent lt a a.
Proof. split; apply (swo_irrefl _ W). Qed.
Lemma equiv_sym a b : equivalent lt a b -> equivalent lt b a.
Proof. now intros [H1 H2]. Qed.
(** a < b, b ~ c  ==>  a < c *)
Lemma lt_equiv_r a b c : lt a b = true -> equivalent lt b c -> lt a c = true.
Proof.
  intros H [H1 H2]. destruct (lt a c) eqn:E; [reflexivity|exfalso].
  destruct (lt c a) eqn:E2.
  - pose proof (swo_trans _ W _ _ _ E2 H). congruence.
  - assert (equivalent lt a b) as [X _].
    { apply (swo_equiv _ W) with c; split; auto. }
    congruence.
Qed.
Lemma lt_equiv_l a b c : lt b a = true -> equivalent lt b c -> lt c a = true.
Proof.
  intros H [H1 H2]. destruct (lt c a) eqn:E; [reflexivity|exfalso].
  destruct (lt a c) eqn:E2.
  - pose proof (swo_trans _ W _ _ _ H E2). congruence.
  - assert (equivalent lt b a) as [X _].
    { apply (swo_equiv _ W) with c; split; auto. }
    congruence.
Qed.
(** negative transitivity *)
Lemma nlt_trans a b c : lt a b = false -> lt b c = false -> lt a c = false.
Proof.
  intros H1 H2. destruct (lt a c) eqn:E; [exfalso|reflexivity].
  destruct (lt b a) eqn:E1.
  - pose proof (swo_trans _ W _ _ _ E1 E). congruence.
  - assert (lt b c = true) by (apply lt_equiv_l with a; auto; now split). congruence.
Qed.
Lemma lt_nlt a b c : lt a b = true -> lt c b = false -> lt a c = true.
Proof.
  intros H1 H2. destruct (lt a c) eqn:E; [reflexivity|].
  pose proof (nlt_trans _ _ _ E H2). congruence.
Qed.
Lemma nlt_lt a b c : lt b a = false -> lt b c = true -> lt a c = true.
Proof.
  intros H1 H2. destruct (lt a c) eqn:E; [reflexivity|].
  pose proof (nlt_trans _ _ _ H1 E). congruence.
Qed.
End Order.

(** * Searching *)

Section Search.
Context {E K Q C CT : Type}.
Variable key : E -> K.
Variable kq : C -> K -> Q -> bool.
Variable qk : C -> Q -> K -> bool.
Variable cont : container E CT.
Variable cap : option nat.
Variable rep : CT -> list E -> Prop.
Hypothesis CF : conforms cont cap rep.

Variable c : C.
Variable t : CT.
Variable l : list E.
Hypothesis R : rep t l.
Local Notation s := (mkFlat c t).

Lemma elem_spec i e : nth_error l i = Some e -> elem cont i s = Ok e s.
Proof. intros H. unfold elem, onc. cbn. now rewrite (cf_get _ _ _ CF t l i e). Qed.
Lemma size_spec : size_ cont s = Ok (length l) s.
Proof. unfold size_. cbn. now rewrite (cf_size _ _ _ CF t l). Qed.

Lemma half_lt len : len <> 0 -> len / 2 < len.
Proof. intros. apply Nat.div_lt; lia. Qed.

Section Lower.
Variable q : Q.
Let bf (e : E) : Prop := kq c (key e) q = true.
Hypothesis mono : forall i j a b, i < j -> nth_error l i = Some a -> nth_error l j = Some b ->
  kq c (key b) q = true -> kq c (key a) q = true.

Lemma lower_loop_spec fuel : forall first len,
  len <= fuel -> first + len <= length l ->
  (forall i e, i < first -> nth_error l i = Some e -> bf e) ->
  (forall i e, first + len <= i -> nth_error l i = Some e -> ~ bf e) ->
  exists p, lower_loop key kq cont q fuel first len s = Ok p s /\
    first <= p <= first + len /\ border bf l p.
Proof.
  induction fuel as [|fuel IH]; intros first len Hf Hl H1 H2; cbn [lower_loop].
  - destruct (Nat.eqb_spec len 0); [subst len|lia].
    exists first. split; [reflexivity|]. rewrite Nat.add_0_r in *.
    split; [lia|]. now repeat split.
  - destruct (Nat.eqb_spec len 0) as [->|Hn].
    { exists first. split; [reflexivity|]. rewrite Nat.add_0_r in *.
      split; [lia|]. now repeat split. }
    pose proof (half_lt len Hn) as Hh. set (half := len / 2) in *. clearbody half.
    destruct (nth_get l (first + half)) as [e He]; [lia|].
    erewrite bind_ok by (apply elem_spec; eassumption).
    erewrite bind_ok by reflexivity. cbn [fcmp].
    destruct (kq c (key e) q) eqn:Ek.
    + destruct (IH (first + half + 1) (len - half - 1)) as (p & Hp & Hr & Hb); try lia.
      * intros i x Hi Hx. destruct (Nat.eq_dec i (first + half)) as [->|].
        -- rewrite He in Hx. now injection Hx as <-.
        -- red. eapply (mono i (first + half)); eauto. lia.
      * intros i x Hi Hx. apply (H2 i x); [lia|assumption].
      * exists p. split; [exact Hp|]. split; [lia|exact Hb].
    + destruct (IH first half) as (p & Hp & Hr & Hb); try lia; auto.
      * intros i x Hi Hx Hbx. destruct (Nat.eq_dec i (first + half)) as [->|].
        -- rewrite He in Hx. injection Hx as <-. red in Hbx. congruence.
        -- red in Hbx. rewrite (mono (first + half) i e x) in Ek; auto; [congruence|lia].
      * exists p. split; [exact Hp|]. split; [lia|exact Hb].
Qed.

Lemma lower_bound_spec :
  exists p, lower_bound key kq cont q s = Ok p s /\ border bf l p.
Proof.
  unfold lower_bound. erewrite bind_ok by apply size_spec.
  destruct (lower_loop_spec (length l) 0 (length l)) as (p & Hp & _ & Hb); try lia.
  - intros i e Hi Hx. apply nth_lt_len in Hx. lia.
  - exists p. now split.
Qed.
End Lower.

Section Upper.
Variable q : Q.
Let bf (e : E) : Prop := qk c q (key e) = false.
Hypothesis mono : forall i j a b, i < j -> nth_error l i = Some a -> nth_error l j = Some b ->
  qk c q (key a) = true -> qk c q (key b) = true.

Lemma upper_loop_spec fuel : forall first len,
  len <= fuel -> first + len <= length l ->
  (forall i e, i < first -> nth_error l i = Some e -> bf e) ->
  (forall i e, first + len <= i -> nth_error l i = Some e -> ~ bf e) ->
  exists p, upper_loop key qk cont q fuel first len s = Ok p s /\
    first <= p <= first + len /\ border bf l p.
Proof.
  induction fuel as [|fuel IH]; intros first len Hf Hl H1 H2; cbn [upper_loop].
  - destruct (Nat.eqb_spec len 0); [subst len|lia].
    exists first. split; [reflexivity|]. rewrite Nat.add_0_r in *.
    split; [lia|]. now repeat split.
  - destruct (Nat.eqb_spec len 0) as [->|Hn].
    { exists first. split; [reflexivity|]. rewrite Nat.add_0_r in *.
      split; [lia|]. now repeat split. }
    pose proof (half_lt len Hn) as Hh. set (half := len / 2) in *. clearbody half.
    destruct (nth_get l (first + half)) as [e He]; [lia|].
    erewrite bind_ok by (apply elem_spec; eassumption).
    erewrite bind_ok by reflexivity. cbn [fcmp].
    destruct (qk c q (key e)) eqn:Ek.
    + destruct (IH first half) as (p & Hp & Hr & Hb); try lia; auto.
      * intros i x Hi Hx Hbx. red in Hbx. destruct (Nat.eq_dec i (first + half)) as [->|].
        -- rewrite He in Hx. injection Hx as <-. congruence.
        -- rewrite (mono (first + half) i e x) in Hbx; auto; [congruence|lia].
      * exists p. split; [exact Hp|]. split; [lia|exact Hb].
    + destruct (IH (first + half + 1) (len - half - 1)) as (p & Hp & Hr & Hb); try lia.
      * intros i x Hi Hx. destruct (Nat.eq_dec i (first + half)) as [->|].
        -- rewrite He in Hx. now injection Hx as <-.
        -- red. destruct (qk c q (key x)) eqn:Ex; [|reflexivity].
           rewrite (mono i (first + half) x e) in Ek; auto; lia.
      * intros i x Hi Hx. apply (H2 i x); [lia|assumption].
      * exists p. split; [exact Hp|]. split; [lia|exact Hb].
Qed.

Lemma upper_bound_spec :
  exists p, upper_bound key qk cont q s = Ok p s /\ border bf l p.
Proof.
  unfold upper_bound. erewrite bind_ok by apply size_spec.
  destruct (upper_loop_spec (length l) 0 (length l)) as (p & Hp & _ & Hb); try lia.
  - intros i e Hi Hx. apply nth_lt_len in Hx. lia.
  - exists p. now split.
Qed.
End Upper.

Section EqualRange.
Variable q : Q.
Hypothesis mono1 : forall i j a b, i < j -> nth_error l i = Some a -> nth_error l j = Some b ->
  kq c (key b) q = true -> kq c (key a) q = true.
Hypothesis mono2 : forall i j a b, i < j -> nth_error l i = Some a -> nth_error l j = Some b ->
  qk c q (key a) = true -> qk c q (key b) = true.
Hypothesis excl : forall e, In e l -> kq c (key e) q = true -> qk c q (key e) = false.
Let lo (e : E) : Prop := kq c (key e) q = true.
Let hi (e : E) : Prop := qk c q (key e) = false.

Lemma equal_loop_spec fuel : forall first len,
  len <= fuel -> first + len <= length l ->
  (forall i e, i < first -> nth_error l i = Some e -> lo e) ->
  (forall i e, first + len <= i -> nth_error l i = Some e -> ~ hi e) ->
  exists p r, equal_loop key kq qk cont q fuel first len s = Ok (p, r) s /\
    border lo l p /\ border hi l r.
Proof.
  assert (LH : forall i e, nth_error l i = Some e -> lo e -> hi e).
  { intros i e He Hl. apply excl; auto. eapply nth_error_In; eauto. }
  assert (Bend : forall first, first <= length l ->
    (forall i e, i < first -> nth_error l i = Some e -> lo e) ->
    (forall i e, first <= i -> nth_error l i = Some e -> ~ hi e) ->
    border lo l first /\ border hi l first).
  { intros first Hl H1 H2. split.
    - split; [exact Hl|]. split; [exact H1|]. intros i e Hi He Hlo.
      apply (H2 i e Hi He). eapply LH; eauto.
    - split; [exact Hl|]. split; [|exact H2]. intros i e Hi He. eapply LH; eauto. }
  induction fuel as [|fuel IH]; intros first len Hf Hl H1 H2; cbn [equal_loop].
  - destruct (Nat.eqb_spec len 0); [subst len|lia].
    exists first, first. split; [reflexivity|]. rewrite Nat.add_0_r in *. now apply Bend.
  - destruct (Nat.eqb_spec len 0) as [->|Hn].
    { exists first, first. split; [reflexivity|]. rewrite Nat.add_0_r in *. now apply Bend. }
    pose proof (half_lt len Hn) as Hh. set (half := len / 2) in *. clearbody half.
    destruct (nth_get l (first + half)) as [e He]; [lia|].
    erewrite bind_ok by (apply elem_spec; eassumption).
    erewrite bind_ok by reflexivity. cbn [fcmp].
    destruct (kq c (key e) q) eqn:Ek.
    + apply IH; try lia.
      * intros i x Hi Hx. destruct (Nat.eq_dec i (first + half)) as [->|].
        -- rewrite He in Hx. now injection Hx as <-.
        -- red. eapply (mono1 i (first + half)); eauto. lia.
      * intros i x Hi Hx. apply (H2 i x); [lia|assumption].
    + destruct (qk c q (key e)) eqn:Eq.
      * apply IH; try lia; auto.
        intros i x Hi Hx Hbx. red in Hbx. destruct (Nat.eq_dec i (first + half)) as [->|].
        -- rewrite He in Hx. injection Hx as <-. congruence.
        -- rewrite (mono2 (first + half) i e x) in Hbx; auto; [congruence|lia].
      * destruct (lower_loop_spec q mono1 half first half) as (p & Hp & _ & Hb); try lia; auto.
        { intros i x Hi Hx Hbx. destruct (Nat.eq_dec i (first + half)) as [->|].
          - rewrite He in Hx. injection Hx as <-. congruence.
          - rewrite (mono1 (first + half) i e x) in Ek; auto; [congruence|lia]. }
        erewrite bind_ok by exact Hp.
        destruct (upper_loop_spec q mono2 (first + len - (first + half + 1))
                    (first + half + 1) (first + len - (first + half + 1)))
          as (r & Hr & _ & Hc); try lia.
        { intros i x Hi Hx. destruct (Nat.eq_dec i (first + half)) as [->|].
          - rewrite He in Hx. now injection Hx as <-.
          - destruct (qk c q (key x)) eqn:Ex; [|reflexivity].
            rewrite (mono2 i (first + half) x e) in Eq; auto; lia. }
        { intros i x Hi Hx. apply (H2 i x); [lia|assumption]. }
        erewrite bind_ok by exact Hr. exists p, r. now repeat split; try apply Hb; try apply Hc.
Qed.

Lemma equal_range_spec :
  exists p r, equal_range key kq qk cont q s = Ok (p, r) s /\
    border lo l p /\ border hi l r.
Proof.
  unfold equal_range. erewrite bind_ok by apply size_spec.
  apply equal_loop_spec; try lia.
  intros i e Hi Hx. apply nth_lt_len in Hx. lia.
Qed.
End EqualRange.

Lemma present_at_spec q i : i <= length l ->
  present_at key qk cont q i s =
  Ok (match nth_error l i with Some e => negb (qk c q (key e)) | None => false end) s.
Proof.
  intros Hi. unfold present_at. erewrite bind_ok by apply size_spec.
  destruct (Nat.eqb_spec i (length l)) as [->|].
  - rewrite (proj2 (nth_error_None l (length l))) by lia. reflexivity.
  - destruct (nth_get l i) as [e He]; [lia|]. rewrite He.
    erewrite bind_ok by (apply elem_spec; eassumption). reflexivity.
Qed.

Lemma emplace_spec i e : i <= length l -> fits cap (length l + 1) = true ->
  exists t', emplace_at cont i e s = Ok i (mkFlat c t') /\ rep t' (insert_at l i [e]).
Proof.
  intros Hi Hf. destruct (cf_insert _ _ _ CF t l i e R Hi Hf) as (t' & Ht & Hr).
  exists t'. split; [|exact Hr]. unfold emplace_at, onc, bind. cbn [fcont fcmp]. now rewrite Ht.
Qed.
Lemma emplace_full i e : i <= length l -> fits cap (length l + 1) = false ->
  exists t', emplace_at cont i e s = Throw OutOfRange (mkFlat c t') /\ rep t' l.
Proof.
  intros Hi Hf. destruct (cf_full _ _ _ CF t l i e R Hi Hf) as (t' & Ht & Hr).
  exists t'. split; [|exact Hr]. unfold emplace_at, onc, bind. cbn [fcont fcmp]. now rewrite Ht.
Qed.
Lemma erase_spec i : i < length l ->
  exists t', erase cont i s = Ok i (mkFlat c t') /\ rep t' (erase_at l i (S i)).
Proof.
  intros Hi. destruct (cf_erase _ _ _ CF t l i R Hi) as (t' & Ht & Hr).
  exists t'. split; [|exact Hr]. unfold erase, erase_pos, onc, bind. cbn [fcont fcmp].
  now rewrite Ht.
Qed.
Lemma put_spec i e : i < length l ->
  exists t', onc (c_put cont i e) s = Ok tt (mkFlat c t') /\ rep t' (upd l i e).
Proof.
  intros Hi. destruct (cf_put _ _ _ CF t l i e R Hi) as (t' & Ht & Hr).
  exists t'. split; [|exact Hr]. unfold onc. cbn [fcont fcmp]. now rewrite Ht.
Qed.
End Search.

(** * Maps and their enumerations *)

Section Enum.
Context {E K C : Type}.
Variable key : E -> K.
Variable lt : C -> K -> K -> bool.
Variable c : C.
Hypothesis W : strict_weak_order (lt c).
Local Notation "a ~ b" := (equivalent (lt c) a b) (at level 70).

Lemma equivb_true a b : equivb lt c a b = true <-> a ~ b.
Proof.
  unfold equivb, equivalent. rewrite andb_true_iff, !negb_true_iff. tauto.
Qed.
Lemma equivb_false a b : equivb lt c a b = false <-> ~ a ~ b.
Proof. rewrite <- equivb_true. destruct (equivb lt c a b); intuition congruence. Qed.

Lemma asc_lower l : ascending key (lt c) l -> forall k i j a b,
  i < j -> nth_error l i = Some a -> nth_error l j = Some b ->
  lt c (key b) k = true -> lt c (key a) k = true.
Proof. intros A k i j a b Hij Ha Hb H. eapply (swo_trans _ W); eauto. Qed.
Lemma asc_upper l : ascending key (lt c) l -> forall k i j a b,
  i < j -> nth_error l i = Some a -> nth_error l j = Some b ->
  lt c k (key a) = true -> lt c k (key b) = true.
Proof. intros A k i j a b Hij Ha Hb H. eapply (swo_trans _ W); eauto. Qed.

(** Two elements of the same class are the same element. *)
Lemma asc_unique l : ascending key (lt c) l -> forall i j a b,
  nth_error l i = Some a -> nth_error l j = Some b -> key a ~ key b -> i = j.
Proof.
  intros A i j a b Ha Hb [H1 H2]. destruct (lt_eq_lt_dec i j) as [[H|H]|H]; auto.
  - rewrite (A i j a b) in H1; auto; discriminate.
  - rewrite (A j i b a) in H2; auto; discriminate.
Qed.

(** The element of a class is found at the lower bound. *)
Lemma enum_lookup l m k p : enumerates key lt c l m ->
  border (fun e => lt c (key e) k = true) l p ->
  m k = match nth_error l p with
        | Some e => if negb (lt c k (key e)) then Some e else None
        | None => None
        end.
Proof.
  intros [A M] (Hp & B1 & B2).
  assert (N : m k = None \/ exists i e, nth_error l i = Some e /\ m k = Some e /\ k ~ key e).
  { destruct (m k) as [e|] eqn:Em; [right|now left].
    pose proof (proj1 (M _ _) Em) as [Hi He]. apply In_nth_error in Hi as [i Hi]. eauto 6. }
  destruct (nth_error l p) as [x|] eqn:Ex.
  - assert (Hx : lt c (key x) k = false).
    { destruct (lt c (key x) k) eqn:H; auto. exfalso. now apply (B2 p x). }
    destruct (lt c k (key x)) eqn:Hk; cbn [negb].
    + destruct N as [N|(i & e & Hi & Hm & Hke)]; [exact N|exfalso].
      destruct (le_lt_dec p i) as [H|H].
      * destruct (Nat.eq_dec p i) as [<-|Hne].
        -- assert (e = x) by congruence. subst e. destruct Hke; congruence.
        -- assert (lt c (key x) (key e) = true) by (eapply (A p i); eauto; lia).
           destruct Hke as [Hke _].
           rewrite (swo_trans _ W k (key x) (key e)) in Hke; congruence.
      * destruct Hke as [_ Hke]. rewrite (B1 i e) in Hke; auto. discriminate.
    + apply M. split; [eapply nth_error_In; eauto|]. now split.
  - destruct N as [N|(i & e & Hi & Hm & Hke)]; [exact N|exfalso].
    apply nth_error_None in Ex. pose proof (nth_lt_len _ _ _ Hi).
    destruct Hke as [_ Hke]. rewrite (B1 i e) in Hke; auto; [discriminate|lia].
Qed.

Lemma same_refl (m : fmap (E := E) (K := K)) : same m m.
Proof. now intros k. Qed.
Lemma enum_same l m m' : enumerates key lt c l m -> same m m' -> enumerates key lt c l m'.
Proof. intros [A M] S. split; [exact A|]. intros k e. rewrite S. apply M. Qed.

Lemma enum_empty : enumerates key lt c [] fempty.
Proof.
  split.
  - intros i j a b _ H. now destruct i.
  - intros k e. split; [discriminate|]. now intros [[] _].
Qed.

Lemma enum_insert l m e p : enumerates key lt c l m -> m (key e) = None ->
  border (fun x => lt c (key x) (key e) = true) l p ->
  enumerates key lt c (insert_at l p [e]) (fput key lt c m e).
Proof.
  intros [A M] Hm (Hp & B1 & B2). split.
  - assert (Hgt : forall i x, p <= i -> nth_error l i = Some x -> lt c (key e) (key x) = true).
    { intros i x Hi Hx. destruct (lt c (key e) (key x)) eqn:H; [reflexivity|exfalso].
      assert (m (key e) = Some x); [|congruence]. apply M. split; [eapply nth_error_In; eauto|].
      split; [exact H|]. destruct (lt c (key x) (key e)) eqn:H'; auto.
      exfalso. now apply (B2 i x). }
    intros i j a b Hij. rewrite !nth_insert_at by exact Hp.
    destruct (Nat.ltb_spec i p), (Nat.ltb_spec j p); try lia.
    + now apply A.
    + destruct (Nat.eqb_spec j p).
      * intros Ha [= <-]. now apply (B1 i a).
      * intros Ha Hb. apply (A i (j - 1) a b); auto. lia.
    + destruct (Nat.eqb_spec i p), (Nat.eqb_spec j p); try lia.
      * intros [= <-] Hb. apply (Hgt (j - 1) b); auto. lia.
      * intros Ha Hb. apply (A (i - 1) (j - 1) a b); auto. lia.
  - intros k x. rewrite In_insert_at. unfold fput.
    destruct (equivb lt c k (key e)) eqn:Ek.
    + apply equivb_true in Ek. split.
      * intros [= <-]. auto.
      * intros [[->|Hx] Hkx]; [reflexivity|exfalso].
        assert (m (key e) = Some x); [|congruence]. apply M. split; auto.
        apply (swo_equiv _ W) with k; auto. now apply equiv_sym.
    + apply equivb_false in Ek. rewrite M. split.
      * intros [H1 H2]. auto.
      * intros [[->|Hx] Hkx]; [contradiction|auto].
Qed.

Lemma enum_erase l m e p : enumerates key lt c l m -> nth_error l p = Some e ->
  enumerates key lt c (erase_at l p (S p)) (fremove lt c m (key e)).
Proof.
  intros [A M] He. pose proof (nth_lt_len _ _ _ He) as Hp. split.
  - intros i j a b Hij. rewrite !nth_erase_at by exact Hp.
    destruct (Nat.ltb_spec i p), (Nat.ltb_spec j p); try lia; intros Ha Hb;
      (eapply A; [|exact Ha|exact Hb]; lia).
  - intros k x. unfold fremove.
    assert (HI : In x (erase_at l p (S p)) <-> exists i, i <> p /\ nth_error l i = Some x).
    { split.
      - intros H. apply In_nth_error in H as [i H]. rewrite nth_erase_at in H by exact Hp.
        destruct (Nat.ltb_spec i p); [exists i|exists (S i)]; split; auto; lia.
      - intros (i & Hi & Hx). destruct (le_lt_dec p i).
        + apply nth_error_In with (i - 1). rewrite nth_erase_at by exact Hp.
          destruct (Nat.ltb_spec (i - 1) p); [lia|]. rewrite <- Hx. f_equal. lia.
        + apply nth_error_In with i. rewrite nth_erase_at by exact Hp.
          destruct (Nat.ltb_spec i p); [exact Hx|lia]. }
    rewrite HI. destruct (equivb lt c k (key e)) eqn:Ek.
    + apply equivb_true in Ek. split; [discriminate|].
      intros [(i & Hi & Hx) Hk]. exfalso. apply Hi. eapply asc_unique; eauto.
      apply (swo_equiv _ W) with k; auto. now apply equiv_sym.
    + apply equivb_false in Ek. rewrite M. split.
      * intros [H1 H2]. split; [|exact H2]. apply In_nth_error in H1 as [i Hi]. exists i.
        split; [|exact Hi]. intros ->. assert (x = e) by congruence. now subst.
      * intros [(i & Hi & Hx) Hk]. split; [eapply nth_error_In; eauto|exact Hk].
Qed.

Lemma enum_upd l m e e' p : enumerates key lt c l m -> nth_error l p = Some e ->
  key e' = key e ->
  enumerates key lt c (upd l p e') (fput key lt c m e').
Proof.
  intros [A M] He Hk. pose proof (nth_lt_len _ _ _ He) as Hp.
  assert (U : forall i, nth_error (upd l p e') i = if i =? p then Some e' else nth_error l i).
  { intros i. destruct (Nat.eqb_spec i p) as [->|].
    - now apply nth_error_upd_eq.
    - apply nth_error_upd_neq. lia. }
  split.
  - intros i j a b Hij. rewrite !U.
    destruct (Nat.eqb_spec i p), (Nat.eqb_spec j p); try lia; intros Ha Hb.
    + injection Ha as <-. subst i. rewrite Hk. eapply A; eauto.
    + injection Hb as <-. subst j. rewrite Hk. eapply A; eauto.
    + eapply A; eauto.
  - intros k x. unfold fput.
    assert (HI : In x (upd l p e') <-> x = e' \/ exists i, i <> p /\ nth_error l i = Some x).
    { split.
      - intros H. apply In_nth_error in H as [i H]. rewrite U in H.
        destruct (Nat.eqb_spec i p); [left; congruence|right; eauto].
      - intros [->|(i & Hi & Hx)].
        + apply nth_error_In with p. rewrite U, Nat.eqb_refl. reflexivity.
        + apply nth_error_In with i. rewrite U. destruct (Nat.eqb_spec i p); [lia|exact Hx]. }
    rewrite HI, Hk. destruct (equivb lt c k (key e)) eqn:Ek.
    + apply equivb_true in Ek. split.
      * intros [= <-]. rewrite Hk. auto.
      * intros [[->|(i & Hi & Hx)] Hkx]; [reflexivity|exfalso]. apply Hi.
        eapply asc_unique; eauto.
        apply (swo_equiv _ W) with k; auto. now apply equiv_sym.
    + apply equivb_false in Ek. rewrite M. split.
      * intros [H1 H2]. split; [|exact H2]. apply In_nth_error in H1 as [i Hi]. right.
        exists i. split; [|exact Hi]. intros ->. assert (x = e) by congruence. now subst.
      * intros [[->|(i & Hi & Hx)] Hkx]; [rewrite Hk in Hkx; contradiction|].
        split; [eapply nth_error_In; eauto|exact Hkx].
Qed.

Lemma fremove_equiv (m : fmap (E := E)) k k' : k ~ k' -> same (fremove lt c m k) (fremove lt c m k').
Proof.
  intros H x. unfold fremove.
  destruct (equivb lt c x k) eqn:E1, (equivb lt c x k') eqn:E2; auto; exfalso.
  - apply equivb_true in E1. apply equivb_false in E2. apply E2.
    now apply (swo_equiv _ W) with k.
  - apply equivb_true in E2. apply equivb_false in E1. apply E1.
    apply (swo_equiv _ W) with k'; auto. now apply equiv_sym.
Qed.
Lemma equiv_sym' a b : a ~ b -> b ~ a.
Proof. now intros [? ?]. Qed.
End Enum.

(** * Calls *)

Section Calls.
Context {E K Q C CT T : Type}.
Variable key : E -> K.
Variable lt : C -> K -> K -> bool.
Variable kq : C -> K -> Q -> bool.
Variable qk : C -> Q -> K -> bool.
Variable cont : container E CT.
Variable cap : option nat.
Variable rep : CT -> list E -> Prop.
Hypothesis CF : conforms cont cap rep.
Variable conv : Q -> K.
Variable c : C.
Hypothesis W : strict_weak_order (lt c).
(** Lookup keys compare like the keys they stand for. *)
Hypothesis Hkq : forall k q, kq c k q = lt c k (conv q).
Hypothesis Hqk : forall k q, qk c q k = lt c (conv q) k.
Variable asq : E -> Q.
Hypothesis Hasq : forall e, conv (asq e) = key e.

Variable t : CT.
Variable l : list E.
Variable m : K -> option E.
Hypothesis R : rep t l.
Hypothesis EN : enumerates key lt c l m.
Local Notation s := (mkFlat c t).

Lemma lower_fact q : exists p, lower_bound key kq cont q s = Ok p s /\
  border (fun e => lt c (key e) (conv q) = true) l p.
Proof.
  destruct (lower_bound_spec key kq cont cap rep CF c t l R q) as (p & Hp & Hb).
  - intros i j a b Hij Ha Hb. rewrite !Hkq. eapply asc_lower; eauto. apply EN.
  - exists p. split; [exact Hp|]. destruct Hb as (B0 & B1 & B2). split; [exact B0|].
    split; intros i e Hi He; [specialize (B1 i e Hi He)|specialize (B2 i e Hi He)];
      cbn beta in *; rewrite Hkq in *; auto.
Qed.
Lemma upper_fact q : exists p, upper_bound key qk cont q s = Ok p s /\
  border (fun e => lt c (conv q) (key e) = false) l p.
Proof.
  destruct (upper_bound_spec key qk cont cap rep CF c t l R q) as (p & Hp & Hb).
  - intros i j a b Hij Ha Hb. rewrite !Hqk. eapply asc_upper; eauto. apply EN.
  - exists p. split; [exact Hp|]. destruct Hb as (B0 & B1 & B2). split; [exact B0|].
    split; intros i e Hi He; [specialize (B1 i e Hi He)|specialize (B2 i e Hi He)];
      cbn beta in *; rewrite Hqk in *; auto.
Qed.
Lemma equal_range_fact q : exists p r, equal_range key kq qk cont q s = Ok (p, r) s /\
  border (fun e => lt c (key e) (conv q) = true) l p /\
  border (fun e => lt c (conv q) (key e) = false) l r.
Proof.
  destruct (equal_range_spec key kq qk cont cap rep CF c t l R q) as (p & r & Hp & Hb & Hc).
  - intros i j a b Hij Ha Hb. rewrite !Hkq. eapply asc_lower; eauto. apply EN.
  - intros i j a b Hij Ha Hb. rewrite !Hqk. eapply asc_upper; eauto. apply EN.
  - intros e _. rewrite Hkq, Hqk. now apply lt_asym.
  - exists p, r. split; [exact Hp|].
    destruct Hb as (B0 & B1 & B2), Hc as (C0 & C1 & C2).
    split; (split; [assumption|]); split; intros i e Hi He;
      [specialize (B1 i e Hi He)|specialize (B2 i e Hi He)
      |specialize (C1 i e Hi He)|specialize (C2 i e Hi He)];
      cbn beta in *; rewrite ?Hkq, ?Hqk in *; auto.
Qed.

(** The lookup all calls begin with: the class is present exactly if the element at the
    lower bound belongs to it. *)
Lemma lookup_fact q : exists p,
  lower_bound key kq cont q s = Ok p s /\
  border (fun e => lt c (key e) (conv q) = true) l p /\
  p <= length l /\
  match m (conv q) with
  | Some e => nth_error l p = Some e /\ equivalent (lt c) (conv q) (key e) /\
              present_at key qk cont q p s = Ok true s
  | None => present_at key qk cont q p s = Ok false s
  end.
Proof.
  destruct (lower_fact q) as (p & Hp & Hb). exists p.
  split; [exact Hp|]. split; [exact Hb|]. split; [apply Hb|].
  assert (Hle : p <= length l) by apply Hb.
  rewrite (present_at_spec key qk cont cap rep CF c t l R) by exact Hle.
  pose proof (enum_lookup key lt c W l m _ p EN Hb) as HL. rewrite HL.
  destruct (nth_error l p) as [e|] eqn:He; [|reflexivity]. rewrite Hqk.
  destruct (negb (lt c (conv q) (key e))) eqn:Hn; [|reflexivity].
  split; [reflexivity|]. split; [|reflexivity].
  apply negb_true_iff in Hn. split; [exact Hn|].
  destruct Hb as (_ & _ & B2). destruct (lt c (key e) (conv q)) eqn:H; [|reflexivity].
  exfalso. now apply (B2 p e).
Qed.

Lemma find_fact q : exists p, find key kq qk cont q s = Ok p s /\
  refers l p (m (conv q)) /\ (p = length l <-> m (conv q) = None).
Proof.
  destruct (lookup_fact q) as (p & Hp & Hb & Hle & Hm). unfold find.
  destruct (m (conv q)) as [e|].
  - destruct Hm as (He & Hk & Hpr). exists p. erewrite bind_ok by exact Hp.
    erewrite bind_ok by exact Hpr. split; [reflexivity|]. split; [now split|].
    split; [|discriminate]. intros ->. apply nth_lt_len in He. lia.
  - exists (length l). erewrite bind_ok by exact Hp. erewrite bind_ok by exact Hm.
    split; [now apply (size_spec cont cap rep CF)|]. split; [|tauto].
    split; [lia|]. apply nth_error_None. lia.
Qed.

Lemma insert_fact q e : conv q = key e ->
  exists t' l' m',
    (exists a : fret T,
      fobserve ((let* r := insert key kq qk cont q e in ret (AIns (fst r) (snd r))) s) =
        Some (mkFlat c t', a) /\
      inserted (T := T) key lt cap c l l' m m' e a) /\
    rep t' l' /\ enumerates key lt c l' m'.
Proof.
  intros Hq. destruct (lookup_fact q) as (p & Hp & Hb & Hle & Hm). unfold inserted.
  rewrite Hq in *. destruct (m (key e)) as [old|] eqn:Em.
  - destruct Hm as (He & Hk & Hpr). exists t, l, m. split; [|now split].
    exists (AIns p false). split.
    + assert (HE : insert key kq qk cont q e s = Ok (p, false) s).
      { unfold insert. erewrite bind_ok by exact Hp. erewrite bind_ok by exact Hpr.
        reflexivity. }
      erewrite bind_ok by exact HE. reflexivity.
    + split; [apply same_refl|]. exists p. split; [reflexivity|]. now split.
  - destruct (fits cap (length l + 1)) eqn:Hf.
    + destruct (emplace_spec cont cap rep CF c t l R p e Hle Hf) as (t' & Ht & Hr).
      exists t', (insert_at l p [e]), (fput key lt c m e).
      split; [|split; [exact Hr|now apply enum_insert]].
      exists (AIns p true). split.
      * assert (HE : insert key kq qk cont q e s = Ok (p, true) (mkFlat c t')).
        { unfold insert. erewrite bind_ok by exact Hp. erewrite bind_ok by exact Hm.
          cbv iota. erewrite bind_ok by exact Ht. reflexivity. }
        erewrite bind_ok by exact HE. reflexivity.
      * split; [apply same_refl|]. exists p. split; [reflexivity|]. split.
        -- unfold insert_at. rewrite !app_length, firstn_length, skipn_length. cbn. lia.
        -- rewrite nth_insert_at by exact Hle. destruct (Nat.ltb_spec p p); [lia|].
           now rewrite Nat.eqb_refl.
    + destruct (emplace_full cont cap rep CF c t l R p e Hle Hf) as (t' & Ht & Hr).
      exists t', l, m. split; [|now split]. exists (AThrow OutOfRange). split.
      * assert (HE : insert key kq qk cont q e s = Throw OutOfRange (mkFlat c t')).
        { unfold insert. erewrite bind_ok by exact Hp. erewrite bind_ok by exact Hm.
          cbv iota. erewrite bind_throw by exact Ht. reflexivity. }
        erewrite bind_throw by exact HE. reflexivity.
      * split; [apply same_refl|reflexivity].
Qed.

Lemma erase_fact pos e : nth_error l pos = Some e ->
  exists t', erase cont pos s = Ok pos (mkFlat c t') /\
    rep t' (erase_at l pos (S pos)) /\
    enumerates key lt c (erase_at l pos (S pos)) (fremove lt c m (key e)) /\
    refers (erase_at l pos (S pos)) pos (nth_error l (S pos)).
Proof.
  intros He. pose proof (nth_lt_len _ _ _ He) as Hp.
  destruct (erase_spec cont cap rep CF c t l R pos Hp) as (t' & Ht & Hr).
  exists t'. split; [exact Ht|]. split; [exact Hr|]. split; [now apply enum_erase|].
  split.
  - unfold erase_at. rewrite app_length, firstn_length, skipn_length. lia.
  - rewrite nth_erase_at by exact Hp. destruct (Nat.ltb_spec pos pos); [lia|reflexivity].
Qed.

(** Every call means what the specification says, and never ends in undefined behaviour
    or in an endless loop. *)
Lemma fcall_fact (o : fop E Q) : fallowed key lt conv c m o ->
  exists t' l' m' (a : fret T),
    fobserve (fcall key kq qk cont asq o s) = Some (mkFlat c t', a) /\
    fmeans key lt conv cap c l l' m o m' a /\
    rep t' l' /\ enumerates key lt c l' m'.
Proof.
  intros Hok. destruct o as [e|q e|e|pos|q|q|q|q|q|q| |]; cbn [fcall fmeans fallowed] in *.
  - destruct (insert_fact (asq e) e (Hasq e)) as (t' & l' & m' & (a & H1 & H2) & H3 & H4).
    eauto 10.
  - destruct (insert_fact q e (eq_sym Hok)) as (t' & l' & m' & (a & H1 & H2) & H3 & H4).
    eauto 10.
  - destruct (insert_fact (asq e) e (Hasq e)) as (t' & l' & m' & (a & H1 & H2) & H3 & H4).
    eauto 10.
  - destruct Hok as (l0 & EN0 & Hp).
    assert (Hin : pos < length l).
    { (* the two enumerations have the same length *)
      assert (HN : NoDup l0).
      { apply NoDup_nth_error. intros i j Hi Hij. destruct (nth_get l0 i Hi) as [x Hx].
        apply (asc_unique key lt c l0 (proj1 EN0) i j x x); [exact Hx|congruence|].
        apply equiv_refl, W. }
      assert (incl l0 l).
      { intros x Hx. destruct EN as [_ M1], EN0 as [_ M0]. apply (M1 (key x) x).
        apply M0. split; [exact Hx|]. now apply equiv_refl. }
      pose proof (NoDup_incl_length HN H). lia. }
    destruct (nth_get l pos Hin) as [e He].
    destruct (erase_fact pos e He) as (t' & Ht & Hr & He' & Hrf).
    exists t', (erase_at l pos (S pos)), (fremove lt c m (key e)), (AIter pos).
    split; [erewrite bind_ok by exact Ht; reflexivity|]. split; [|now split].
    exists e. split; [exact He|]. split; [apply same_refl|]. eauto.
  - destruct (find_fact q) as (p & Hp & [Hle Hr] & Hend).
    destruct (m (conv q)) as [e|] eqn:Em.
    + destruct (erase_fact p e Hr) as (t' & Ht & Hrep & He' & Hrf).
      assert (Hk : equivalent (lt c) (conv q) (key e)).
      { destruct EN as [_ M1]. now apply M1 in Em as [_ Em]. }
      exists t', (erase_at l p (S p)), (fremove lt c m (conv q)), (ACount 1).
      split.
      * assert (HE : erase_key key kq qk cont q s = Ok 1 (mkFlat c t')).
        { unfold erase_key. erewrite bind_ok by exact Hp.
          erewrite bind_ok by apply (size_spec cont cap rep CF c t l R).
          destruct (Nat.eqb_spec p (length l)) as [Heq|_];
            [exfalso; apply Hend in Heq; congruence|].
          erewrite bind_ok by exact Ht. reflexivity. }
        erewrite bind_ok by exact HE. reflexivity.
      * split; [split; [apply same_refl|reflexivity]|]. split; [exact Hrep|].
        eapply enum_same; [exact He'|]. apply (fremove_equiv lt c W). now apply equiv_sym'.
    + exists t, l, m, (ACount 0). split.
      * assert (HE : erase_key key kq qk cont q s = Ok 0 s).
        { unfold erase_key. erewrite bind_ok by exact Hp.
          erewrite bind_ok by apply (size_spec cont cap rep CF c t l R).
          now rewrite (proj2 Hend eq_refl), Nat.eqb_refl. }
        erewrite bind_ok by exact HE. reflexivity.
      * split; [split; [apply same_refl|reflexivity]|]. now split.
  - destruct (find_fact q) as (p & Hp & Hr & _).
    exists t, l, m, (AIter p). split; [erewrite bind_ok by exact Hp; reflexivity|].
    split; [|now split]. split; [apply same_refl|eauto].
  - destruct (find_fact q) as (p & Hp & Hr & Hend). unfold count.
    exists t, l, m, (ACount (match m (conv q) with Some _ => 1 | None => 0 end)).
    split.
    + erewrite bind_ok; [|erewrite bind_ok by exact Hp;
        erewrite bind_ok by apply (size_spec cont cap rep CF c t l R); reflexivity].
      cbn. do 3 f_equal. destruct (Nat.eqb_spec p (length l)) as [H|H].
      * now rewrite (proj1 Hend H).
      * destruct (m (conv q)); [reflexivity|]. now rewrite (proj2 Hend eq_refl) in H.
    + split; [split; [apply same_refl|reflexivity]|]. now split.
  - destruct (lower_fact q) as (p & Hp & Hb).
    exists t, l, m, (AIter p). split; [erewrite bind_ok by exact Hp; reflexivity|].
    split; [|now split]. split; [apply same_refl|eauto].
  - destruct (upper_fact q) as (p & Hp & Hb).
    exists t, l, m, (AIter p). split; [erewrite bind_ok by exact Hp; reflexivity|].
    split; [|now split]. split; [apply same_refl|eauto].
  - destruct (equal_range_fact q) as (p & r & Hp & Hb & Hc).
    exists t, l, m, (ARange p r). split; [erewrite bind_ok by exact Hp; reflexivity|].
    split; [|now split]. split; [apply same_refl|eauto].
  - destruct (cf_clear _ _ _ CF t l R) as (t' & Ht & Hr).
    exists t', [], fempty, ANone. split.
    + unfold clear, bind, onc. cbn [fcont fcmp]. rewrite Ht. reflexivity.
    + split; [split; [apply same_refl|reflexivity]|]. split; [exact Hr|apply enum_empty].
  - exists t, l, m, (ACount (length l)).
    split; [erewrite bind_ok by apply (size_spec cont cap rep CF c t l R); reflexivity|].
    split; [split; [apply same_refl|reflexivity]|]. now split.
Qed.
End Calls.

(** * flat_map's own calls *)

Section MapCalls.
Context {K T Q C CT : Type}.
Variable lt : C -> K -> K -> bool.
Variable kq : C -> K -> Q -> bool.
Variable qk : C -> Q -> K -> bool.
Variable cont : container (K * T) CT.
Variable cap : option nat.
Variable rep : CT -> list (K * T) -> Prop.
Hypothesis CF : conforms cont cap rep.
Variable conv : Q -> K.
Variable dflt : T.
Variable asq : K -> Q.
Hypothesis Hasq : forall k, conv (asq k) = k.
Variable c : C.
Hypothesis W : strict_weak_order (lt c).
Hypothesis Hkq : forall k q, kq c k q = lt c k (conv q).
Hypothesis Hqk : forall k q, qk c q k = lt c (conv q) k.

Section State.
Variable t : CT.
Variable l : list (K * T).
Variable m : K -> option (K * T).
Hypothesis R : rep t l.
Hypothesis EN : enumerates fst lt c l m.
Local Notation s := (mkFlat c t).

Lemma second_spec i e : nth_error l i = Some e -> second cont i s = Ok (snd e) s.
Proof.
  intros He. unfold second. erewrite bind_ok by (eapply elem_spec; eauto). reflexivity.
Qed.

Lemma set_second_spec i e v : nth_error l i = Some e ->
  exists t', set_second cont i v s = Ok tt (mkFlat c t') /\
    rep t' (upd l i (fst e, v)) /\
    enumerates fst lt c (upd l i (fst e, v)) (fput fst lt c m (fst e, v)).
Proof.
  intros He. pose proof (nth_lt_len _ _ _ He) as Hi.
  destruct (put_spec cont cap rep CF c t l R i (fst e, v) Hi) as (t' & Ht & Hr).
  exists t'. split; [|split; [exact Hr|eapply enum_upd; eauto]].
  unfold set_second. erewrite bind_ok by (eapply elem_spec; eauto). exact Ht.
Qed.

Lemma index_fact q :
  match m (conv q) with
  | Some e => exists i, index kq qk cont conv dflt q s = Ok i s /\ nth_error l i = Some e
  | None =>
      if fits cap (length l + 1)
      then exists i t' l', index kq qk cont conv dflt q s = Ok i (mkFlat c t') /\
             rep t' l' /\ enumerates fst lt c l' (fput fst lt c m (conv q, dflt)) /\
             nth_error l' i = Some (conv q, dflt)
      else exists t', index kq qk cont conv dflt q s = Throw OutOfRange (mkFlat c t') /\ rep t' l
  end.
Proof.
  destruct (lookup_fact fst lt kq qk cont cap rep CF conv c W Hkq Hqk t l m R EN q)
    as (p & Hp & Hb & Hle & Hm).
  destruct (m (conv q)) as [e|] eqn:Em.
  - destruct Hm as (He & Hk & Hpr). exists p. split; [|exact He].
    unfold index. erewrite bind_ok by exact Hp. erewrite bind_ok by exact Hpr. reflexivity.
  - destruct (fits cap (length l + 1)) eqn:Hf.
    + destruct (emplace_spec cont cap rep CF c t l R p (conv q, dflt) Hle Hf) as (t' & Ht & Hr).
      exists p, t', (insert_at l p [(conv q, dflt)]). split.
      * unfold index. erewrite bind_ok by exact Hp. erewrite bind_ok by exact Hm. exact Ht.
      * split; [exact Hr|]. split; [now apply enum_insert|].
        rewrite nth_insert_at by exact Hle. destruct (Nat.ltb_spec p p); [lia|].
        now rewrite Nat.eqb_refl.
    + destruct (emplace_full cont cap rep CF c t l R p (conv q, dflt) Hle Hf) as (t' & Ht & Hr).
      exists t'. split; [|exact Hr].
      unfold index. erewrite bind_ok by exact Hp. erewrite bind_ok by exact Hm. exact Ht.
Qed.

Lemma at_fact q :
  match m (conv q) with
  | Some e => exists i, at_ kq qk cont q s = Ok i s /\ nth_error l i = Some e
  | None => at_ kq qk cont q s = Throw OutOfRange s
  end.
Proof.
  destruct (lookup_fact fst lt kq qk cont cap rep CF conv c W Hkq Hqk t l m R EN q)
    as (p & Hp & Hb & Hle & Hm).
  destruct (m (conv q)) as [e|] eqn:Em.
  - destruct Hm as (He & Hk & Hpr). exists p. split; [|exact He].
    unfold at_. erewrite bind_ok by exact Hp. erewrite bind_ok by exact Hpr. reflexivity.
  - unfold at_. erewrite bind_ok by exact Hp. erewrite bind_ok by exact Hm. reflexivity.
Qed.
End State.

Lemma fput_twice (m : K -> option (K * T)) k v v' :
  same (fput fst lt c (fput fst lt c m (k, v)) (k, v')) (fput fst lt c m (k, v')).
Proof. intros x. unfold fput. cbn [fst]. now destruct (equivb lt c x k). Qed.

Lemma pos_in_enum {E} (key : E -> K) (l0 l : list E) m pos :
  enumerates key lt c l0 m -> enumerates key lt c l m -> pos < length l0 -> pos < length l.
Proof.
  intros EN0 EN Hp.
  assert (HN : NoDup l0).
  { apply NoDup_nth_error. intros i j Hi Hij. destruct (nth_get l0 i Hi) as [x Hx].
    apply (asc_unique key lt c l0 (proj1 EN0) i j x x); [exact Hx|congruence|].
    apply equiv_refl, W. }
  assert (H : incl l0 l).
  { intros x Hx. destruct EN as [_ M1], EN0 as [_ M0]. apply (M1 (key x) x).
    apply M0. split; [exact Hx|]. now apply equiv_refl. }
  pose proof (NoDup_incl_length HN H). lia.
Qed.

Lemma mcall_fact (o : mop K T Q) t l m : rep t l -> enumerates fst lt c l m ->
  mallowed lt conv c m o ->
  exists t' l' m' (a : fret T),
    fobserve (mcall kq qk cont conv dflt asq o (mkFlat c t)) = Some (mkFlat c t', a) /\
    mmeans lt conv dflt cap c l l' m o m' a /\
    rep t' l' /\ enumerates fst lt c l' m'.
Proof.
  intros R EN Hok. destruct o as [o|q|q v|q|q v|pos v]; cbn [mcall mmeans mallowed] in *.
  - apply (fcall_fact fst lt kq qk cont cap rep CF conv c W Hkq Hqk); auto.
  - pose proof (index_fact t l m R EN q) as HI. destruct (m (conv q)) as [e|] eqn:Em.
    + destruct HI as (i & Hi & He). exists t, l, m, (AVal (snd e)).
      split; [|now split]. erewrite bind_ok by exact Hi.
      erewrite bind_ok by (eapply second_spec; eauto). reflexivity.
    + destruct (fits cap (length l + 1)).
      * destruct HI as (i & t' & l' & Hi & Hr & He & Hn).
        exists t', l', (fput fst lt c m (conv q, dflt)), (AVal dflt).
        split; [|now split]. erewrite bind_ok by exact Hi.
        erewrite bind_ok by (eapply second_spec; eauto). reflexivity.
      * destruct HI as (t' & Ht & Hr). exists t', l, m, (AThrow OutOfRange).
        split; [|now split]. erewrite bind_throw by exact Ht. reflexivity.
  - pose proof (index_fact t l m R EN q) as HI. destruct (m (conv q)) as [e|] eqn:Em.
    + destruct HI as (i & Hi & He).
      destruct (set_second_spec t l m R EN i e v He) as (t' & Ht & Hr & HE).
      exists t', (upd l i (fst e, v)), (fput fst lt c m (fst e, v)), ANone.
      split; [|now split]. erewrite bind_ok by exact Hi.
      erewrite bind_ok by exact Ht. reflexivity.
    + destruct (fits cap (length l + 1)).
      * destruct HI as (i & t' & l' & Hi & Hr & He & Hn).
        destruct (set_second_spec t' l' _ Hr He i _ v Hn) as (t2 & Ht & Hr2 & HE). cbn [fst] in *.
        exists t2, (upd l' i (conv q, v)), (fput fst lt c m (conv q, v)), ANone.
        split; [|split; [now split|]].
        { erewrite bind_ok by exact Hi. erewrite bind_ok by exact Ht. reflexivity. }
        split; [exact Hr2|]. eapply enum_same; [exact HE|]. apply fput_twice.
      * destruct HI as (t' & Ht & Hr). exists t', l, m, (AThrow OutOfRange).
        split; [|now split]. erewrite bind_throw by exact Ht. reflexivity.
  - pose proof (at_fact t l m R EN q) as HI. destruct (m (conv q)) as [e|] eqn:Em.
    + destruct HI as (i & Hi & He). exists t, l, m, (AVal (snd e)).
      split; [|now split]. erewrite bind_ok by exact Hi.
      erewrite bind_ok by (eapply second_spec; eauto). reflexivity.
    + exists t, l, m, (AThrow OutOfRange).
      split; [|now split]. erewrite bind_throw by exact HI. reflexivity.
  - pose proof (at_fact t l m R EN q) as HI. destruct (m (conv q)) as [e|] eqn:Em.
    + destruct HI as (i & Hi & He).
      destruct (set_second_spec t l m R EN i e v He) as (t' & Ht & Hr & HE).
      exists t', (upd l i (fst e, v)), (fput fst lt c m (fst e, v)), ANone.
      split; [|now split]. erewrite bind_ok by exact Hi.
      erewrite bind_ok by exact Ht. reflexivity.
    + exists t, l, m, (AThrow OutOfRange).
      split; [|now split]. erewrite bind_throw by exact HI. reflexivity.
  - destruct Hok as (l0 & EN0 & Hp). apply (pos_in_enum fst l0 l m) in Hp; auto.
    destruct (nth_get l pos Hp) as [e He].
    destruct (set_second_spec t l m R EN pos e v He) as (t' & Ht & Hr & HE).
    exists t', (upd l pos (fst e, v)), (fput fst lt c m (fst e, v)), ANone.
    split; [|split; [|now split]].
    + erewrite bind_ok by exact Ht. reflexivity.
    + exists e. now split.
Qed.
End MapCalls.

(** * Histories over several objects *)

Section HistoryProofs.
Context {E K C CT T O : Type}.
Variable key : E -> K.
Variable lt : C -> K -> K -> bool.
Variable cont : container E CT.
Variable cap : option nat.
Variable rep : CT -> list E -> Prop.
Hypothesis CF : conforms cont cap rep.
Variable means : C -> list E -> list E -> (K -> option E) -> O -> (K -> option E) -> fret T -> Prop.
Variable allowed : C -> (K -> option E) -> O -> Prop.
Variable call : O -> M (flat C CT) (fret T).
Hypothesis call_ok : forall c t l m o, rep t l -> enumerates key lt c l m -> allowed c m o ->
  exists t' l' m' a,
    fobserve (call o (mkFlat c t)) = Some (mkFlat c t', a) /\
    means c l l' m o m' a /\ rep t' l' /\ enumerates key lt c l' m'.

Local Notation held := (holds key lt rep).

Lemma Forall2_nth {A B} (P : A -> B -> Prop) la lb i b :
  Forall2 P la lb -> nth_error lb i = Some b -> exists a, nth_error la i = Some a /\ P a b.
Proof.
  intros H. revert i. induction H as [|a b' la lb Hab H IH]; intros [|i] Hn; cbn in *;
    try discriminate.
  - injection Hn as ->. eauto.
  - eauto.
Qed.
Lemma Forall2_upd {A B} (P : A -> B -> Prop) la lb i a b :
  Forall2 P la lb -> P a b -> Forall2 P (upd la i a) (upd lb i b).
Proof.
  intros H Hab. revert i. induction H; intros [|i]; cbn; constructor; auto.
Qed.
Lemma Forall2_length' {A B} (P : A -> B -> Prop) la lb : Forall2 P la lb -> length la = length lb.
Proof. induction 1; cbn; auto. Qed.

Lemma stepn_fact st cs o : Forall2 held st cs -> allowedn allowed cs o ->
  exists st' cs' a,
    fobserve (fsys cont call o st) = Some (st', a) /\
    stepn key lt means cs o cs' a /\ Forall2 held st' cs'.
Proof.
  intros HF Hok. destruct o as [i op|i j|i j|i j]; cbn [fsys stepn allowedn] in *.
  - destruct Hok as ((c & m) & Hx & Ho). cbn [fst snd] in Ho.
    destruct (Forall2_nth _ _ _ _ _ HF Hx) as ([c0 t] & Hs & Hc & l & Hr & HE).
    cbn [fcmp fcont fst snd] in *. subst c0.
    destruct (call_ok c t l m op Hr HE Ho) as (t' & l' & m' & a & Ha & Hm & Hr' & HE').
    exists (upd st i (mkFlat c t')), (upd cs i (c, m')), a. split; [|split].
    + unfold on_one. rewrite Hs. revert Ha. unfold fobserve.
      destruct (call op (mkFlat c t)); intros [= <- <-]; reflexivity.
    + exists (c, m), (c, m'). split; [exact Hx|]. split; [|reflexivity].
      split; [reflexivity|]. exists l, l'. split; [exact HE|]. split; [exact HE'|exact Hm].
    + apply Forall2_upd; [exact HF|]. split; [reflexivity|]. exists l'. now split.
  - destruct Hok as (Hi & Hj & Hne).
    destruct (nth_get cs i Hi) as [x Hx], (nth_get cs j Hj) as [y Hy].
    destruct (Forall2_nth _ _ _ _ _ HF Hx) as (a & Ha & Hac & la & Hla & HEa).
    destruct (Forall2_nth _ _ _ _ _ HF Hy) as (b & Hb & Hbc & lb & Hlb & HEb).
    destruct (cf_copy _ _ _ CF _ _ _ _ Hla Hlb) as (t' & u' & Ht & H1 & H2).
    exists (upd (upd st i (mkFlat (fcmp b) t')) j (mkFlat (fcmp b) u')), (upd cs i y), ANone.
    split; [|split].
    + unfold no_fret, on_two, copy_assign, bind. cbn [fst snd]. rewrite Ha, Hb. rewrite Ht. reflexivity.
    + eauto.
    + assert (HU : upd cs i y = upd (upd cs i y) j y).
      { symmetry. apply upd_nth_id. now rewrite nth_error_upd_neq. }
      rewrite HU. apply Forall2_upd; [apply Forall2_upd; [exact HF|]|];
        (split; [exact Hbc|]; exists lb; now split).
  - destruct Hok as (Hi & Hj & Hne).
    destruct (nth_get cs i Hi) as [x Hx], (nth_get cs j Hj) as [y Hy].
    destruct (Forall2_nth _ _ _ _ _ HF Hx) as (a & Ha & Hac & la & Hla & HEa).
    destruct (Forall2_nth _ _ _ _ _ HF Hy) as (b & Hb & Hbc & lb & Hlb & HEb).
    destruct (cf_move _ _ _ CF _ _ _ _ Hla Hlb) as (t' & u' & Ht & H1 & H2).
    exists (upd (upd st i (mkFlat (fcmp b) t')) j (mkFlat (fcmp b) u')),
      (upd (upd cs i y) j (fst y, fempty)), ANone.
    split; [|split].
    + unfold no_fret, on_two, move_assign, bind. cbn [fst snd]. rewrite Ha, Hb. rewrite Ht. reflexivity.
    + eauto.
    + apply Forall2_upd; [apply Forall2_upd; [exact HF|]|].
      * split; [exact Hbc|]. exists lb. now split.
      * split; [exact Hbc|]. exists []. split; [exact H2|]. apply enum_empty.
  - destruct Hok as (Hi & Hj & Hne).
    destruct (nth_get cs i Hi) as [x Hx], (nth_get cs j Hj) as [y Hy].
    destruct (Forall2_nth _ _ _ _ _ HF Hx) as (a & Ha & Hac & la & Hla & HEa).
    destruct (Forall2_nth _ _ _ _ _ HF Hy) as (b & Hb & Hbc & lb & Hlb & HEb).
    destruct (cf_swap _ _ _ CF _ _ _ _ Hla Hlb) as (t' & u' & Ht & H1 & H2).
    exists (upd (upd st i (mkFlat (fcmp b) t')) j (mkFlat (fcmp a) u')),
      (upd (upd cs i y) j x), ANone.
    split; [|split].
    + unfold no_fret, on_two, swap, bind. cbn [fst snd]. rewrite Ha, Hb. rewrite Ht. reflexivity.
    + split; [reflexivity|]. eauto.
    + apply Forall2_upd; [apply Forall2_upd; [exact HF|]|].
      * split; [exact Hbc|]. exists lb. now split.
      * split; [exact Hac|]. exists la. now split.
Qed.

Lemma frun_fact os : forall st cs, Forall2 held st cs ->
  legal key lt means allowed cs os ->
  exists st' rs cs',
    frun (fsys cont call) st os = Some (st', rs) /\
    follows key lt means cs os rs cs' /\ Forall2 held st' cs'.
Proof.
  induction os as [|o os IH]; intros st cs HF HL.
  - exists st, [], cs. split; [reflexivity|]. split; [constructor|exact HF].
  - inversion HL as [|? ? ? Hok Hnext]; subst.
    destruct (stepn_fact st cs o HF Hok) as (st1 & cs1 & a & H1 & H2 & H3).
    destruct (IH st1 cs1 H3 (Hnext _ _ H2)) as (st' & rs & cs' & H4 & H5 & H6).
    exists st', (a :: rs), cs'. split; [|split; [|exact H6]].
    + cbn [frun]. now rewrite H1, H4.
    + econstructor; eauto.
Qed.
End HistoryProofs.

(** * Construction *)

Section Construction.
Context {E K C CT : Type}.
Variable key : E -> K.
Variable lt : C -> K -> K -> bool.
Variable cont : container E CT.
Variable cap : option nat.
Variable rep : CT -> list E -> Prop.
Hypothesis CF : conforms cont cap rep.
Variable moved : E -> E.
Variable sort : (E -> E -> bool) -> list E -> list E.
Hypothesis SORT : sorts sort.
Variable c : C.
Hypothesis W : strict_weak_order (lt c).

Lemma read_all_spec t l : rep t l -> forall k i, i + k = length l ->
  read_all cont i k (mkFlat c t) = Ok (skipn i l) (mkFlat c t).
Proof.
  intros R. induction k as [|k IH]; intros i Hi; cbn [read_all].
  - rewrite skipn_all2 by lia. reflexivity.
  - destruct (nth_get l i) as [e He]; [lia|].
    erewrite bind_ok by (eapply elem_spec; eauto).
    erewrite bind_ok by (apply IH; lia).
    unfold ret. f_equal. symmetry. now apply skipn_cons_nth.
Qed.

Lemma write_all_spec new : forall t done old, rep t (done ++ old) -> length new = length old ->
  exists t', write_all cont (length done) new (mkFlat c t) = Ok tt (mkFlat c t') /\
    rep t' (done ++ new).
Proof.
  induction new as [|e new IH]; intros t done old R Hl.
  - destruct old; [|discriminate]. exists t. now split.
  - destruct old as [|x old]; [discriminate|]. cbn [write_all].
    destruct (put_spec cont cap rep CF c t _ R (length done) e) as (t1 & H1 & R1).
    { rewrite app_length. cbn. lia. }
    rewrite upd_app_mid in R1 by reflexivity.
    destruct (IH t1 (done ++ [e]) old) as (t' & H2 & R2).
    + now rewrite <- app_assoc.
    + now injection Hl.
    + exists t'. split.
      * erewrite bind_ok by exact H1. rewrite app_length in H2. cbn in H2.
        rewrite Nat.add_1_r in H2. exact H2.
      * now rewrite <- app_assoc in R2.
Qed.

Fixpoint uniq (a : E) (l : list E) : list E :=
  match l with
  | [] => [a]
  | b :: l' => if same_class key lt c a b then uniq a l' else a :: uniq b l'
  end.

Lemma same_class_equiv a b : same_class key lt c a b = true <-> equivalent (lt c) (key a) (key b).
Proof. unfold same_class, equivalent. rewrite andb_true_iff, !negb_true_iff. tauto. Qed.

Lemma unique_loop_spec rest : forall t kept a junk, rep t (kept ++ a :: junk ++ rest) ->
  exists t' junk',
    unique_loop key lt cont moved (length kept) (length kept + 1 + length junk) (length rest)
      (mkFlat c t) = Ok (length kept + length (uniq a rest)) (mkFlat c t') /\
    rep t' (kept ++ uniq a rest ++ junk').
Proof.
  induction rest as [|b rest IH]; intros t kept a junk R; cbn [length unique_loop uniq].
  - exists t, junk. split; [reflexivity|]. now rewrite app_nil_r in R.
  - erewrite bind_ok by (eapply elem_spec; eauto; apply nth_error_app_mid; reflexivity).
    erewrite bind_ok.
    2:{ eapply elem_spec; eauto.
        replace (kept ++ a :: junk ++ b :: rest) with ((kept ++ a :: junk) ++ b :: rest)
          by (rewrite <- app_assoc; reflexivity).
        apply nth_error_app_mid. rewrite app_length. cbn. lia. }
    erewrite bind_ok by reflexivity. cbn [fcmp].
    destruct (same_class key lt c a b).
    + destruct (IH t kept a (junk ++ [b])) as (t' & junk' & H & R').
      { now rewrite <- app_assoc. }
      exists t', junk'. split; [|exact R']. rewrite <- H. f_equal.
      rewrite app_length. cbn. lia.
    + destruct junk as [|j junk].
      * cbn [length]. rewrite Nat.add_0_r, Nat.eqb_refl.
        erewrite bind_ok by reflexivity.
        destruct (IH t (kept ++ [a]) b []) as (t' & junk' & H & R').
        { now rewrite <- app_assoc. }
        exists t', junk'. split.
        -- rewrite app_length in H. cbn [length] in H. cbn [length].
           rewrite Nat.add_0_r in H. rewrite H. f_equal. cbn. lia.
        -- now rewrite <- app_assoc in R'.
      * replace (length kept + 1 =? length kept + 1 + length (j :: junk)) with false
          by (symmetry; apply Nat.eqb_neq; cbn; lia).
        set (L1 := kept ++ a :: j :: junk).
        assert (E1 : kept ++ a :: (j :: junk) ++ b :: rest = L1 ++ b :: rest)
          by (unfold L1; rewrite <- app_assoc; reflexivity).
        rewrite E1 in R.
        assert (L1l : length L1 = length kept + 1 + length (j :: junk))
          by (unfold L1; rewrite app_length; cbn; lia).
        destruct (put_spec cont cap rep CF c t _ R (length kept + 1 + length (j :: junk)) (moved b))
          as (t1 & H1 & R1).
        { rewrite app_length, L1l. cbn. lia. }
        rewrite upd_app_mid in R1 by now rewrite L1l.
        assert (E2 : L1 ++ moved b :: rest = (kept ++ [a]) ++ j :: (junk ++ moved b :: rest))
          by (unfold L1; rewrite <- !app_assoc; reflexivity).
        rewrite E2 in R1.
        destruct (put_spec cont cap rep CF c t1 _ R1 (length kept + 1) b) as (t2 & H2 & R2).
        { rewrite !app_length. cbn. lia. }
        rewrite upd_app_mid in R2 by (rewrite app_length; reflexivity).
        destruct (IH t2 (kept ++ [a]) b (junk ++ [moved b])) as (t' & junk' & H & R').
        { now rewrite <- (app_assoc junk). }
        exists t', junk'. split; [|now rewrite <- app_assoc in R'].
        erewrite bind_ok.
        2:{ erewrite bind_ok by exact H1. exact H2. }
        rewrite !app_length in H. cbn [length] in H.
        replace (length kept + 1 + length (j :: junk) + 1)
          with (length kept + 1 + 1 + (length junk + 1)) by (cbn; lia).
        rewrite H. f_equal. cbn. lia.
Qed.

Definition nlt_sorted (l : list E) : Prop :=
  forall i j a b, i < j -> nth_error l i = Some a -> nth_error l j = Some b ->
    lt c (key b) (key a) = false.

Lemma nlt_sorted_tail a l : nlt_sorted (a :: l) -> nlt_sorted l.
Proof. intros H i j x y Hij Hx Hy. apply (H (S i) (S j) x y); auto. lia. Qed.
Lemma nlt_sorted_skip a b l : nlt_sorted (a :: b :: l) -> nlt_sorted (a :: l).
Proof.
  intros H [|i] [|j] x y Hij Hx Hy; try lia; cbn in *.
  - apply (H 0 (S (S j)) x y); auto with arith.
  - apply (H (S (S i)) (S (S j)) x y); auto with arith.
Qed.
Lemma nlt_sorted_head a l x : nlt_sorted (a :: l) -> In x l -> lt c (key x) (key a) = false.
Proof.
  intros H Hx. apply In_nth_error in Hx as [i Hi]. apply (H 0 (S i) a x); auto with arith.
Qed.

Lemma uniq_from l : forall a x, In x (uniq a l) -> x = a \/ In x l.
Proof.
  induction l as [|b l IH]; intros a x; cbn.
  - intros [<-|[]]. auto.
  - destruct (same_class key lt c a b).
    + intros H. apply IH in H. tauto.
    + cbn. intros [<-|H]; auto. apply IH in H as [->|H]; auto.
Qed.

Lemma uniq_head l : forall a, exists r, uniq a l = a :: r.
Proof.
  induction l as [|b l IH]; intros a; cbn; eauto.
  destruct (same_class key lt c a b); eauto.
Qed.

Lemma uniq_covers l : forall a x, x = a \/ In x l ->
  exists y, In y (uniq a l) /\ equivalent (lt c) (key x) (key y).
Proof.
  induction l as [|b l IH]; intros a x; cbn.
  - intros [->|[]]. exists a. split; auto. now apply equiv_refl.
  - destruct (same_class key lt c a b) eqn:S.
    + intros [->|[<-|H]]; auto.
      apply same_class_equiv in S. exists a. split; [|now apply equiv_sym'].
      destruct (uniq_head l a) as [r ->]. now left.
    + intros [->|H].
      * exists a. split; [now left|]. now apply equiv_refl.
      * destruct (IH b x) as (y & Hy & He); [intuition|]. exists y. split; [now right|exact He].
Qed.

Lemma uniq_ascending l : forall a, nlt_sorted (a :: l) -> ascending key (lt c) (uniq a l).
Proof.
  induction l as [|b l IH]; intros a S; cbn.
  - intros [|[|i]] [|[|j]] x y Hij Hx Hy; cbn in *; try discriminate; try lia; try (destruct i; discriminate); try (destruct j; discriminate).
  - destruct (same_class key lt c a b) eqn:SC.
    + apply IH. eapply nlt_sorted_skip; eauto.
    + assert (Hab : lt c (key a) (key b) = true).
      { destruct (lt c (key a) (key b)) eqn:H; [reflexivity|exfalso].
        assert (H2 : lt c (key b) (key a) = false) by (apply (S 0 1 a b); auto).
        unfold same_class in SC. rewrite H, H2 in SC. discriminate. }
      pose proof (IH b (nlt_sorted_tail _ _ S)) as A.
      intros [|i] [|j] x y Hij Hx Hy; try lia; cbn in *.
      * injection Hx as <-. apply nth_error_In, uniq_from in Hy as [->|Hy]; [exact Hab|].
        apply (lt_nlt _ W) with (key b); auto.
        destruct (lt c (key y) (key b)) eqn:H; auto.
        pose proof (nlt_sorted_head _ _ _ (nlt_sorted_tail _ _ S) Hy). congruence.
      * eapply A; [|exact Hx|exact Hy]. lia.
Qed.

Lemma swo_key : strict_weak_order (fun a b => lt c (key a) (key b)).
Proof.
  constructor.
  - intros a. apply (swo_irrefl _ W).
  - intros a b d. apply (swo_trans _ W).
  - intros a b d. apply (swo_equiv _ W).
Qed.

(** Every ascending sequence is the enumeration of a map. *)
Lemma enum_exists l : ascending key (lt c) l ->
  enumerates key lt c l (fun k => List.find (fun e => equivb lt c k (key e)) l).
Proof.
  intros A. split; [exact A|]. intros k e. split.
  - intros H. apply find_some in H as [H1 H2]. split; [exact H1|]. now apply equivb_true.
  - intros [H1 H2].
    destruct (List.find (fun e => equivb lt c k (key e)) l) as [x|] eqn:F.
    + apply find_some in F as [F1 F2]. apply equivb_true in F2.
      apply In_nth_error in F1 as [i Hi]. apply In_nth_error in H1 as [j Hj].
      assert (i = j); [|congruence].
      eapply (asc_unique key lt c l A); eauto.
      apply (swo_equiv _ W) with k; [now apply equiv_sym'|exact H2].
    + exfalso. pose proof (find_none _ _ F e H1) as N. cbn beta in N.
      apply equivb_true in H2. congruence.
Qed.

Lemma construct_fact t l : rep t l ->
  exists s l', construct key lt cont moved sort c t = Ok tt s /\
    fcmp s = c /\ rep (fcont s) l' /\ ascending key (lt c) l' /\
    (forall e, In e l' -> In e l) /\
    (forall e, In e l -> exists e', In e' l' /\ equivalent (lt c) (key e) (key e')).
Proof.
  intros R. unfold construct, construct_body.
  erewrite bind_ok by apply (size_spec cont cap rep CF c t l R).
  erewrite bind_ok by (apply (read_all_spec t l R); reflexivity).
  cbn [skipn]. erewrite bind_ok by reflexivity. cbn [fcmp].
  destruct (SORT (fun a b => lt c (key a) (key b)) l swo_key) as [P S].
  set (sl := sort (fun a b => lt c (key a) (key b)) l) in *. clearbody sl.
  destruct (write_all_spec sl t [] l R) as (t1 & H1 & R1).
  { symmetry. now apply Permutation_length. }
  erewrite bind_ok by exact H1. cbn [app] in R1.
  assert (HU : exists t2 u junk, unique key lt cont moved (mkFlat c t1) =
      Ok (length u) (mkFlat c t2) /\ rep t2 (u ++ junk) /\
      ascending key (lt c) u /\ (forall e, In e u -> In e sl) /\
      (forall e, In e sl -> exists e', In e' u /\ equivalent (lt c) (key e) (key e'))).
  { unfold unique. destruct sl as [|a rest] eqn:Esl.
    - exists t1, [], []. split; [|split; [exact R1|split; [|split]]].
      + erewrite bind_ok by apply (size_spec cont cap rep CF c t1 [] R1). reflexivity.
      + intros i j x y _ Hx. destruct i; discriminate.
      + now intros e [].
      + now intros e [].
    - destruct (unique_loop_spec rest t1 [] a [] R1) as (t2 & junk & H2 & R2).
      cbn [length app] in H2, R2. cbn [Nat.add] in H2.
      exists t2, (uniq a rest), junk. split; [|split; [exact R2|split; [|split]]].
      + erewrite bind_ok by apply (size_spec cont cap rep CF c t1 _ R1).
        cbn [length]. rewrite Nat.sub_succ, Nat.sub_0_r. exact H2.
      + apply uniq_ascending. exact S.
      + intros e He. apply uniq_from in He as [->|He]; [now left|now right].
      + intros e He. apply uniq_covers. destruct He as [<-|He]; auto. }
  destruct HU as (t2 & u & junk & H2 & R2 & A & F & G).
  erewrite bind_ok by exact H2.
  erewrite bind_ok by apply (size_spec cont cap rep CF c t2 _ R2).
  destruct (cf_erase_tail _ _ _ CF t2 _ (length u) R2) as (t3 & H3 & R3).
  { rewrite app_length. lia. }
  exists (mkFlat c t3), u. split.
  - unfold bind, onc. cbn [fcont fcmp]. rewrite H3. reflexivity.
  - split; [reflexivity|]. cbn [fcont]. split.
    { rewrite firstn_app, Nat.sub_diag, firstn_O, app_nil_r, firstn_all in R3. exact R3. }
    split; [exact A|]. split.
    + intros e He. apply F in He. eapply Permutation_in; [|exact He]. now apply Permutation_sym.
    + intros e He. apply G. eapply Permutation_in; eauto.
Qed.
End Construction.

(** * Containers *)

Lemma list_eqb_spec {E} (eqb : E -> E -> bool) : (forall x y, eqb x y = true <-> x = y) ->
  forall a b, list_eqb eqb a b = true <-> a = b.
Proof.
  intros H. induction a as [|x a IH]; intros [|y b]; cbn; try (split; congruence).
  rewrite andb_true_iff, H, IH. split; [intros [-> ->]; reflexivity|intros [= -> ->]; auto].
Qed.

Lemma vec_conforms (E : Type) : conforms (vec_cont E) None (fun t l => t = l).
Proof.
  constructor; cbn [c_size c_get c_put c_call c_copy_assign c_move_assign c_swap c_equal vec_cont vec_call].
  - reflexivity.
  - now intros t l ->.
  - intros t l i e -> H. now rewrite H.
  - intros t l i e -> H. apply Nat.ltb_lt in H. rewrite H. eauto.
  - intros t l p e -> H _. apply Nat.leb_le in H. rewrite H. eauto.
  - discriminate.
  - intros t l p -> H. apply Nat.ltb_lt in H. rewrite H. eauto.
  - intros t l p -> H. rewrite (proj2 (Nat.leb_le _ _) H), Nat.leb_refl. cbn [andb].
    eexists. split; [reflexivity|]. unfold erase_at. now rewrite skipn_all, app_nil_r.
  - eauto.
  - intros t u l k -> ->. eauto.
  - intros t u l k -> ->. eauto.
  - intros t u l k -> ->. eauto.
  - intros eqb t u l k -> -> H. eexists. split; [reflexivity|]. now apply list_eqb_spec.
Qed.

Section StaticVectorContainer.
Variable E : Type.
Variable moved : E -> E.
Variable dflt : E.
Variable Capacity : nat.
Hypothesis Hcap : (N.of_nat Capacity < two63)%N.

Definition sv_holds (t : @sv E) (l : list E) : Prop :=
  represents Capacity t l /\ fuse t = None.

Lemma observe_pos {S} (r : res S (option nat)) s p :
  observe r = Some (s, RPos p) -> r = Ok (Some p) s.
Proof. destruct r as [[x|]| | |]; cbn; congruence. Qed.
Lemma observe_none {S} (r : res S (option nat)) s :
  observe r = Some (s, RNone) -> r = Ok None s.
Proof. destruct r as [[x|]| | |]; cbn; congruence. Qed.
Lemma observe_throw {S} (r : res S (option nat)) s e :
  observe r = Some (s, RThrow e) -> r = Throw e s.
Proof. destruct r as [[x|]| | |]; cbn; congruence. Qed.

Lemma sv_unique t u l : sv_holds t l -> sv_holds u l -> t = u.
Proof.
  intros [H1 F1] [H2 F2]. rewrite (represents_inv Capacity Hcap t l H1), (represents_inv Capacity Hcap u l H2).
  congruence.
Qed.

Lemma sv_conforms : conforms (sv_cont E moved dflt Capacity) (Some Capacity) sv_holds.
Proof.
  constructor; cbn [c_size c_get c_put c_call c_copy_assign c_move_assign c_swap c_equal sv_cont].
  - intros t l [(_ & _ & H & _) _]. cbn. now apply Nat.leb_le.
  - intros t l [(_ & H & _) _]. exact H.
  - intros t l i e [(H0 & _ & H2 & H3) _] He. unfold StaticVectorModel.at_, read.
    rewrite H3, He; [reflexivity|]. apply nth_lt_len in He. lia.
  - intros t l i e [(H0 & H1 & H2 & H3) HF] Hi. unfold sv_put.
    rewrite H3 by lia. destruct (nth_get l i Hi) as [x Hx]. rewrite Hx.
    eexists. split; [reflexivity|]. split; [|exact HF]. unfold with_data.
    split; [cbn; now rewrite upd_length|]. cbn [StaticVectorModel.size data].
    rewrite upd_length. split; [exact H1|]. split; [exact H2|].
    intros j Hj. destruct (Nat.eq_dec i j) as [<-|Hne].
    + rewrite !nth_error_upd_eq; auto. lia.
    + rewrite !nth_error_upd_neq by exact Hne. now apply H3.
  - intros t l p e [HR HF] Hp Hc.
    destruct (call_fact moved dflt Capacity Hcap t l (Insert p e) HR HF) as (s' & H1 & H2 & H3).
    { split; [exact Hp|exact I]. }
    unfold spec_step in H1, H2. rewrite Hc in H1, H2. cbn [fst snd] in *.
    exists s'. split; [now apply observe_pos|now split].
  - intros t l p e [HR HF] Hp Hc.
    destruct (call_fact moved dflt Capacity Hcap t l (Insert p e) HR HF) as (s' & H1 & H2 & H3).
    { split; [exact Hp|exact I]. }
    unfold spec_step in H1, H2. rewrite Hc in H1, H2. cbn [fst snd] in *.
    exists s'. split; [now apply observe_throw|now split].
  - intros t l p [HR HF] Hp.
    destruct (call_fact moved dflt Capacity Hcap t l (Erase p) HR HF) as (s' & H1 & H2 & H3).
    { split; [exact Hp|exact I]. }
    exists s'. split; [now apply observe_pos|now split].
  - intros t l p [HR HF] Hp.
    destruct (call_fact moved dflt Capacity Hcap t l (EraseRange p (length l)) HR HF)
      as (s' & H1 & H2 & H3).
    { split; [split; [exact Hp|apply le_n]|auto]. }
    unfold spec_step in H1, H2. replace (length l <? p) with false in H1, H2
      by (symmetry; apply Nat.ltb_ge; exact Hp). cbn [fst snd] in *.
    exists s'. split; [now apply observe_pos|]. split; [|exact H3].
    unfold erase_at in H2. now rewrite skipn_all, app_nil_r in H2.
  - intros t l [HR HF].
    destruct (call_fact moved dflt Capacity Hcap t l Clear HR HF) as (s' & H1 & H2 & H3).
    { split; exact I. }
    exists s'. split; [now apply observe_none|now split].
  - intros t u l k [HR HF] [HR2 HF2].
    rewrite (represents_inv Capacity Hcap t l HR), (represents_inv Capacity Hcap u k HR2), HF, HF2.
    destruct HR as (_ & _ & HC & _), HR2 as (_ & _ & HC2 & _).
    do 2 eexists. split; [now apply copy_assign_spec|].
    split; (split; [now apply represents_repr|reflexivity]).
  - intros t u l k [HR HF] [HR2 HF2].
    rewrite (represents_inv Capacity Hcap t l HR), (represents_inv Capacity Hcap u k HR2), HF, HF2.
    destruct HR as (_ & _ & HC & _), HR2 as (_ & _ & HC2 & _).
    do 2 eexists. split; [now apply move_assign_spec|].
    split; (split; [apply represents_repr; cbn; auto with arith|reflexivity]).
  - intros t u l k [HR HF] [HR2 HF2].
    rewrite (represents_inv Capacity Hcap t l HR), (represents_inv Capacity Hcap u k HR2), HF, HF2.
    destruct HR as (_ & _ & HC & _), HR2 as (_ & _ & HC2 & _).
    do 2 eexists. split; [now apply swap_spec|].
    split; (split; [now apply represents_repr|reflexivity]).
  - intros eqb t u l k [HR HF] [HR2 HF2] He. now apply (equal_fact Capacity Hcap).
Qed.
End StaticVectorContainer.

(** * Facts for the property theorems *)

Lemma held_ascending {E K C CT} (key : E -> K) (lt : C -> K -> K -> bool) (cont : container E CT)
  cap (rep : CT -> list E -> Prop) (st : list (flat C CT)) cs s :
  conforms cont cap rep -> Forall2 (holds key lt rep) st cs -> In s st ->
  exists l, rep (fcont s) l /\ c_size cont (fcont s) = length l /\
    ascending key (lt (fcmp s)) l.
Proof.
  intros CF HF. induction HF as [|a x st cs (Hc & l & Hr & HE) HF IH]; intros Hin; [easy|].
  destruct Hin as [<-|Hin]; [|auto]. exists l. split; [exact Hr|].
  split; [now apply (cf_size _ _ _ CF)|]. rewrite Hc. apply HE.
Qed.

Lemma enum_unique {E K C} (key : E -> K) (lt : C -> K -> K -> bool) c :
  strict_weak_order (lt c) -> forall la lb m, enumerates key lt c la m ->
  enumerates key lt c lb m -> la = lb.
Proof.
  intros W. induction la as [|a la IH]; intros lb m [A1 M1] [A2 M2].
  - destruct lb as [|b lb]; [reflexivity|exfalso].
    assert (H : m (key b) = Some b) by (apply M2; split; [now left|now apply equiv_refl]).
    apply M1 in H as [[] _].
  - destruct lb as [|b lb].
    { exfalso. assert (H : m (key a) = Some a) by (apply M1; split; [now left|now apply equiv_refl]).
      apply M2 in H as [[] _]. }
    assert (Hab : a = b).
    { assert (Ha : In a (b :: lb)).
      { apply (M2 (key a) a). apply M1. split; [now left|now apply equiv_refl]. }
      assert (Hb : In b (a :: la)).
      { apply (M1 (key b) b). apply M2. split; [now left|now apply equiv_refl]. }
      destruct Ha as [Ha|Ha]; [auto|]. destruct Hb as [Hb|Hb]; [auto|]. exfalso.
      apply In_nth_error in Ha as [i Hi], Hb as [j Hj].
      pose proof (A1 0 (S j) a b (Nat.lt_0_succ _) eq_refl Hj) as H1.
      pose proof (A2 0 (S i) b a (Nat.lt_0_succ _) eq_refl Hi) as H2.
      rewrite (lt_asym _ W _ _ H1) in H2. discriminate. }
    subst b. f_equal.
    assert (D : forall l, ascending key (lt c) (a :: l) -> forall e, In e l ->
      ~ equivalent (lt c) (key a) (key e)).
    { intros l A e He [Hn _]. apply In_nth_error in He as [i Hi].
      pose proof (A 0 (S i) a e (Nat.lt_0_succ _) eq_refl Hi). congruence. }
    assert (T : forall l, ascending key (lt c) (a :: l) -> ascending key (lt c) l).
    { intros l A i j x y Hij Hx Hy. apply (A (S i) (S j) x y); auto. lia. }
    apply (IH lb (fremove lt c m (key a))).
    + split; [now apply T|]. intros k e. unfold fremove.
      destruct (equivb lt c k (key a)) eqn:Ek.
      * apply equivb_true in Ek. split; [discriminate|]. intros [H1 H2]. exfalso.
        apply (D la A1 e H1). apply (swo_equiv _ W) with k; auto. now apply equiv_sym'.
      * apply equivb_false in Ek. rewrite M1. cbn [In]. split; [|tauto].
        intros [[<-|H1] H2]; [contradiction|auto].
    + split; [now apply T|]. intros k e. unfold fremove.
      destruct (equivb lt c k (key a)) eqn:Ek.
      * apply equivb_true in Ek. split; [discriminate|]. intros [H1 H2]. exfalso.
        apply (D lb A2 e H1). apply (swo_equiv _ W) with k; auto. now apply equiv_sym'.
      * apply equivb_false in Ek. rewrite M2. cbn [In]. split; [|tauto].
        intros [[<-|H1] H2]; [contradiction|auto].
Qed.

Lemma equal_maps_fact {E K C CT} (key : E -> K) (lt : C -> K -> K -> bool)
  (cont : container E CT) cap (rep : CT -> list E -> Prop) (eqb : E -> E -> bool) :
  conforms cont cap rep -> (forall c, strict_weak_order (lt c)) ->
  (forall x y, eqb x y = true <-> x = y) ->
  forall (a b : flat C CT) c ma mb,
  holds key lt rep a (c, ma) -> holds key lt rep b (c, mb) ->
  exists r, equal cont eqb a b = Ok r (fcont a, fcont b) /\
    not_equal cont eqb a b = Ok (negb r) (fcont a, fcont b) /\
    (r = true <-> forall k, ma k = mb k).
Proof.
  intros CF W He a b c ma mb (_ & la & Ra & Ea) (_ & lb & Rb & Eb). cbn [fst snd] in *.
  destruct (cf_equal _ _ _ CF eqb _ _ _ _ Ra Rb He) as (r & H1 & H2).
  exists r. unfold not_equal, equal. rewrite H1. split; [reflexivity|]. split; [reflexivity|].
  rewrite H2. split.
  - intros -> k. destruct Ea as [_ Ma], Eb as [_ Mb].
    destruct (ma k) as [x|] eqn:E1.
    + symmetry. apply Mb. now apply Ma.
    + destruct (mb k) as [y|] eqn:E2; [|reflexivity]. apply Mb, Ma in E2. congruence.
  - intros Hk. eapply (enum_unique key lt c (W c)); [exact Ea|].
    eapply enum_same; [exact Eb|]. exact Hk.
Qed.

Lemma bounds_fact :
  forall (E K Q C CT : Type) (key : E -> K) (lt : C -> K -> K -> bool)
    (kq : C -> K -> Q -> bool) (qk : C -> Q -> K -> bool)
    (cont : container E CT) (cap : option nat) (rep : CT -> list E -> Prop),
  conforms cont cap rep ->
  forall c t l q,
  rep t l -> ascending key (lt c) l ->
  (forall a b, lt c a b = true -> kq c b q = true -> kq c a q = true) ->
  (forall a b, lt c a b = true -> qk c q a = true -> qk c q b = true) ->
  (forall a, kq c a q = true -> qk c q a = false) ->
  exists p r,
    lower_bound key kq cont q (mkFlat c t) = Ok p (mkFlat c t) /\
    upper_bound key qk cont q (mkFlat c t) = Ok r (mkFlat c t) /\
    equal_range key kq qk cont q (mkFlat c t) = Ok (p, r) (mkFlat c t) /\
    border (fun e => kq c (key e) q = true) l p /\
    border (fun e => qk c q (key e) = false) l r /\
    p <= r /\
    forall i e, nth_error l i = Some e ->
      (p <= i < r <-> kq c (key e) q = false /\ qk c q (key e) = false).
Proof.
  intros E K Q C CT key lt kq qk cont cap rep CF c t l q R A H1 H2 H3.
  assert (BU : forall (P : E -> Prop) p p', border P l p -> border P l p' -> p = p').
  { intros P p p' (L & B1 & B2) (L' & B1' & B2').
    destruct (lt_eq_lt_dec p p') as [[H|H]|H]; auto; exfalso.
    - destruct (nth_get l p) as [e He]; [lia|]. apply (B2 p e (le_n _) He). eauto.
    - destruct (nth_get l p') as [e He]; [lia|]. apply (B2' p' e (le_n _) He). eauto. }
  destruct (lower_bound_spec key kq cont cap rep CF c t l R q) as (p & Hp & Bp).
  { intros i j a b Hij Ha Hb. apply H1. eapply A; eauto. }
  destruct (upper_bound_spec key qk cont cap rep CF c t l R q) as (r & Hr & Br).
  { intros i j a b Hij Ha Hb. apply H2. eapply A; eauto. }
  destruct (equal_range_spec key kq qk cont cap rep CF c t l R q) as (p' & r' & Hpr & Bp' & Br').
  { intros i j a b Hij Ha Hb. apply H1. eapply A; eauto. }
  { intros i j a b Hij Ha Hb. apply H2. eapply A; eauto. }
  { intros e _. apply H3. }
  assert (p' = p) by (eapply BU; eauto). assert (r' = r) by (eapply BU; eauto). subst p' r'.
  exists p, r. repeat (split; [assumption|]).
  destruct Bp as (Lp & Bp1 & Bp2), Br as (Lr & Br1 & Br2). split.
  - destruct (le_lt_dec p r) as [H|H]; [exact H|exfalso].
    destruct (nth_get l r) as [e He]; [lia|]. apply (Br2 r e (le_n _) He).
    apply H3. now apply (Bp1 r e).
  - intros i e He. split.
    + intros [Hi1 Hi2]. split; [|now apply (Br1 i e)].
      destruct (kq c (key e) q) eqn:X; auto. exfalso. now apply (Bp2 i e).
    + intros [X1 X2]. split.
      * destruct (le_lt_dec p i) as [H|H]; [exact H|]. rewrite (Bp1 i e H He) in X1. discriminate.
      * destruct (le_lt_dec r i) as [H|H]; [|exact H]. exfalso. now apply (Br2 i e H He).
Qed.

Lemma equal_range_one_fact :
  forall (E K Q C CT : Type) (key : E -> K) (lt : C -> K -> K -> bool)
    (kq : C -> K -> Q -> bool) (qk : C -> Q -> K -> bool) (conv : Q -> K)
    (cont : container E CT) (cap : option nat) (rep : CT -> list E -> Prop),
  conforms cont cap rep ->
  forall c t l q,
  strict_weak_order (lt c) ->
  (forall k, kq c k q = lt c k (conv q)) ->
  (forall k, qk c q k = lt c (conv q) k) ->
  rep t l -> ascending key (lt c) l ->
  exists p r,
    equal_range key kq qk cont q (mkFlat c t) = Ok (p, r) (mkFlat c t) /\
    p <= r <= p + 1 /\
    forall i e, nth_error l i = Some e ->
      (p <= i < r <-> equivalent (lt c) (key e) (conv q)).
Proof.
  intros E K Q C CT key lt kq qk conv cont cap rep CF c t l q W Hkq Hqk R A.
  destruct (bounds_fact E K Q C CT key lt kq qk cont cap rep CF c t l q R A)
    as (p & r & _ & _ & Hpr & Bp & Br & Hle & HI).
  { intros a b. rewrite !Hkq. intros X Y. eapply (swo_trans _ W); eauto. }
  { intros a b. rewrite !Hqk. intros X Y. eapply (swo_trans _ W); eauto. }
  { intros a. rewrite Hkq, Hqk. now apply lt_asym. }
  exists p, r. split; [exact Hpr|].
  assert (HI' : forall i e, nth_error l i = Some e ->
      (p <= i < r <-> equivalent (lt c) (key e) (conv q))).
  { intros i e He. rewrite (HI i e He), Hkq, Hqk. reflexivity. }
  split; [|exact HI']. split; [exact Hle|].
  destruct (le_lt_dec r (p + 1)) as [H|H]; [exact H|exfalso].
  assert (Lr : r <= length l) by apply Br.
  destruct (nth_get l p) as [a Ha]; [lia|]. destruct (nth_get l (p + 1)) as [b Hb]; [lia|].
  assert (Ea : equivalent (lt c) (key a) (conv q)) by (apply (HI' p a Ha); lia).
  assert (Eb : equivalent (lt c) (key b) (conv q)) by (apply (HI' (p + 1) b Hb); lia).
  assert (p = p + 1); [|lia]. eapply (asc_unique key lt c l A); eauto.
  apply (swo_equiv _ W) with (conv q); auto. now apply equiv_sym'.
Qed.

Lemma full_map_fact :
  forall (K T C : Type) (lt : C -> K -> K -> bool) (moved : K * T -> K * T)
    (de : K * T) (dflt : T) (Capacity : nat),
  (N.of_nat Capacity < two63)%N ->
  (forall c, strict_weak_order (lt c)) ->
  forall (s : flat C (@sv (K * T))) m e,
  let cont := sv_cont (K * T) moved de Capacity in
  holds fst lt (fun t l => represents Capacity t l /\ fuse t = None) s (fcmp s, m) ->
  StaticVectorModel.size (fcont s) = Capacity ->
  match m (fst e) with
  | None =>
      insert fst lt lt cont (fst e) e s = Throw OutOfRange s /\
      index lt lt cont (fun k => k) dflt (fst e) s = Throw OutOfRange s
  | Some old =>
      (exists p, insert fst lt lt cont (fst e) e s = Ok (p, false) s /\
        elem cont p s = Ok old s) /\
      (exists p, index lt lt cont (fun k => k) dflt (fst e) s = Ok p s /\
        elem cont p s = Ok old s)
  end.
Proof.
  intros K T C lt moved de dflt Capacity Hcap W [c t] m e cont (_ & l & R & EN) Hfull.
  cbn [fcmp fcont fst snd] in *.
  pose proof (sv_conforms (K * T) moved de Capacity Hcap) as CF. fold cont in CF.
  destruct (lookup_fact fst lt lt lt cont (Some Capacity) _ CF (fun k => k) c (W c)
     (fun _ _ => eq_refl) (fun _ _ => eq_refl) t l m R EN (fst e)) as (p & Hp & Hb & Hle & Hm).
  destruct (m (fst e)) as [old|] eqn:Em.
  - destruct Hm as (He & Hk & Hpr).
    assert (HE : elem cont p (mkFlat c t) = Ok old (mkFlat c t)) by (eapply elem_spec; eauto).
    split; exists p; (split; [|exact HE]).
    + unfold insert. erewrite bind_ok by exact Hp. erewrite bind_ok by exact Hpr. reflexivity.
    + unfold index. erewrite bind_ok by exact Hp. erewrite bind_ok by exact Hpr. reflexivity.
  - assert (Hl : length l = Capacity).
    { destruct R as [(_ & H & _) _]. congruence. }
    assert (Hf : fits (Some Capacity) (length l + 1) = false).
    { cbn. apply Nat.leb_gt. lia. }
    assert (HT : forall x, emplace_at cont p x (mkFlat c t) = Throw OutOfRange (mkFlat c t)).
    { intros x. destruct (emplace_full cont _ _ CF c t l R p x Hle Hf) as (t' & Ht & Hr).
      rewrite Ht. do 2 f_equal. eapply (sv_unique _ Capacity Hcap); eauto. }
    split.
    + unfold insert. erewrite bind_ok by exact Hp. erewrite bind_ok by exact Hm.
      cbv iota. erewrite bind_throw by apply HT. reflexivity.
    + unfold index. erewrite bind_ok by exact Hp. erewrite bind_ok by exact Hm. apply HT.
Qed.

(** Insertion sort, for the example of a conforming sort. *)
Lemma isort_sorts {E}
  (isert : (E -> E -> bool) -> E -> list E -> list E)
  (isort : (E -> E -> bool) -> list E -> list E) :
  (forall lt x, isert lt x [] = [x]) ->
  (forall lt x y l, isert lt x (y :: l) = if lt y x then y :: isert lt x l else x :: y :: l) ->
  (forall lt l, isort lt l = fold_right (isert lt) [] l) ->
  sorts isort.
Proof.
  intros I0 I1 S0 lt l W. rewrite S0. clear S0.
  assert (P : forall x l, Permutation (x :: l) (isert lt x l)).
  { intros x. induction l0 as [|y l0 IH].
    - rewrite I0. apply Permutation_refl.
    - rewrite I1. destruct (lt y x); [|apply Permutation_refl].
      eapply Permutation_trans; [apply perm_swap|]. now constructor. }
  assert (D : forall x l,
    (forall i j a b, i < j -> nth_error l i = Some a -> nth_error l j = Some b -> lt b a = false) ->
    forall i j a b, i < j -> nth_error (isert lt x l) i = Some a ->
      nth_error (isert lt x l) j = Some b -> lt b a = false).
  { intros x. induction l0 as [|y l0 IH]; intros So i j a b Hij Ha Hb.
    - rewrite I0 in *. destruct i, j; try lia; destruct j; discriminate.
    - rewrite I1 in *. destruct (lt y x) eqn:Hyx.
      + destruct j as [|j]; [lia|]. cbn in Hb. destruct i as [|i]; cbn in Ha.
        * injection Ha as <-. apply nth_error_In in Hb.
          apply (Permutation_in _ (Permutation_sym (P x l0))) in Hb as [<-|Hb].
          -- now apply (lt_asym _ W).
          -- apply In_nth_error in Hb as [n Hn]. apply (So 0 (S n) y b); auto with arith.
        * apply (IH (fun i j a b Hij Ha Hb =>
            So (S i) (S j) a b (proj1 (Nat.succ_lt_mono i j) Hij) Ha Hb) i j a b); auto with arith.
      + destruct j as [|j]; [lia|]. cbn in Hb. destruct i as [|i]; cbn in Ha.
        * injection Ha as <-. destruct j as [|j]; cbn in Hb.
          -- now injection Hb as <-.
          -- apply (nlt_trans _ W) with y; [|exact Hyx].
             apply (So 0 (S j) y b); auto with arith.
        * apply (So i j a b); auto with arith. }
  induction l as [|x l IH]; cbn [fold_right].
  - split; [constructor|]. intros i j a b _ H. destruct i; discriminate.
  - destruct IH as [IH1 IH2]. split.
    + eapply Permutation_trans; [|apply P]. now constructor.
    + intros i j a b Hij. now apply D.
Qed.
