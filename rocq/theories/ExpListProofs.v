(** Proofs about ExpListModel.v. *)
From Coq Require Import List Arith Bool Lia.
From Verif Require Import Base ExpListModel ExpListSpec.
Import ListNotations.

Section ExpList.
Context {D E : Type}.
Variable tv : bool.
Notation st := (st D E).
Notation ex := (ex D E).
Notation chain := (chain D E).
Notation inb y l := (in_dec Nat.eq_dec y l).

Definition ok_error (e : option E) : Prop := if tv then e = None else e <> None.

(** The expected at a is the chain c, whose expecteds are at the addresses l. *)
Inductive lst (s : st) : nat -> chain -> list nat -> Prop :=
| lst_bad a e : heap s a = Some (mkEx None e false) -> ok_error e -> lst s a (Bad e) [a]
| lst_last a d : heap s a = Some (mkEx (Some (d, None)) None true) -> lst s a (Last d) [a]
| lst_more a d b c l :
    heap s a = Some (mkEx (Some (d, Some b)) None true) -> lst s b c l -> lst s a (More d c) (a :: l).

Lemma lst_head s a c l : lst s a c l -> exists l', l = a :: l'.
Proof. inversion 1; eauto. Qed.

Lemma lst_frame s s' a c l : lst s a c l -> (forall y, In y l -> heap s' y = heap s y) -> lst s' a c l.
Proof.
  induction 1 as [a e Ha K|a d Ha|a d b c l Ha H IH]; intros F.
  - apply lst_bad; auto. rewrite F; cbn; auto.
  - apply lst_last. rewrite F; cbn; auto.
  - apply lst_more with b; [rewrite F; cbn; auto|]. apply IH. intros y Hy. apply F. now right.
Qed.

Lemma lst_live s a c l : lst s a c l -> forall y, In y l -> heap s y <> None.
Proof.
  induction 1 as [a e Ha K|a d Ha|a d b c l Ha H IH]; cbn; intros y Hy.
  - destruct Hy as [<-|[]]. congruence.
  - destruct Hy as [<-|[]]. congruence.
  - destruct Hy as [<-|Hy]; [congruence|auto].
Qed.

Lemma lst_split s a c l j u :
  lst s a c l -> sub c j = Some u ->
  exists pre b sb, l = pre ++ b :: sb /\ length pre = j /\ lst s b u (b :: sb) /\ walk a j s = Ok b s /\
    (forall s' u' sb', (forall y, In y pre -> heap s' y = heap s y) -> lst s' b u' (b :: sb') ->
       lst s' a (swap_in c j u') (pre ++ b :: sb')).
Proof.
  intros H. revert a l H j u. induction c as [e|d|d c IH]; intros a l H j u Hu.
  - destruct j; [|discriminate]. injection Hu as <-. destruct (lst_head _ _ _ _ H) as (l' & ->).
    exists [], a, l'. cbn. repeat split; auto.
  - destruct j; [|discriminate]. injection Hu as <-. destruct (lst_head _ _ _ _ H) as (l' & ->).
    exists [], a, l'. cbn. repeat split; auto.
  - destruct j as [|j].
    + injection Hu as <-. destruct (lst_head _ _ _ _ H) as (l' & ->).
      exists [], a, l'. cbn. repeat split; auto.
    + inversion H as [| |a1 d1 b c1 l1 Ha Hb]; subst. cbn in Hu.
      destruct (IH b l1 Hb j u Hu) as (pre & b' & sb & -> & L & K & W & R).
      exists (a :: pre), b', sb. cbn [app length]. split; [reflexivity|]. split; [lia|]. split; [exact K|]. split.
      * cbn [walk]. unfold bind, get_has, get_value, bind, getx. rewrite Ha. cbn. rewrite Ha. cbn. exact W.
      * intros s' u' sb' F K'. cbn [swap_in]. apply lst_more with b.
        -- rewrite F; [exact Ha|now left].
        -- apply R; auto. intros y Hy. apply F. now right.
Qed.

Ltac rn := rewrite ?Nat.eqb_refl.
Ltac eqs := repeat match goal with |- context [?x =? ?y] => destruct (Nat.eqb_spec x y) end.
Ltac go :=
  repeat progress (cbn -[delete in_dec drop_value]; rewrite ?Nat.eqb_refl;
    repeat match goal with
      | H : heap ?s ?a = Some _ |- context [heap ?s ?a] => rewrite H
      | H : (?a =? ?b) = false |- context [?a =? ?b] => rewrite H
      end).
Ltac open_ops :=
  unfold bind, drop_error, drop_value, take, set_has, set_value, set_error, new_value, new_error, get_has, get_value,
    get_error, bind, getx, putx, gone, make, ret.

Lemma delete_ok c : forall n s a l,
  lst s a c l -> NoDup l -> length l <= n ->
  exists s', delete tv n (Some a) s = Ok tt s' /\ fresh s' = fresh s /\
    forall y, heap s' y = if inb y l then None else heap s y.
Proof.
  induction c as [e|d|d c IH]; intros [|n] s a l H ND Ln; try (inversion H; subst; cbn in Ln; lia).
  - inversion H as [a1 e1 Ha K| |]; subst. cbn [delete]. unfold ok_error in K. destruct tv.
    + open_ops. go. eexists. split; [reflexivity|]. split; [reflexivity|].
      intros y. cbn. eqs; subst; destruct (Nat.eq_dec _ _); subst; congruence.
    + destruct e as [e|]; [|congruence]. open_ops. go. eexists. split; [reflexivity|].
      split; [reflexivity|]. intros y. cbn. eqs; subst; destruct (Nat.eq_dec _ _); subst; congruence.
  - inversion H as [|a1 d1 Ha|]; subst. cbn [delete]. open_ops. go.
    destruct n; cbn [delete]; unfold ret; go; (eexists; split; [reflexivity|]; split; [reflexivity|]);
    intros y; cbn; eqs; subst; destruct (Nat.eq_dec _ _); subst; congruence.
  - inversion H as [| |a1 d1 b c1 l1 Ha Hb]; subst. inversion ND as [|x xs Na ND']; subst. cbn [length] in Ln.
    destruct (IH n s b l1 Hb ND') as (s1 & E1 & F1 & H1); [lia|].
    cbn [delete]. open_ops. go. rewrite E1.
    assert (heap s1 a = Some (mkEx (Some (d, Some b)) None true)) as Ha1 by (rewrite H1; destruct (inb a l1); congruence).
    go. eexists. split; [reflexivity|]. split; [exact F1|].
    intros y. cbn -[in_dec]. destruct (inb y (a :: l1)) as [I|I]; cbn in I.
    + eqs; [reflexivity|]. rewrite H1. destruct (inb y l1); [reflexivity|]. exfalso. destruct I; congruence.
    + eqs; [exfalso; intuition congruence|]. rewrite H1. destruct (inb y l1); [exfalso; intuition|reflexivity].
Qed.

(** The pointer of a value *)
Lemma delete_next n s s1 a c sa x :
  lst s a c (a :: sa) -> NoDup (a :: sa) -> length sa <= n -> heap s a = Some x ->
  (forall y, In y sa -> heap s1 y = heap s y) -> has x = true ->
  exists v, value x = Some v /\ error x = None /\
  exists s2, delete tv n (snd v) s1 = Ok tt s2 /\ fresh s2 = fresh s1 /\
    forall y, heap s2 y = if inb y sa then None else heap s1 y.
Proof.
  intros H ND Ln Hx F T. inversion ND as [|x0 xs Na ND']; subst.
  inversion H as [a1 e Ha K|a1 d Ha|a1 d b c1 l1 Ha Hb]; subst; rewrite Ha in Hx; injection Hx as <-; [discriminate T| |].
  - exists (d, None). split; [reflexivity|]. split; [reflexivity|]. exists s1. destruct n; auto.
  - exists (d, Some b). split; [reflexivity|]. split; [reflexivity|].
    apply (delete_ok c1); auto. eapply lst_frame; eauto.
Qed.

Definition husk_cell (x : ex) : ex := mkEx (option_map (fun v => (fst v, None)) (value x)) (error x) (has x).
Lemma lst_husk s s' b u sb :
  lst s b u (b :: sb) -> heap s' b = option_map husk_cell (heap s b) -> lst s' b (husk u) [b].
Proof.
  inversion 1 as [a1 e Ha K|a1 d Ha|a1 d b1 c1 l1 Ha Hb]; subst; rewrite Ha; cbn; intros R.
  - now apply lst_bad.
  - now apply lst_last.
  - now apply lst_last.
Qed.

Lemma drop_value_ok n s s1 a c sa x x1 :
  lst s a c (a :: sa) -> NoDup (a :: sa) -> length sa <= n -> heap s a = Some x -> has x = true ->
  (forall y, In y sa -> heap s1 y = heap s y) -> heap s1 a = Some x1 -> value x1 = value x -> 
  exists s2, drop_value tv n a s1 = Ok tt s2 /\ fresh s2 = fresh s1 /\
    forall y, heap s2 y = if y =? a then Some (mkEx None (error x1) (has x1)) else if inb y sa then None else heap s1 y.
Proof.
  intros H ND Ln Hx T F Hx1 V1. inversion ND as [|x0 xs Na ND']; subst.
  destruct (delete_next n s s1 a c sa x H ND Ln Hx F T) as (v & Ev & _ & s2 & E2 & F2 & H2).
  unfold drop_value, get_value, bind, getx, putx, ret. rewrite Hx1, V1, Ev, E2.
  assert (heap s2 a = Some x1) as Ha2 by (rewrite H2; destruct (inb a sa); congruence).
  go. eexists. split; [reflexivity|]. split; [exact F2|]. intros y. cbn -[in_dec]. eqs; auto.
Qed.

(** What a value, or no value, says about the cell *)
Lemma lst_cell s a c l : lst s a c l ->
  exists x, heap s a = Some x /\ has x = is_value c /\
    (has x = false -> value x = None /\ l = [a] /\ ok_error (error x)) /\
    (has x = true -> error x = None /\ exists v, value x = Some v).
Proof.
  inversion 1 as [a1 e Ha K|a1 d Ha|a1 d b1 c1 l1 Ha Hb]; subst; rewrite Ha; eexists; (split; [reflexivity|]);
  cbn; repeat split; auto; try discriminate; eauto.
Qed.

Lemma ex_eta (x : ex) : mkEx (value x) (error x) (has x) = x.
Proof. now destruct x. Qed.

Lemma assign_apart n s a c sa b u sb :
  lst s a c (a :: sa) -> lst s b u (b :: sb) -> NoDup (a :: sa) -> a <> b -> ~ In b sa -> length sa <= n ->
  exists s', assign tv n a b s = Ok tt s' /\ fresh s' = fresh s /\
    forall y, heap s' y =
      if y =? a then heap s b
      else if y =? b then option_map husk_cell (heap s b)
      else if inb y sa then None else heap s y.
Proof.
  intros H K ND Nab Nb Ln. inversion ND as [|x0 xs Na ND']; subst.
  destruct (lst_cell _ _ _ _ H) as (x & Hx & _ & X0 & X1).
  destruct (lst_cell _ _ _ _ K) as (z & Hz & _ & Z0 & Z1).
  assert ((b =? a) = false) as Q1 by (apply Nat.eqb_neq; congruence).
  assert ((a =? b) = false) as Q2 by (apply Nat.eqb_neq; congruence).
  destruct (has x) eqn:Tx, (has z) eqn:Tz.
  - (* node_assign *)
    destruct X1 as (Ex & v & Vx); auto. destruct Z1 as (Ez & w & Vz); auto.
    destruct x as [xv xe xh], z as [zv ze zh]. cbn in *. subst.
    set (s1 := set_heap a (Some (mkEx (Some w) None true)) (set_heap b (Some (mkEx (Some (fst w, None)) None true)) (set_heap a (Some (mkEx (Some (fst w, snd v)) None true)) s))).
    destruct (delete_next n s s1 a c sa _ H ND Ln Hx) as (v' & Ev & _ & s2 & E2 & F2 & H2).
    { intros y Hy. unfold s1. cbn. eqs; subst; tauto. } { reflexivity. }
    cbn in Ev. injection Ev as <-.
    assert (node_assign tv n a b s = Ok tt s2) as EQ.
    { unfold node_assign. open_ops. go. destruct w. exact E2. }
    exists s2. split; [|split].
    + unfold assign, tv_assign, te_assign, bind, get_has, bind, getx, ret. destruct tv; rewrite Hx; cbn; rewrite Hz; cbn; exact EQ.
    + exact F2.
    + intros y. rewrite H2. unfold s1. cbn -[in_dec]. rewrite Hz. cbn -[in_dec]. unfold husk_cell. cbn -[in_dec].
      destruct (inb y sa) as [I|I]; eqs; subst; try congruence; try tauto.
  - (* destroyed, and the error *)
    destruct X1 as (Ex & v & Vx); auto. destruct Z0 as (Vz & Sb & Ez); auto.
    set (s1 := set_heap a (Some (mkEx (value x) (error x) false)) s).
    destruct (drop_value_ok n s s1 a c sa x (mkEx (value x) (error x) false)) as (s2 & E2 & F2 & H2); auto.
    { intros y Hy. unfold s1. cbn. eqs; subst; tauto. } { unfold s1. cbn. now rn. }
    assert (forall s3, s2 = s3 -> heap s3 a = Some (mkEx None None false)) as Ha2.
    { intros s3 <-. rewrite H2. rn. cbn. now rewrite Ex. }
    assert (heap s2 b = Some z) as Hb2.
    { rewrite H2, Q1. destruct (inb b sa); [tauto|]. unfold s1. cbn. now rewrite Q1. }
    unfold assign, ok_error in *. destruct tv.
    + exists s2. split; [|split; [exact F2|]].
      * unfold tv_assign. unfold bind, get_has, set_has, bind, getx, putx, ret. go. rewrite Tx, Tz. go. unfold s1 in E2. rewrite E2. reflexivity.
      * intros y. rewrite H2. cbn -[in_dec]. rewrite Hz, Ex. unfold s1. cbn -[in_dec]. unfold husk_cell. rewrite Vz. cbn -[in_dec].
        eqs; subst; try tauto; destruct z; cbn in *; subst; try reflexivity. destruct (inb b sa); [tauto|exact Hz].
    + destruct (error z) as [e|] eqn:Ee; [|congruence].
      exists (set_heap a (Some (mkEx None (Some e) false)) s2). split; [|split; [exact F2|]].
      * unfold te_assign. specialize (Ha2 s2 eq_refl).
        unfold bind, get_has, set_has, new_error, get_error, bind, getx, putx, ret. go. rewrite Tx, Tz. go. unfold s1 in E2. rewrite E2. go.
        rewrite Ee. go. reflexivity.
      * intros y. cbn -[in_dec]. rewrite H2. rewrite Hz. unfold s1. cbn -[in_dec]. unfold husk_cell. rewrite Vz. cbn -[in_dec].
        eqs; subst; try tauto; destruct z; cbn in *; subst; try reflexivity. destruct (inb b sa); [tauto|exact Hz].
  - (* the error destroyed, and a value *)
    destruct X0 as (Vx & Sa & Ex); auto. destruct Z1 as (Ez & w & Vz); auto. injection Sa as ->.
    destruct x as [xv xe xh], z as [zv ze zh]. cbn in *. subst. unfold assign, ok_error in *. destruct tv.
    + subst. eexists. split; [|split].
      * unfold tv_assign. open_ops. go. reflexivity.
      * reflexivity.
      * intros y. cbn. rewrite Hz. unfold husk_cell. cbn. eqs; subst; first [reflexivity | assumption | congruence].
    + destruct xe as [e|]; [|congruence]. eexists. split; [|split].
      * unfold te_assign. open_ops. go. reflexivity.
      * reflexivity.
      * intros y. cbn. rewrite Hz. unfold husk_cell. cbn. eqs; subst; first [reflexivity | assumption | congruence].
  - (* errors *)
    destruct X0 as (Vx & Sa & Ex); auto. destruct Z0 as (Vz & Sb & Ez); auto. injection Sa as ->. injection Sb as ->.
    destruct x as [xv xe xh], z as [zv ze zh]. cbn in *. subst. unfold assign, ok_error in *. destruct tv.
    + subst. exists s. split; [|split; [reflexivity|]].
      * unfold tv_assign. open_ops. go. reflexivity.
      * intros y. rewrite Hz. unfold husk_cell. cbn. eqs; subst; first [reflexivity | assumption | congruence].
    + destruct xe as [e|]; [|congruence]. destruct ze as [e'|]; [|congruence]. eexists. split; [|split].
      * unfold te_assign. open_ops. go. reflexivity.
      * reflexivity.
      * intros y. cbn. rewrite Hz. unfold husk_cell. cbn. eqs; subst; first [reflexivity | assumption | congruence].
Qed.

Lemma assign_same n s a c sa :
  lst s a c (a :: sa) ->
  exists s', assign tv n a a s = Ok tt s' /\ fresh s' = fresh s /\ forall y, heap s' y = heap s y.
Proof.
  intros H. destruct (lst_cell _ _ _ _ H) as (x & Hx & _ & X0 & X1). destruct x as [xv xe xh]. cbn in *. destruct xh.
  - destruct X1 as (Ex & v & Vx); auto. subst.
    assert (exists s', node_assign tv n a a s = Ok tt s' /\ fresh s' = fresh s /\ forall y, heap s' y = heap s y) as (s' & E1 & F1 & H1).
    { destruct v as [d p]. eexists. split; [|split].
      - unfold node_assign. open_ops. go. destruct n; reflexivity.
      - reflexivity.
      - intros y. cbn. eqs; subst; [|reflexivity]. symmetry. exact Hx. }
    exists s'. split; auto. unfold assign, tv_assign, te_assign, bind, get_has, bind, getx, ret. destruct tv; go; exact E1.
  - destruct X0 as (Vx & Sa & Ex); auto. subst. unfold assign, ok_error in *. destruct tv.
    + exists s. split; auto. unfold tv_assign. open_ops. go. reflexivity.
    + destruct xe as [e|]; [|congruence]. eexists. split; [|split].
      * unfold te_assign. open_ops. go. reflexivity.
      * reflexivity.
      * intros y. cbn. eqs; subst; [|reflexivity]. symmetry. exact Hx.
Qed.

Lemma NoDup_mid {A} (l : list A) x r : NoDup (l ++ x :: r) -> NoDup (l ++ [x]) /\ (forall y, In y (l ++ [x]) -> ~ In y r).
Proof.
  intros H. assert (l ++ x :: r = (l ++ [x]) ++ r) as Q by (rewrite <- app_assoc; reflexivity). rewrite Q in H. clear Q.
  set (k := l ++ [x]) in *. clearbody k. clear l x. induction k as [|z k IH]; cbn in *.
  - split; [constructor|tauto].
  - inversion H as [|z1 k1 Nz ND]; subst. destruct (IH ND) as [I1 I2]. split.
    + constructor; auto. intros I. apply Nz. apply in_or_app. now left.
    + intros y [<-|I]; auto. intros J. apply Nz. apply in_or_app. now right.
Qed.

(** From an expected which is inside of what this one holds *)
Lemma assign_inside n s a d b0 c0 sa j u b mid sb :
  heap s a = Some (mkEx (Some (d, Some b0)) None true) -> lst s b0 c0 sa -> NoDup (a :: sa) -> length sa <= n ->
  sub c0 j = Some u -> sa = mid ++ b :: sb -> length mid = j -> lst s b u (b :: sb) ->
  (forall s' u' sb', (forall y, In y mid -> heap s' y = heap s y) -> lst s' b u' (b :: sb') ->
     lst s' b0 (swap_in c0 j u') (mid ++ b :: sb')) ->
  (tv = true \/ is_value u = true) ->
  exists s', assign tv n a b s = Ok tt s' /\ fresh s' = fresh s /\
    forall y, heap s' y = if y =? a then heap s b else if inb y (mid ++ [b]) then None else heap s y.
Proof.
  intros Hx Hb0 ND Ln Su -> Lm K R T. inversion ND as [|x0 xs Na ND']; subst x0 xs.
  destruct (NoDup_mid _ _ _ ND') as [NDm Dm].
  assert (In b (mid ++ b :: sb)) as Ib by (apply in_or_app; right; now left).
  assert (a <> b) as Nab by (intros ->; auto).
  assert ((b =? a) = false) as Q1 by (apply Nat.eqb_neq; congruence).
  assert ((a =? b) = false) as Q2 by (apply Nat.eqb_neq; congruence).
  assert (~ In a (mid ++ [b])) as Na'.
  { intros I. apply Na. apply in_app_or in I. apply in_or_app. destruct I as [I|[<-|[]]]; [now left|right; now left]. }
  destruct (lst_cell _ _ _ _ K) as (z & Hz & Tz & Z0 & Z1). destruct (has z) eqn:Hh.
  - destruct Z1 as (Ez & w & Vz); auto. destruct z as [zv ze zh]. cbn in *. subst.
    set (s1 := set_heap a (Some (mkEx (Some w) None true)) (set_heap b (Some (mkEx (Some (fst w, None)) None true)) (set_heap a (Some (mkEx (Some (fst w, Some b0)) None true)) s))).
    assert (lst s1 b0 (swap_in c0 (length mid) (husk u)) (mid ++ [b])) as K1.
    { apply R.
      - intros y Hy. unfold s1. cbn. eqs; subst; auto.
        + exfalso. apply Na. apply in_or_app. now left.
        + exfalso. apply (NoDup_remove_2 _ _ _ ND'). apply in_or_app. now left.
      - apply (lst_husk s s1 b u sb K). unfold s1. cbn. rewrite Q1. rn. rewrite Hz. reflexivity. }
    destruct (delete_ok _ n s1 b0 _ K1 NDm) as (s2 & E2 & F2 & H2).
    { rewrite !app_length in *. cbn in *. lia. }
    exists s2. split; [|split; [exact F2|]].
    + assert (node_assign tv n a b s = Ok tt s2) as EQ.
      { unfold node_assign. open_ops. go. destruct w. exact E2. }
      unfold assign, tv_assign, te_assign, bind, get_has, bind, getx, ret. destruct tv; go; exact EQ.
    + intros y. rewrite H2. unfold s1. cbn -[in_dec]. destruct (inb y (mid ++ [b])) as [I|I]; eqs; subst; try tauto; try congruence.
      exfalso. apply I. apply in_or_app. right. now left.
  - destruct Z0 as (Vz & Sb & Ez); auto. injection Sb as ->. destruct T as [T|T]; [|congruence].
    assert (lst s a (More d c0) (a :: mid ++ [b])) as H by (now apply lst_more with b0).
    set (s1 := set_heap a (Some (mkEx (Some (d, Some b0)) None false)) s).
    destruct (drop_value_ok n s s1 a (More d c0) (mid ++ [b]) (mkEx (Some (d, Some b0)) None true) (mkEx (Some (d, Some b0)) None false))
      as (s2 & E2 & F2 & H2); auto.
    { intros y Hy. unfold s1. cbn. eqs; subst; tauto. } { unfold s1. cbn. now rn. }
    exists s2. split; [|split; [exact F2|]].
    + unfold assign, ok_error in *. destruct tv; [|discriminate].
      unfold tv_assign, bind, get_has, set_has, bind, getx, putx, ret. go. rewrite Hh. go. unfold s1 in E2. rewrite E2. reflexivity.
    + intros y. rewrite H2. unfold s1. cbn -[in_dec]. unfold ok_error in Ez. rewrite T in Ez. rewrite Hz. destruct z; cbn in *. subst.
      eqs; reflexivity.
Qed.

(** expected<T, E>, from an error inside: it is gone before it is read. *)
Lemma assign_inside_error n s a c sa b e :
  tv = false -> lst s a c (a :: sa) -> NoDup (a :: sa) -> length sa <= n -> In b sa -> lst s b (Bad e) [b] ->
  assign tv n a b s = UB.
Proof.
  intros T H ND Ln Ib K. inversion ND as [|x0 xs Na ND']; subst x0 xs.
  destruct (lst_cell _ _ _ _ H) as (x & Hx & _ & X0 & X1). inversion K as [a1 e1 Hz Oe| |]; subst.
  assert ((b =? a) = false) as Q1 by (apply Nat.eqb_neq; congruence).
  destruct (has x) eqn:Tx; [|destruct X0 as (_ & Sa & _); auto; injection Sa as ->; destruct Ib].
  set (s1 := set_heap a (Some (mkEx (value x) (error x) false)) s).
  destruct (drop_value_ok n s s1 a c sa x (mkEx (value x) (error x) false)) as (s2 & E2 & F2 & H2); auto.
  { intros y Hy. unfold s1. cbn. eqs; subst; tauto. } { unfold s1. cbn. now rn. }
  assert (heap s2 b = None) as Hb2 by (rewrite H2, Q1; destruct (inb b sa); tauto).
  unfold assign in *. rewrite T in *. unfold te_assign, bind, get_has, set_has, get_error, bind, getx, putx, ret. go. rewrite Tx. go.
  unfold s1 in E2. rewrite E2. rewrite Hb2. reflexivity.
Qed.

Lemma clear_ok n s a c sa :
  tv = true -> lst s a c (a :: sa) -> NoDup (a :: sa) -> length sa <= n ->
  exists s', clear tv n a s = Ok tt s' /\ fresh s' = fresh s /\
    forall y, heap s' y = if y =? a then Some (mkEx None None false) else if inb y sa then None else heap s y.
Proof.
  intros T H ND Ln. destruct (lst_cell _ _ _ _ H) as (x & Hx & _ & X0 & X1).
  unfold clear, bind, get_has, set_has, bind, getx, putx, ret. go. destruct (has x) eqn:Tx; go.
  - destruct X1 as (Ex & v & Vx); auto.
    destruct (drop_value_ok n s s a c sa x x) as (s2 & E2 & F2 & H2); auto. rewrite E2.
    assert (heap s2 a = Some (mkEx None (error x) (has x))) as Ha2 by (rewrite H2; now rn).
    go. rewrite Ex. eexists. split; [reflexivity|]. split; [exact F2|]. intros y. cbn -[in_dec]. destruct (Nat.eqb_spec y a); [reflexivity|].
    rewrite H2. eqs; [congruence|reflexivity].
  - destruct X0 as (Vx & Sa & Ex); auto. injection Sa as ->. exists s. split; [reflexivity|]. split; [reflexivity|].
    intros y. unfold ok_error in Ex. rewrite T in Ex. destruct x; cbn in *; subst. eqs; subst; auto.
Qed.

Lemma emplace_ok n s a c sa d :
  tv = true -> lst s a c (a :: sa) -> NoDup (a :: sa) -> length sa <= n ->
  exists s', emplace tv n a d s = Ok tt s' /\ fresh s' = fresh s /\
    forall y, heap s' y = if y =? a then Some (mkEx (Some (d, None)) None true) else if inb y sa then None else heap s y.
Proof.
  intros T H ND Ln. destruct (clear_ok n s a c sa T H ND Ln) as (s1 & E1 & F1 & H1).
  assert (heap s1 a = Some (mkEx None None false)) as Ha by (rewrite H1; now rn).
  eexists. split; [|split].
  - unfold emplace, bind. rewrite E1. open_ops. go. reflexivity.
  - exact F1.
  - intros y. cbn -[in_dec]. rewrite H1. eqs; reflexivity.
Qed.

Lemma emplace_from_ok n s a c sa b u sb :
  tv = true -> lst s a c (a :: sa) -> lst s b u (b :: sb) -> is_value u = true -> NoDup (a :: sa) -> a <> b -> ~ In b sa ->
  length sa <= n ->
  exists s', emplace_from tv n a b s = Ok tt s' /\ fresh s' = fresh s /\
    forall y, heap s' y =
      if y =? a then heap s b
      else if y =? b then option_map husk_cell (heap s b)
      else if inb y sa then None else heap s y.
Proof.
  intros T H K V ND Nab Nb Ln. destruct (clear_ok n s a c sa T H ND Ln) as (s1 & E1 & F1 & H1).
  destruct (lst_cell _ _ _ _ K) as (z & Hz & Tz & Z0 & Z1). rewrite V in Tz. destruct Z1 as (Ez & w & Vz); auto.
  destruct z as [zv ze zh]. cbn in *. subst.
  assert (heap s1 a = Some (mkEx None None false)) as Ha by (rewrite H1; now rn).
  assert ((b =? a) = false) as Q1 by (apply Nat.eqb_neq; congruence).
  assert ((a =? b) = false) as Q2 by (apply Nat.eqb_neq; congruence).
  assert (heap s1 b = Some (mkEx (Some w) None true)) as Hb by (rewrite H1, Q1; destruct (inb b sa); tauto).
  eexists. split; [|split].
  - unfold emplace_from, bind. rewrite E1. open_ops. go. reflexivity.
  - exact F1.
  - intros y. cbn -[in_dec]. rewrite Hz. unfold husk_cell. cbn -[in_dec]. destruct (Nat.eqb_spec y a); [reflexivity|].
    destruct (Nat.eqb_spec y b); [reflexivity|]. rewrite H1. eqs; [congruence|reflexivity].
Qed.

(** emplace with its own value, or one inside: gone before it is read *)
Lemma emplace_from_inside n s a c sa b :
  tv = true -> lst s a c (a :: sa) -> NoDup (a :: sa) -> length sa <= n -> In b (a :: sa) ->
  emplace_from tv n a b s = UB.
Proof.
  intros T H ND Ln Ib. destruct (clear_ok n s a c sa T H ND Ln) as (s1 & E1 & F1 & H1).
  unfold emplace_from, bind. rewrite E1. open_ops. destruct (heap s1 b) as [z|] eqn:Hb; [|reflexivity].
  rewrite H1 in Hb. destruct (Nat.eqb_spec b a); [injection Hb as <-; reflexivity|].
  destruct (inb b sa); [discriminate|]. destruct Ib; congruence.
Qed.

(** x = a temporary *)
Lemma assign_temporary_ok n s a c sa x u l :
  lst s a c (a :: sa) -> NoDup (a :: sa) -> length sa <= n -> 1 <= n -> (forall y, In y (a :: sa) -> y < fresh s) ->
  lst (mkSt (fun y => if y =? fresh s then Some x else heap s y) (S (fresh s))) (fresh s) u l ->
  exists s', assign_temporary tv n a x s = Ok tt s' /\ fresh s' = S (fresh s) /\
    forall y, heap s' y = if y =? a then Some x else if y =? fresh s then None else if inb y sa then None else heap s y.
Proof.
  intros H ND Ln Ln1 Fr K. set (t := fresh s) in *.
  set (s1 := mkSt (fun y => if y =? t then Some x else heap s y) (S t)) in *.
  assert (a <> t) as Nat by (intros ->; specialize (Fr t (or_introl eq_refl)); lia).
  assert (~ In t sa) as Nt by (intros I; specialize (Fr t (or_intror I)); lia).
  assert (lst s1 a c (a :: sa)) as H1.
  { eapply lst_frame; [exact H|]. intros y Hy. unfold s1. cbn. eqs; auto. subst. specialize (Fr _ Hy). unfold t in *. lia. }
  destruct (lst_head _ _ _ _ K) as (l' & ->).
  destruct (assign_apart n s1 a c sa t u l' H1 K ND Nat Nt Ln) as (s2 & E2 & F2 & H2).
  assert (heap s1 t = Some x) as Ht by (unfold s1; cbn; now rn).
  assert (lst s2 t (husk u) [t]) as K2.
  { apply (lst_husk s1 s2 t u l' K). rewrite H2. destruct (Nat.eqb_spec t a); [congruence|]. now rn. }
  destruct (delete_ok _ n s2 t [t] K2) as (s3 & E3 & F3 & H3).
  { constructor; [intros []|constructor]. } { cbn. lia. }
  exists s3. split; [|split].
  - unfold assign_temporary, bind, make. fold t. fold s1. rewrite E2. exact E3.
  - rewrite F3, F2. reflexivity.
  - intros y. rewrite H3, H2. unfold s1. cbn -[in_dec]. rn. cbn -[in_dec].
    destruct (inb y [t]) as [[->|[]]|I].
    + destruct (Nat.eqb_spec y a); [congruence|]. now rn.
    + cbn in I. destruct (Nat.eqb_spec y a); [reflexivity|]. destruct (Nat.eqb_spec y t); [subst; tauto|reflexivity].
Qed.

(** One more, with what was in a *)
Lemma make_moved_ok s a c sa :
  lst s a c (a :: sa) -> a < fresh s ->
  exists s', make_moved tv a s = Ok (fresh s) s' /\ fresh s' = S (fresh s) /\
    forall y, heap s' y = if y =? fresh s then heap s a else if y =? a then option_map husk_cell (heap s a) else heap s y.
Proof.
  intros H Fr. destruct (lst_cell _ _ _ _ H) as (x & Hx & _ & X0 & X1).
  assert ((a =? fresh s) = false) as Q1 by (apply Nat.eqb_neq; lia).
  assert ((fresh s =? a) = false) as Q2 by (apply Nat.eqb_neq; lia).
  destruct x as [xv xe xh]. cbn in *. destruct xh.
  - destruct X1 as (Ex & v & Vx); auto. subst. eexists. split; [|split].
    + unfold make_moved. open_ops. go. destruct v; reflexivity.
    + reflexivity.
    + intros y. cbn. rewrite Hx. unfold husk_cell. cbn. eqs; subst; first [reflexivity | congruence].
  - destruct X0 as (Vx & Sa & Ex); auto. subst. unfold ok_error in *. destruct tv.
    + subst. eexists. split; [|split].
      * unfold make_moved. open_ops. go. reflexivity.
      * reflexivity.
      * intros y. cbn. rewrite Hx. unfold husk_cell. cbn. eqs; subst; first [reflexivity | assumption | congruence].
    + destruct xe as [e|]; [|congruence]. eexists. split; [|split].
      * unfold make_moved. open_ops. go. reflexivity.
      * reflexivity.
      * intros y. cbn. rewrite Hx. unfold husk_cell. cbn. eqs; subst; first [reflexivity | assumption | congruence].
Qed.

(** The variables hold the chains cs; the i-th one has the addresses L i; there is nothing else. *)
Record holds (s : st) (cs : list chain) (L : nat -> list nat) : Prop := {
  h_lst : forall i c, nth_error cs i = Some c -> lst s i c (L i);
  h_nodup : forall i, i < length cs -> NoDup (L i);
  h_apart : forall i j y, i < length cs -> j < length cs -> In y (L i) -> In y (L j) -> i = j;
  h_dom : forall y, heap s y <> None -> exists i, i < length cs /\ In y (L i);
  h_fresh : forall y, heap s y <> None -> y < fresh s
}.

Lemma with_place_nth (cs : list chain) : forall i j u k,
  nth_error (with_place cs (i, j) u) k =
  if k =? i then option_map (fun c => swap_in c j u) (nth_error cs i) else nth_error cs k.
Proof.
  induction cs as [|c cs IH]; intros [|i] j u [|k]; cbn; auto.
  destruct (k =? i); reflexivity.
Qed.
Lemma with_place_length (cs : list chain) : forall i j u, length (with_place cs (i, j) u) = length cs.
Proof. induction cs as [|c cs IH]; intros [|i] j u; cbn; auto. Qed.

Lemma swap_in_same (c : chain) : forall j u, sub c j = Some u -> swap_in c j u = c.
Proof. induction c as [e|d|d c IH]; intros [|j] u; cbn; intros Q; try congruence. f_equal. auto. Qed.

Lemma at_place_split s cs L i j c :
  holds s cs L -> at_place cs (i, j) = Some c ->
  exists c0 pre a sa, nth_error cs i = Some c0 /\ i < length cs /\ L i = pre ++ a :: sa /\ length pre = j /\ lst s a c (a :: sa) /\
    walk i j s = Ok a s /\ NoDup (pre ++ a :: sa) /\ sub c0 j = Some c /\
    (forall s' u' sb', (forall y, In y pre -> heap s' y = heap s y) -> lst s' a u' (a :: sb') ->
       lst s' i (swap_in c0 j u') (pre ++ a :: sb')).
Proof.
  intros H Hc. unfold at_place in Hc. cbn [fst snd] in Hc. destruct (nth_error cs i) as [c0|] eqn:Ei; [|discriminate].
  assert (i < length cs) as Li by (apply nth_error_Some; congruence).
  destruct (lst_split s i c0 (L i) j c) as (pre & a & sa & El & Ln & K & W & R); auto.
  { apply (h_lst _ _ _ H); auto. }
  exists c0, pre, a, sa. rewrite <- El. repeat split; auto. apply (h_nodup _ _ _ H); auto.
Qed.

Lemma live s cs L i y : holds s cs L -> i < length cs -> In y (L i) -> heap s y <> None /\ y < fresh s.
Proof.
  intros H Li Hy. destruct (nth_error cs i) as [c|] eqn:Ei; [|apply nth_error_None in Ei; lia].
  assert (heap s y <> None) as K by (eapply lst_live; [apply (h_lst _ _ _ H); eauto|auto]).
  split; auto. now apply (h_fresh _ _ _ H).
Qed.

(** One variable changes, from a on. *)
Lemma holds_one s s' cs L i j c0 c pre a sa u sa' :
  holds s cs L -> nth_error cs i = Some c0 -> L i = pre ++ a :: sa -> length pre = j -> lst s a c (a :: sa) ->
  NoDup (pre ++ a :: sa) ->
  (forall s' u' sb', (forall y, In y pre -> heap s' y = heap s y) -> lst s' a u' (a :: sb') ->
     lst s' i (swap_in c0 j u') (pre ++ a :: sb')) ->
  (forall y, ~ In y (a :: sa) -> y < fresh s -> heap s' y = heap s y) ->
  lst s' a u (a :: sa') -> NoDup (a :: sa') ->
  (forall y, In y sa' -> In y sa \/ fresh s <= y) ->
  (forall y, In y (a :: sa) \/ fresh s <= y -> heap s' y <> None -> In y (a :: sa')) ->
  (forall y, In y sa' -> y < fresh s') -> fresh s <= fresh s' ->
  holds s' (with_place cs (i, j) u) (fun k => if k =? i then pre ++ a :: sa' else L k).
Proof.
  intros H Ei El Lj K ND R F K' ND' Sub Dom Fr Le.
  assert (i < length cs) as Li by (apply nth_error_Some; congruence).
  assert (forall y, In y pre -> ~ In y (a :: sa)) as Np.
  { intros y Hy I. clear -ND Hy I. induction pre as [|z pre IH]; [destruct Hy|]. cbn in ND. inversion ND as [|z1 l1 Nz ND1]; subst.
    destruct Hy as [<-|Hy]; [apply Nz; apply in_or_app; now right|auto]. }
  assert (forall y, In y pre -> heap s y <> None /\ y < fresh s) as Lp.
  { intros y Hy. apply (live s cs L i); auto. rewrite El. apply in_or_app. now left. }
  assert (forall y, In y (a :: sa) -> y < fresh s) as La.
  { intros y Hy. apply (live s cs L i); auto. rewrite El. apply in_or_app. now right. }
  assert (forall y, In y (pre ++ a :: sa') -> In y (L i) \/ fresh s <= y) as In'.
  { intros y Hy. rewrite El. apply in_app_or in Hy. destruct Hy as [Hy|[<-|Hy]].
    - left. apply in_or_app. now left.
    - left. apply in_or_app. right. now left.
    - destruct (Sub y Hy); [|now right]. left. apply in_or_app. right. now right. }
  constructor.
  - intros k c1. rewrite with_place_nth. destruct (Nat.eqb_spec k i) as [->|Nk].
    + rewrite Ei. cbn. intros Q. injection Q as <-. apply R; auto. intros y Hy. apply F; auto. now apply Lp.
    + intros Ek. eapply lst_frame; [apply (h_lst _ _ _ H); eauto|]. intros y Hy.
      assert (k < length cs) as Lk by (apply nth_error_Some; congruence). apply F.
      * intros I. apply Nk. apply (h_apart _ _ _ H k i y); auto. rewrite El. apply in_or_app. now right.
      * apply (live s cs L k); auto.
  - intros k. rewrite with_place_length. intros Lk. destruct (Nat.eqb_spec k i) as [->|Nk]; [|now apply (h_nodup _ _ _ H)].
    clear -ND ND' Sub Lp Np. induction pre as [|z pre IH]; cbn in *; auto. inversion ND as [|z1 l1 Nz ND1]; subst. constructor.
    + intros I. apply in_app_or in I. destruct I as [I|[<-|I]].
      * apply Nz. apply in_or_app. now left.
      * apply Nz. apply in_or_app. right. now left.
      * destruct (Sub z I) as [J|J]; [apply Nz; apply in_or_app; right; now right|].
        destruct (Lp z (or_introl eq_refl)). lia.
    + apply IH; auto.
  - intros k h y. rewrite with_place_length. intros Lk Lh. destruct (Nat.eqb_spec k i) as [->|Nk], (Nat.eqb_spec h i) as [->|Nh]; auto.
    + intros I J. destruct (In' y I) as [I'|I'].
      * apply (h_apart _ _ _ H i h y); auto.
      * destruct (live s cs L h y H Lh J). lia.
    + intros I J. destruct (In' y J) as [I'|I'].
      * apply (h_apart _ _ _ H k i y); auto.
      * destruct (live s cs L k y H Lk I). lia.
    + apply (h_apart _ _ _ H); auto.
  - intros y Hy. rewrite with_place_length. destruct (in_dec Nat.eq_dec y (a :: sa)) as [I|I].
    + exists i. split; auto. rn. apply in_or_app. right. apply Dom; auto.
    + destruct (le_lt_dec (fresh s) y) as [G|G].
      * exists i. split; auto. rn. apply in_or_app. right. apply Dom; auto.
      * rewrite F in Hy; auto. destruct (h_dom _ _ _ H y Hy) as (k & Lk & Ik). exists k. split; auto.
        destruct (Nat.eqb_spec k i) as [->|Nk]; auto. rewrite El in Ik. apply in_app_or in Ik. apply in_or_app. destruct Ik; auto.
  - intros y Hy. destruct (in_dec Nat.eq_dec y (a :: sa)) as [I|I].
    + specialize (La y I). lia.
    + destruct (le_lt_dec (fresh s) y) as [G|G]; [|lia].
      destruct (Dom y (or_intror G) Hy) as [<-|J]; [exfalso; apply I; now left|auto].
Qed.

(** Two variables change: what is after b goes to a, what was after a is gone. *)
Lemma holds_two s s' cs L i j c0 c pre a sa k h c1 u pre1 b sb :
  holds s cs L -> i <> k ->
  nth_error cs i = Some c0 -> L i = pre ++ a :: sa -> length pre = j -> lst s a c (a :: sa) ->
  (forall s' u' sb', (forall y, In y pre -> heap s' y = heap s y) -> lst s' a u' (a :: sb') ->
     lst s' i (swap_in c0 j u') (pre ++ a :: sb')) ->
  nth_error cs k = Some c1 -> L k = pre1 ++ b :: sb -> length pre1 = h -> lst s b u (b :: sb) ->
  (forall s' u' sb', (forall y, In y pre1 -> heap s' y = heap s y) -> lst s' b u' (b :: sb') ->
     lst s' k (swap_in c1 h u') (pre1 ++ b :: sb')) ->
  fresh s' = fresh s ->
  (forall y, heap s' y =
      if y =? a then heap s b
      else if y =? b then option_map husk_cell (heap s b)
      else if inb y sa then None else heap s y) ->
  holds s' (with_place (with_place cs (i, j) u) (k, h) (husk u))
    (fun g => if g =? k then pre1 ++ [b] else if g =? i then pre ++ a :: sb else L g).
Proof.
  intros H Nik Ei El Lj K R Ek Elk Lh K1 R1 Fr Hp.
  assert (i < length cs) as Li by (apply nth_error_Some; congruence).
  assert (k < length cs) as Lk by (apply nth_error_Some; congruence).
  pose proof (h_nodup _ _ _ H i Li) as NDi. pose proof (h_nodup _ _ _ H k Lk) as NDk.
  assert (forall y, In y (L i) -> In y (L k) -> False) as Dj.
  { intros y I J. apply Nik. apply (h_apart _ _ _ H i k y); auto. }
  assert (In a (L i)) as Ia by (rewrite El; apply in_or_app; right; now left).
  assert (In b (L k)) as Ib by (rewrite Elk; apply in_or_app; right; now left).
  assert (forall y, In y sa -> In y (L i)) as Isa by (intros y I; rewrite El; apply in_or_app; right; now right).
  assert (forall y, In y sb -> In y (L k)) as Isb by (intros y I; rewrite Elk; apply in_or_app; right; now right).
  assert (forall y, In y pre -> In y (L i)) as Ip by (intros y I; rewrite El; apply in_or_app; now left).
  assert (forall y, In y pre1 -> In y (L k)) as Ip1 by (intros y I; rewrite Elk; apply in_or_app; now left).
  assert (forall l x r (y : nat), NoDup (l ++ x :: r) -> In y l -> y <> x /\ ~ In y r) as Sep.
  { clear. intros l x r y ND I. induction l as [|z l IH]; [destruct I|]. cbn in ND. inversion ND as [|z1 l1 Nz ND1]; subst.
    destruct I as [<-|I]; [|auto]. split; [intros ->|intros J]; apply Nz; apply in_or_app; right; [now left|now right]. }
  rewrite El in NDi. rewrite Elk in NDk.
  assert (forall y, In y pre -> heap s' y = heap s y) as Fp.
  { intros y I. rewrite Hp. destruct (Sep _ _ _ _ NDi I) as [N1 N2]. destruct (Nat.eqb_spec y a); [tauto|].
    destruct (Nat.eqb_spec y b) as [->|]; [destruct (Dj b); auto|]. destruct (inb y sa); [tauto|reflexivity]. }
  assert (forall y, In y pre1 -> heap s' y = heap s y) as Fp1.
  { intros y I. rewrite Hp. destruct (Sep _ _ _ _ NDk I) as [N1 N2]. destruct (Nat.eqb_spec y a) as [->|]; [destruct (Dj a); auto|].
    destruct (Nat.eqb_spec y b); [tauto|]. destruct (inb y sa); [destruct (Dj y); auto|reflexivity]. }
  assert (~ In b sb) as Nbb by (apply NoDup_remove_2 in NDk; intros I; apply NDk; apply in_or_app; now right).
  assert (forall y, In y sb -> heap s' y = heap s y) as Fb.
  { intros y I. rewrite Hp. destruct (Nat.eqb_spec y a) as [->|]; [destruct (Dj a); auto|].
    destruct (Nat.eqb_spec y b); [congruence|]. destruct (inb y sa); [destruct (Dj y); auto|reflexivity]. }
  assert (lst s' a u (a :: sb)) as Ka.
  { assert (heap s' a = heap s b) as Q by (rewrite Hp; now rn). clear -K1 Fb Q.
    inversion K1 as [a1 e Ha Ke|a1 d Ha|a1 d b1 c1 l1 Ha Hb]; subst; rewrite Ha in Q.
    - now apply lst_bad. - now apply lst_last. - apply lst_more with b1; auto. eapply lst_frame; eauto. }
  assert (lst s' b (husk u) [b]) as Kb.
  { apply (lst_husk s s' b u sb K1). rewrite Hp. destruct (Nat.eqb_spec b a) as [->|]; [destruct (Dj a); auto|]. now rn. }
  constructor.
  - intros g c2. rewrite !with_place_nth. destruct (Nat.eqb_spec g k) as [->|Ngk].
    + destruct (Nat.eqb_spec k i); [congruence|]. rewrite Ek. cbn. intros Q. injection Q as <-. auto.
    + destruct (Nat.eqb_spec g i) as [->|Ngi].
      * rewrite Ei. cbn. intros Q. injection Q as <-. auto.
      * intros Eg. eapply lst_frame; [apply (h_lst _ _ _ H); eauto|]. intros y Iy.
        assert (g < length cs) as Lg by (apply nth_error_Some; congruence).
        rewrite Hp. destruct (Nat.eqb_spec y a) as [->|]; [destruct Ngi; apply (h_apart _ _ _ H g i a); auto|].
        destruct (Nat.eqb_spec y b) as [->|]; [destruct Ngk; apply (h_apart _ _ _ H g k b); auto|].
        destruct (inb y sa); [destruct Ngi; apply (h_apart _ _ _ H g i y); auto|reflexivity].
  - intros g. rewrite !with_place_length. intros Lg. destruct (Nat.eqb_spec g k) as [->|Ngk]; [now apply (NoDup_mid _ _ _ NDk)|].
    destruct (Nat.eqb_spec g i) as [->|Ngi]; [|now apply (h_nodup _ _ _ H)].
    apply NoDup_mid in NDi. destruct NDi as [NDi _]. assert (pre ++ a :: sb = (pre ++ [a]) ++ sb) as -> by (rewrite <- app_assoc; reflexivity).
    assert (NoDup sb) as NDb by (clear -NDk; induction pre1 as [|z l IH]; cbn in NDk; inversion NDk; auto).
    assert (forall y, In y (pre ++ [a]) -> ~ In y sb) as Nab.
    { intros y I J. apply (Dj y); auto. apply in_app_or in I. destruct I as [I|[<-|[]]]; auto. }
    clear -NDi NDb Nab. induction (pre ++ [a]) as [|z l IH]; cbn; auto. inversion NDi; subst. constructor.
    + intros I. apply in_app_or in I. destruct I; auto. apply (Nab z); auto. now left.
    + apply IH; auto. intros y Iy. apply Nab. now right.
  - intros f g y. rewrite !with_place_length. intros Lf Lg.
    assert (forall y g, g < length cs -> In y (if g =? k then pre1 ++ [b] else if g =? i then pre ++ a :: sb else L g) ->
      (g = k /\ In y (pre1 ++ [b])) \/ (g = i /\ (In y (pre ++ [a]) \/ In y sb)) \/ (g <> i /\ g <> k /\ In y (L g))) as Cl.
    { clear. intros y g _. destruct (Nat.eqb_spec g k); [auto|]. destruct (Nat.eqb_spec g i); [|auto].
      intros I. right. left. split; auto. apply in_app_or in I. destruct I as [I|[<-|I]]; auto; left; apply in_or_app; [now left|right; now left]. }
    assert (forall y, In y (pre1 ++ [b]) -> In y (L k) /\ ~ In y sb) as J1.
    { intros z I. split; [|now apply (NoDup_mid _ _ _ NDk)]. apply in_app_or in I. destruct I as [I|[<-|[]]]; auto. }
    assert (forall y, In y (pre ++ [a]) -> In y (L i)) as J2.
    { intros z I. apply in_app_or in I. destruct I as [I|[<-|[]]]; auto. }
    intros I J. apply Cl in I; auto. apply Cl in J; auto.
    destruct I as [[-> I]|[[-> I]|(N1 & N2 & I)]], J as [[-> J]|[[-> J]|(N3 & N4 & J)]]; auto.
    + destruct (J1 y I) as [A B]. destruct J as [J|J]; [destruct (Dj y); auto|tauto].
    + apply (h_apart _ _ _ H k g y); auto. now apply J1.
    + destruct (J1 y J) as [A B]. destruct I as [I|I]; [destruct (Dj y); auto|tauto].
    + destruct I as [I|I]; [apply (h_apart _ _ _ H i g y); auto|]. destruct N4. symmetry. apply (h_apart _ _ _ H k g y); auto.
    + apply (h_apart _ _ _ H f k y); auto. now apply J1.
    + destruct J as [J|J]; [apply (h_apart _ _ _ H f i y); auto|]. destruct N2. apply (h_apart _ _ _ H f k y); auto.
    + apply (h_apart _ _ _ H f g y); auto.
  - intros y Hy. rewrite !with_place_length. rewrite Hp in Hy.
    destruct (Nat.eqb_spec y a) as [Q|Na]; [subst y|].
    { exists i. split; auto. destruct (Nat.eqb_spec i k); [congruence|]. rn. apply in_or_app. right. now left. }
    destruct (Nat.eqb_spec y b) as [Q|Nb]; [subst y|].
    { exists k. split; auto. rn. apply in_or_app. right. now left. }
    destruct (inb y sa) as [I|Ns]; [tauto|]. destruct (h_dom _ _ _ H y Hy) as (g & Lg & Ig).
    destruct (Nat.eqb_spec g k) as [->|Ngk].
    { rewrite Elk in Ig. apply in_app_or in Ig. destruct Ig as [Ig|[<-|Ig]]; [|congruence|].
      - exists k. split; auto. rn. apply in_or_app. now left.
      - exists i. split; auto. destruct (Nat.eqb_spec i k); [congruence|]. rn. apply in_or_app. right. now right. }
    exists g. split; auto. destruct (Nat.eqb_spec g k); [congruence|]. destruct (Nat.eqb_spec g i) as [->|]; auto.
    rewrite El in Ig. apply in_app_or in Ig. apply in_or_app. destruct Ig as [Ig|[<-|Ig]]; auto; congruence.
  - intros y Hy. rewrite Fr. rewrite Hp in Hy.
    destruct (Nat.eqb_spec y a) as [Q|Na]; [subst y; apply (live s cs L i); auto|].
    destruct (Nat.eqb_spec y b) as [Q|Nb]; [subst y; apply (live s cs L k); auto|].
    destruct (inb y sa) as [I|Ns]; [tauto|]. now apply (h_fresh _ _ _ H).
Qed.

Lemma holds_same s s' cs L : holds s cs L -> fresh s' = fresh s -> (forall y, heap s' y = heap s y) -> holds s' cs L.
Proof.
  intros H Fr F. constructor.
  - intros i c Ei. eapply lst_frame; [apply (h_lst _ _ _ H); eauto|auto].
  - apply (h_nodup _ _ _ H).
  - apply (h_apart _ _ _ H).
  - intros y. rewrite F. apply (h_dom _ _ _ H).
  - intros y. rewrite F, Fr. apply (h_fresh _ _ _ H).
Qed.

(** The length of a chain, and of the longest one *)
Fixpoint len (c : chain) : nat := match c with More _ c' => S (len c') | _ => 1 end.
Definition tall (cs : list chain) : nat := list_max (map len cs).
Lemma lst_len s a c l : lst s a c l -> length l = len c.
Proof. induction 1; cbn; auto. Qed.
Lemma tall_ok s cs L i : holds s cs L -> i < length cs -> length (L i) <= tall cs.
Proof.
  intros H Li. destruct (nth_error cs i) as [c|] eqn:Ei; [|apply nth_error_None in Ei; lia].
  rewrite (lst_len _ _ _ _ (h_lst _ _ _ H _ _ Ei)). unfold tall.
  assert (Forall (fun k => k <= list_max (map len cs)) (map len cs)) as G by (apply list_max_le; lia).
  rewrite Forall_forall in G. apply G. apply in_map. eapply nth_error_In; eauto.
Qed.

Theorem step_ok n s cs L o cs' an :
  holds s cs L -> step tv cs o cs' an -> tall cs < n ->
  exists s' L', call tv n o s = Ok an s' /\ holds s' cs' L'.
Proof.
  intros H St Hn. inversion St as [p d c Hc|p e c Hc|p d c Hc|p q c u Hc Hu Npq|p c Hc|i j k u Hu Hjk T|p d c T Hc|p q c u T Hc Hu V Npq|p c Hc]; subst.
  - destruct p as [i j]. destruct (at_place_split _ _ _ _ _ _ H Hc) as (c0 & pre & a & sa & Ei & Li & El & Lj & K & W & ND & Su & R).
    pose proof (tall_ok _ _ _ _ H Li) as TL. rewrite El, app_length in TL. cbn in TL.
    assert (NoDup (a :: sa)) as NDa by (clear -ND; induction pre; cbn in ND; auto; inversion ND; auto).
    assert (forall y, In y (a :: sa) -> y < fresh s) as Fr.
    { intros y Hy. apply (live s cs L i); auto. rewrite El. apply in_or_app. now right. }
    destruct (assign_temporary_ok n s a c sa (mkEx (Some (d, None)) None true) (Last d) [fresh s] K NDa) as (s' & E1 & F1 & H1); auto; try lia.
    { apply lst_last. cbn. now rn. }
    exists s', (fun k => if k =? i then pre ++ [a] else L k). split.
    + cbn [call]. unfold bind. rewrite W, E1. reflexivity.
    + apply (holds_one s s' cs L i j c0 c pre a sa (Last d) []); auto.
      * intros y Ny Ly. rewrite H1. cbn in Ny. destruct (Nat.eqb_spec y a); [subst; tauto|]. destruct (Nat.eqb_spec y (fresh s)); [lia|].
        destruct (inb y sa); tauto.
      * apply lst_last. rewrite H1. now rn.
      * constructor; [intros []|constructor].
      * intros y [].
      * intros y Hy Hl. rewrite H1 in Hl. destruct (Nat.eqb_spec y a); [now left|]. destruct (Nat.eqb_spec y (fresh s)); [tauto|].
        destruct (inb y sa) as [I|I]; [tauto|]. destruct Hy as [[Hy|Hy]|Hy]; [congruence|tauto|]. apply (h_fresh _ _ _ H) in Hl. lia.
      * intros y [].
      * lia.
  - destruct p as [i j]. destruct (at_place_split _ _ _ _ _ _ H Hc) as (c0 & pre & a & sa & Ei & Li & El & Lj & K & W & ND & Su & R).
    pose proof (tall_ok _ _ _ _ H Li) as TL. rewrite El, app_length in TL. cbn in TL.
    assert (NoDup (a :: sa)) as NDa by (clear -ND; induction pre; cbn in ND; auto; inversion ND; auto).
    assert (forall y, In y (a :: sa) -> y < fresh s) as Fr.
    { intros y Hy. apply (live s cs L i); auto. rewrite El. apply in_or_app. now right. }
    set (e' := if tv then None else Some e).
    assert (ok_error e') as Oe by (unfold ok_error, e'; destruct tv; congruence).
    destruct (assign_temporary_ok n s a c sa (mkEx None e' false) (Bad e') [fresh s] K NDa) as (s' & E1 & F1 & H1); auto; try lia.
    { apply lst_bad; auto. cbn. now rn. }
    exists s', (fun k => if k =? i then pre ++ [a] else L k). split.
    + cbn [call]. unfold bind. rewrite W. fold e'. rewrite E1. reflexivity.
    + apply (holds_one s s' cs L i j c0 c pre a sa (Bad e') []); auto.
      * intros y Ny Ly. rewrite H1. cbn in Ny. destruct (Nat.eqb_spec y a); [subst; tauto|]. destruct (Nat.eqb_spec y (fresh s)); [lia|].
        destruct (inb y sa); tauto.
      * apply lst_bad; auto. rewrite H1. now rn.
      * constructor; [intros []|constructor].
      * intros y [].
      * intros y Hy Hl. rewrite H1 in Hl. destruct (Nat.eqb_spec y a); [now left|]. destruct (Nat.eqb_spec y (fresh s)); [tauto|].
        destruct (inb y sa) as [I|I]; [tauto|]. destruct Hy as [[Hy|Hy]|Hy]; [congruence|tauto|]. apply (h_fresh _ _ _ H) in Hl. lia.
      * intros y [].
      * lia.
  - (* Push *)
    destruct p as [i j]. destruct (at_place_split _ _ _ _ _ _ H Hc) as (c0 & pre & a & sa & Ei & Li & El & Lj & K & W & ND & Su & R).
    pose proof (tall_ok _ _ _ _ H Li) as TL. rewrite El, app_length in TL. cbn in TL.
    assert (NoDup (a :: sa)) as NDa by (clear -ND; induction pre; cbn in ND; auto; inversion ND; auto).
    assert (forall y, In y (a :: sa) -> y < fresh s) as Fr.
    { intros y Hy. apply (live s cs L i); auto. rewrite El. apply in_or_app. now right. }
    assert (a < fresh s) as La by (apply Fr; now left).
    assert (~ In a sa) as Na by (inversion NDa; auto). assert (NoDup sa) as NDs by (inversion NDa; auto).
    set (f := fresh s) in *.
    destruct (make_moved_ok s a c sa K La) as (s1 & E1 & F1 & H1). fold f in E1, F1, H1.
    assert (lst s1 a (husk c) [a]) as Ka.
    { apply (lst_husk s s1 a c sa K). rewrite H1. destruct (Nat.eqb_spec a f); [lia|]. now rn. }
    assert (forall s2, (forall y, In y sa -> heap s2 y = heap s1 y) -> heap s2 f = heap s1 f -> lst s2 f c (f :: sa)) as Kf.
    { intros s2 G1 G2. assert (heap s2 f = heap s a) as Q by (rewrite G2, H1; now rn).
      assert (forall y, In y sa -> heap s2 y = heap s y) as G3.
      { intros y Hy. rewrite G1, H1; auto. assert (y < f) by (apply Fr; now right). destruct (Nat.eqb_spec y f); [lia|].
        destruct (Nat.eqb_spec y a); [congruence|reflexivity]. }
      clear -K Q G3. inversion K as [a1 e Ha Ke|a1 d Ha|a1 d b1 c1 l1 Ha Hb]; subst; rewrite Ha in Q.
      - now apply lst_bad. - now apply lst_last. - apply lst_more with b1; auto. eapply lst_frame; eauto. }
    destruct (assign_temporary_ok n s1 a (husk c) [] (mkEx (Some (d, Some f)) None true) (More d c) (fresh s1 :: f :: sa) Ka) as (s' & E2 & F2 & H2); auto; try lia.
    { constructor; [intros []|constructor]. } { cbn. lia. }
    { intros y [<-|[]]. lia. }
    { rewrite F1. apply lst_more with f; [cbn; now rn|]. apply Kf.
      - intros y Hy. cbn. assert (y < f) by (apply Fr; now right). destruct (Nat.eqb_spec y (S f)); [lia|reflexivity].
      - cbn. destruct (Nat.eqb_spec f (S f)); [lia|reflexivity]. }
    assert (lst s' f c (f :: sa)) as Kf'.
    { apply Kf.
      - intros y Hy. rewrite H2. assert (y < f) by (apply Fr; now right). destruct (Nat.eqb_spec y a); [congruence|].
        destruct (Nat.eqb_spec y (fresh s1)); [lia|reflexivity].
      - rewrite H2. destruct (Nat.eqb_spec f a); [lia|]. destruct (Nat.eqb_spec f (fresh s1)); [lia|reflexivity]. }
    exists s', (fun k => if k =? i then pre ++ a :: f :: sa else L k). split.
    + cbn [call]. unfold bind. rewrite W, E1, E2. reflexivity.
    + apply (holds_one s s' cs L i j c0 c pre a sa (More d c) (f :: sa)); auto.
      * intros y Ny Ly. rewrite H2. cbn in Ny. destruct (Nat.eqb_spec y a); [subst; tauto|].
        destruct (Nat.eqb_spec y (fresh s1)); [lia|]. cbn. rewrite H1. fold f in Ly. destruct (Nat.eqb_spec y f); [lia|].
        destruct (Nat.eqb_spec y a); [congruence|reflexivity].
      * apply lst_more with f; auto. rewrite H2. now rn.
      * constructor; [intros [Q|Q]; [lia|tauto]|]. constructor; auto. intros I. assert (f < f) by (apply Fr; now right). lia.
      * intros y [<-|Hy]; [right; unfold f; lia|now left].
      * intros y Hy Hl. rewrite H2 in Hl. destruct (Nat.eqb_spec y a); [now left|]. destruct (Nat.eqb_spec y (fresh s1)); [tauto|]. cbn in Hl.
        rewrite H1 in Hl. destruct (Nat.eqb_spec y f); [right; now left|]. destruct (Nat.eqb_spec y a); [congruence|].
        destruct Hy as [[Hy|Hy]|Hy]; [congruence|right; now right|]. apply (h_fresh _ _ _ H) in Hl. lia.
      * intros y [<-|Hy]; [lia|]. assert (y < f) by (apply Fr; now right). lia.
      * unfold f in *. lia.
  - (* Move, of another variable *)
    destruct p as [i j], q as [k h]. cbn [fst] in Npq.
    destruct (at_place_split _ _ _ _ _ _ H Hc) as (c0 & pre & a & sa & Ei & Li & El & Lj & K & W & ND & Su & R).
    destruct (at_place_split _ _ _ _ _ _ H Hu) as (c1 & pre1 & b & sb & Ek & Lk & Elk & Lh & K1 & W1 & ND1 & Su1 & R1).
    pose proof (tall_ok _ _ _ _ H Li) as TL. rewrite El, app_length in TL. cbn in TL.
    assert (NoDup (a :: sa)) as NDa by (clear -ND; induction pre; cbn in ND; auto; inversion ND; auto).
    assert (In b (L k)) as Ib by (rewrite Elk; apply in_or_app; right; now left).
    destruct (assign_apart n s a c sa b u sb K K1 NDa) as (s' & E1 & F1 & H1); try lia.
    { intros <-. apply Npq. apply (h_apart _ _ _ H i k a); auto. rewrite El. apply in_or_app. right. now left. }
    { intros I. apply Npq. apply (h_apart _ _ _ H i k b); auto. rewrite El. apply in_or_app. right. now right. }
    eexists s', _. split.
    + cbn [call]. unfold bind. rewrite W, W1, E1. reflexivity.
    + eapply (holds_two s s' cs L i j c0 c pre a sa k h c1 u pre1 b sb); auto.
  - (* Move, of itself *)
    destruct p as [i j]. destruct (at_place_split _ _ _ _ _ _ H Hc) as (c0 & pre & a & sa & Ei & Li & El & Lj & K & W & ND & Su & R).
    destruct (assign_same n s a c sa K) as (s' & E1 & F1 & H1).
    exists s', L. split; [|now apply (holds_same s)]. cbn [call]. unfold bind. rewrite W, W, E1. reflexivity.
  - (* Move, from inside *)
    assert (exists c1, at_place cs (i, j) = Some c1) as (c & Hc).
    { clear -Hu Hjk. unfold at_place in *. cbn [fst snd] in *. destruct (nth_error cs i) as [c|]; [|discriminate].
      revert k u c Hu Hjk. induction j as [|j IH]; intros [|k] u c Hu Hjk; try lia.
      - exists c. now destruct c.
      - destruct c; try discriminate. apply (IH k u c); auto. lia. }
    destruct (at_place_split _ _ _ _ _ _ H Hc) as (c0 & pre & a & sa & Ei & Li & El & Lj & K & W & ND & Su & R).
    destruct (at_place_split _ _ _ _ _ _ H Hu) as (c1 & pre1 & b & sb & Ek & _ & Elk & Lh & K1 & W1 & ND1 & Su1 & R1).
    pose proof (tall_ok _ _ _ _ H Li) as TL. rewrite El, app_length in TL. cbn in TL.
    assert (NoDup (a :: sa)) as NDa by (clear -ND; induction pre; cbn in ND; auto; inversion ND; auto).
    assert (exists g, k = j + S g) as (g & ->) by (exists (k - S j); lia).
    assert (c1 = c0) as -> by congruence.
    assert (sub c (S g) = Some u) as Sg.
    { clear -Su Su1. revert c0 Su Su1. induction j as [|j IH]; intros c0 Su Su1.
      - assert (c = c0) as -> by (destruct c0; cbn in Su; congruence). exact Su1.
      - destruct c0; try discriminate. apply (IH c0); auto. }
    inversion K as [a1 e Ha Ke|a1 d Ha|a1 d b0 c2 l1 Ha Hb]; subst a1; [subst c; discriminate Sg|subst c; discriminate Sg|]. subst l1 c. cbn in Sg.
    destruct (lst_split s b0 c2 sa g u Hb Sg) as (mid & b' & sb' & Es & Lg & K2 & W2 & R2).
    assert (b' = b /\ sb' = sb) as [-> ->].
    { rewrite El in Elk. rewrite Es in Elk. rewrite app_comm_cons in Elk. rewrite app_assoc in Elk.
      clear -Elk Lh Lj Lg. assert (length (pre ++ a :: mid) = length pre1) as Q by (rewrite app_length; cbn; lia).
      clear -Elk Q. revert pre1 Elk Q. generalize (pre ++ a :: mid). intros l. induction l as [|x l IH]; intros [|x1 pre1] Q1 Q2; try discriminate Q2; cbn in *.
      - injection Q1; auto.
      - injection Q1 as <- Q1. apply (IH pre1); auto. }
    destruct (assign_inside n s a d b0 c2 sa g u b mid sb Ha Hb NDa) as (s' & E1 & F1 & H1); auto; try lia.
    assert (~ In a sa /\ NoDup sa) as [Na NDs] by (inversion NDa; auto).
    rewrite Es in NDs. destruct (NoDup_mid _ _ _ NDs) as [_ Dm].
    assert (forall y, In y sb -> In y sa) as Isb by (intros y I; rewrite Es; apply in_or_app; right; now right).
    assert (forall y, In y (mid ++ [b]) -> In y sa) as Imid.
    { intros y I. rewrite Es. apply in_app_or in I. apply in_or_app. destruct I as [I|[<-|[]]]; [now left|right; now left]. }
    exists s', (fun k => if k =? i then pre ++ a :: sb else L k). split.
    + cbn [call]. unfold bind. rewrite W, W1, E1. reflexivity.
    + apply (holds_one s s' cs L i j c0 (More d c2) pre a sa u sb); auto; try lia.
      * intros y Ny Ly. rewrite H1. cbn in Ny. destruct (Nat.eqb_spec y a); [subst; tauto|]. destruct (inb y (mid ++ [b])) as [I|I]; auto.
        apply Imid in I. tauto.
      * assert (heap s' a = heap s b) as Q by (rewrite H1; now rn).
        assert (forall y, In y sb -> heap s' y = heap s y) as G.
        { intros y Hy. rewrite H1. destruct (Nat.eqb_spec y a); [subst; apply Isb in Hy; tauto|].
          destruct (inb y (mid ++ [b])) as [I|I]; auto. destruct (Dm y I Hy). }
        clear -K1 Q G. inversion K1 as [a1 e Ha Ke|a1 d Ha|a1 d b1 c1 l1 Ha Hb]; subst; rewrite Ha in Q.
        -- now apply lst_bad. -- now apply lst_last. -- apply lst_more with b1; auto. eapply lst_frame; eauto.
      * constructor; [intros I; auto|]. clear -NDs. induction mid as [|z l IH]; cbn in NDs; inversion NDs; auto.
      * intros y Hy Hl. rewrite H1 in Hl. destruct (Nat.eqb_spec y a); [now left|]. destruct (inb y (mid ++ [b])) as [I|I]; [tauto|].
        destruct Hy as [[Hy|Hy]|Hy]; [congruence| |apply (h_fresh _ _ _ H) in Hl; lia].
        right. rewrite Es in Hy. apply in_app_or in Hy. destruct Hy as [Hy|[Hy|Hy]]; auto; exfalso; apply I; apply in_or_app; [now left|right; now left].
      * intros y Hy. rewrite F1. apply (live s cs L i); auto. rewrite El. apply in_or_app. right. right. auto.
  - (* emplace *)
    destruct p as [i j]. destruct (at_place_split _ _ _ _ _ _ H Hc) as (c0 & pre & a & sa & Ei & Li & El & Lj & K & W & ND & Su & R).
    pose proof (tall_ok _ _ _ _ H Li) as TL. rewrite El, app_length in TL. cbn in TL.
    assert (NoDup (a :: sa)) as NDa by (clear -ND; induction pre; cbn in ND; auto; inversion ND; auto).
    destruct (emplace_ok n s a c sa d T K NDa) as (s' & E1 & F1 & H1); try lia.
    exists s', (fun k => if k =? i then pre ++ [a] else L k). split.
    + cbn [call]. rewrite T in *. unfold bind. rewrite W, E1. reflexivity.
    + apply (holds_one s s' cs L i j c0 c pre a sa (Last d) []); auto; try lia.
      * intros y Ny Ly. rewrite H1. cbn in Ny. destruct (Nat.eqb_spec y a); [subst; tauto|]. destruct (inb y sa); tauto.
      * apply lst_last. rewrite H1. now rn.
      * constructor; [intros []|constructor].
      * intros y [].
      * intros y Hy Hl. rewrite H1 in Hl. destruct (Nat.eqb_spec y a); [now left|].
        destruct (inb y sa) as [I|I]; [tauto|]. destruct Hy as [[Hy|Hy]|Hy]; [congruence|tauto|]. apply (h_fresh _ _ _ H) in Hl. lia.
      * intros y [].
  - (* emplace, with the value of another variable *)
    destruct p as [i j], q as [k h]. cbn [fst] in Npq.
    destruct (at_place_split _ _ _ _ _ _ H Hc) as (c0 & pre & a & sa & Ei & Li & El & Lj & K & W & ND & Su & R).
    destruct (at_place_split _ _ _ _ _ _ H Hu) as (c1 & pre1 & b & sb & Ek & Lk & Elk & Lh & K1 & W1 & ND1 & Su1 & R1).
    pose proof (tall_ok _ _ _ _ H Li) as TL. rewrite El, app_length in TL. cbn in TL.
    assert (NoDup (a :: sa)) as NDa by (clear -ND; induction pre; cbn in ND; auto; inversion ND; auto).
    assert (In b (L k)) as Ib by (rewrite Elk; apply in_or_app; right; now left).
    destruct (emplace_from_ok n s a c sa b u sb T K K1 V NDa) as (s' & E1 & F1 & H1); try lia.
    { intros <-. apply Npq. apply (h_apart _ _ _ H i k a); auto. rewrite El. apply in_or_app. right. now left. }
    { intros I. apply Npq. apply (h_apart _ _ _ H i k b); auto. rewrite El. apply in_or_app. right. now right. }
    eexists s', _. split.
    + cbn [call]. destruct (lst_cell _ _ _ _ K1) as (z & Hz & Tz & _). rewrite V in Tz.
      rewrite T in *. unfold bind. rewrite W, W1. unfold get_has, bind, getx, ret. rewrite Hz, Tz, E1. reflexivity.
    + eapply (holds_two s s' cs L i j c0 c pre a sa k h c1 u pre1 b sb); auto.
  - (* a look *)
    destruct p as [i j]. destruct (at_place_split _ _ _ _ _ _ H Hc) as (c0 & pre & a & sa & Ei & Li & El & Lj & K & W & ND & Su & R).
    exists s, L. split; auto. cbn [call]. unfold bind. rewrite W. unfold get_has, get_value, get_error, bind, getx, ret.
    inversion K as [a1 e Ha Ke|a1 d Ha|a1 d b1 c1 l1 Ha Hb]; subst; rewrite Ha; cbn; try rewrite Ha; try reflexivity.
    unfold ok_error in Ke. destruct tv; [now subst|]. rewrite Ha. cbn. destruct e; [reflexivity|congruence].
Qed.

Lemma steps_ok cs os cs' l : steps tv cs os cs' l ->
  exists n0, tall cs' < n0 /\ forall n s L, n0 <= n -> holds s cs L -> exists s' L', run tv n os s = Ok l s' /\ holds s' cs' L'.
Proof.
  induction 1 as [cs|cs o os cs1 a cs2 l St SS IH].
  - exists (S (tall cs)). split; [lia|]. intros n s L _ H. exists s, L. auto.
  - destruct IH as (n0 & T0 & R). exists (max n0 (S (tall cs))). split; [lia|]. intros n s L Hn H.
    destruct (step_ok n s cs L o cs1 a H St) as (s1 & L1 & E1 & H1); [lia|].
    destruct (R n s1 L1) as (s2 & L2 & E2 & H2); [lia|auto|].
    exists s2, L2. split; auto. cbn [run]. unfold bind. rewrite E1, E2. reflexivity.
Qed.

Lemma holds_start m d0 : holds (start m d0) (repeat (Last d0) m) (fun i => [i]).
Proof.
  assert (forall y, heap (start (E := E) m d0) y = if y <? m then Some (mkEx (Some (d0, None)) None true) else None) as Hh by reflexivity.
  constructor.
  - intros i c Ei. assert (i < m) as Li by (rewrite <- (repeat_length (Last (E := E) d0) m); apply nth_error_Some; congruence).
    rewrite (nth_error_repeat _ Li) in Ei. injection Ei as <-. apply lst_last. rewrite Hh. now apply Nat.ltb_lt in Li as ->.
  - intros i _. constructor; [intros []|constructor].
  - intros i j y _ _ [<-|[]] [<-|[]]. reflexivity.
  - intros y. rewrite Hh. destruct (Nat.ltb_spec y m); [|tauto]. intros _. exists y. rewrite repeat_length. split; auto. now left.
  - intros y. rewrite Hh. destruct (Nat.ltb_spec y m) as [Q|Q]; intros K; [exact Q|now destruct K].
Qed.

Lemma leave_ok n m : forall s cs L,
  holds s cs L -> length cs = m -> tall cs <= n -> exists s', leave tv n m s = Ok tt s' /\ forall y, heap s' y = None.
Proof.
  intros s cs L H Lm Tn. revert s H.
  assert (forall k s, k <= length cs -> (forall i c, i < k -> nth_error cs i = Some c -> lst s i c (L i)) ->
    (forall i, i < length cs -> NoDup (L i)) ->
    (forall i j y, i < length cs -> j < length cs -> In y (L i) -> In y (L j) -> i = j) ->
    (forall i, i < k -> length (L i) <= n) ->
    (forall y, heap s y <> None -> exists i, i < k /\ In y (L i)) ->
    exists s', leave tv n k s = Ok tt s' /\ forall y, heap s' y = None) as G.
  { induction k as [|k IH]; intros s Lk Hl ND Ap Ln Dom.
    - exists s. split; [reflexivity|]. intros y. destruct (heap s y) eqn:Q; auto. destruct (Dom y) as (i & Li & _); [congruence|lia].
    - destruct (nth_error cs k) as [c|] eqn:Ek; [|apply nth_error_None in Ek; lia].
      destruct (delete_ok c n s k (L k)) as (s1 & E1 & F1 & H1); auto.
      destruct (IH s1) as (s2 & E2 & H2); auto; try lia.
      + intros i c1 Li Ei. eapply lst_frame; [apply (Hl i c1); auto|]. intros y Iy. rewrite H1. destruct (inb y (L k)) as [I|I]; auto.
        assert (i = k) by (apply (Ap i k y); auto; lia). lia.
      + intros y. rewrite H1. destruct (inb y (L k)) as [I|I]; [tauto|]. intros Hy. destruct (Dom y Hy) as (i & Li & Ii).
        exists i. split; auto. destruct (Nat.eq_dec i k) as [->|]; [tauto|lia].
      + exists s2. split; auto. cbn [leave]. unfold bind. rewrite E1. exact E2. }
  intros s H. apply G; auto; try lia.
  - intros i c Li. apply (h_lst _ _ _ H).
  - apply (h_nodup _ _ _ H).
  - apply (h_apart _ _ _ H).
  - intros i Li. transitivity (tall cs); auto. apply (tall_ok s cs L); auto. lia.
  - rewrite <- Lm. apply (h_dom _ _ _ H).
Qed.

Lemma run_app n (os : list (op D E)) : forall (s : st) l (s' : st) o, run tv n os s = Ok l s' -> 
  run tv n (os ++ [o]) s = bind (call tv n o) (fun a => ret (l ++ [a])) s'.
Proof.
  induction os as [|o1 os IH]; intros s l s' o Q; cbn in *.
  - injection Q as <- <-. unfold bind, ret. destruct (call tv n o s); reflexivity.
  - unfold bind in *. destruct (call tv n o1 s) as [a s1| | |]; try discriminate.
    destruct (run tv n os s1) as [l1 s2| | |] eqn:Q1; try discriminate. injection Q as <- <-.
    rewrite (IH s1 l1 s2 o Q1). unfold bind, ret. destruct (call tv n o s2); reflexivity.
Qed.
End ExpList.
