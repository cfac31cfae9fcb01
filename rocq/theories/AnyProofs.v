(** Proofs about any. *)
From Coq Require Import List Arith Bool Lia.
From Verif Require Import Base AnyModel AnySpec.
Import ListNotations.

Section P.
Context {Val : Type}.
Variable copyable : nat -> bool.
Variable layout : bool -> nat -> nat * nat.
Variable mv : Val -> Val.
Notation is_world := (is_world layout).
Notation any_is := (any_is layout).
Notation block_for := (block_for layout).
Implicit Types (s : st Val) (w : world Val).

(** * How changes of the state change the world *)

Lemma world_ext s w w' : (forall i, tab w i = tab w' i) -> (forall x, svars w x = svars w' x) ->
  is_world s w -> is_world s w'.
Proof.
  intros A B [H1 H2 H3 H4 H5]. constructor; auto.
  - intros i. rewrite <- A. apply H1.
  - intros x. rewrite <- B. apply H2.
Qed.

Lemma any_is_empty s w i al : is_world s w -> tab w i = Some (al, None) -> anys s i = Some (mkAny al None).
Proof. intros H E. pose proof (same_anys _ _ _ H i) as A. rewrite E in A. unfold AnySpec.any_is in A. destruct (anys s i); [congruence|contradiction]. Qed.
Lemma any_is_full s w i al o : is_world s w -> tab w i = Some (al, Some o) ->
  exists b, anys s i = Some (mkAny al (Some b)) /\ heap s b = Some (block_for al o).
Proof.
  intros H E. pose proof (same_anys _ _ _ H i) as A. rewrite E in A. unfold AnySpec.any_is in A.
  destruct (anys s i); [|contradiction]. destruct A as (b & -> & A). eauto.
Qed.
Lemma any_is_none s w i : is_world s w -> tab w i = None -> anys s i = None.
Proof. intros H E. pose proof (same_anys _ _ _ H i) as A. rewrite E in A. unfold AnySpec.any_is in A. destruct (anys s i) as [[? ?]|]; [contradiction|reflexivity]. Qed.

Ltac tabs k i := unfold set_tab; cbn [tab]; destruct (Nat.eq_dec k i) as [->|?]; [rewrite setm_eq|rewrite setm_neq by assumption].

Lemma world_same s s' w :
  is_world s w -> (forall k, anys s' k = anys s k) -> (forall b, heap s' b = heap s b) ->
  next s <= next s' -> (forall x, vars s' x = vars s x) -> is_world s' w.
Proof.
  intros [H1 H2 H3 H4 H5] A B C D. constructor.
  - intros i. specialize (H1 i). unfold AnySpec.any_is in *. rewrite A. destruct (anys s i), (tab w i) as [[al [o|]]|]; auto.
    destruct H1 as (b & E & F). exists b. now rewrite B.
  - intros x. rewrite D. apply H2.
  - intros i j a a' b. rewrite !A. apply H3.
  - intros b. rewrite B. intros X. destruct (H4 b X) as (i & a & E & F). exists i, a. now rewrite A.
  - intros b L. rewrite B. apply H5. lia.
Qed.

Lemma world_empty s s' w i al b :
  is_world s w -> anys s i = Some (mkAny al (Some b)) ->
  anys s' i = Some (mkAny al None) -> (forall k, k <> i -> anys s' k = anys s k) ->
  heap s' b = None -> (forall k, k <> b -> heap s' k = heap s k) ->
  next s <= next s' -> (forall x, vars s' x = vars s x) ->
  is_world s' (set_tab w i (Some (al, None))).
Proof.
  intros [H1 H2 H3 H4 H5] Ei Ei' Ek Hb Hk Hn Hv. constructor.
  - intros k. tabs k i.
    + unfold AnySpec.any_is. now rewrite Ei'.
    + specialize (H1 k). unfold AnySpec.any_is in *. rewrite (Ek k) by auto.
      destruct (anys s k) as [a|] eqn:Ak, (tab w k) as [[al' [o|]]|]; auto.
      destruct H1 as (b' & -> & F). exists b'. split; auto. rewrite Hk; auto. intros ->.
      apply n. now apply (H3 k i _ _ b Ak Ei).
  - intros x. rewrite Hv. apply H2.
  - intros k l a a' b' E E' F F'.
    destruct (Nat.eq_dec k i) as [->|Nk]; [rewrite Ei' in E; injection E as <-; discriminate|].
    destruct (Nat.eq_dec l i) as [->|Nl]; [rewrite Ei' in E'; injection E' as <-; discriminate|].
    rewrite Ek in E, E' by auto. eapply H3; eauto.
  - intros b' X. destruct (Nat.eq_dec b' b) as [->|Nb]; [congruence|]. rewrite Hk in X by auto.
    destruct (H4 b' X) as (k & a & E & F). exists k, a. split; auto. rewrite Ek; auto. intros ->.
    rewrite Ei in E. injection E as <-. cbn in F. congruence.
  - intros b' L. destruct (Nat.eq_dec b' b) as [->|Nb]; auto. rewrite Hk by auto. apply H5. lia.
Qed.

Lemma world_fill s s' w i al o :
  is_world s w -> anys s i = Some (mkAny al None) ->
  anys s' i = Some (mkAny al (Some (next s))) -> (forall k, k <> i -> anys s' k = anys s k) ->
  heap s' (next s) = Some (block_for al o) -> (forall k, k <> next s -> heap s' k = heap s k) ->
  next s' = S (next s) -> (forall x, vars s' x = vars s x) ->
  is_world s' (set_tab w i (Some (al, Some o))).
Proof.
  intros [H1 H2 H3 H4 H5] Ei Ei' Ek Hb Hk Hn Hv.
  assert (forall k a b, anys s k = Some a -> m_block a = Some b -> heap s b <> None) as Hlive.
  { intros k a b Ak Bk. specialize (H1 k). unfold AnySpec.any_is in H1. rewrite Ak in H1.
    destruct (tab w k) as [[al' [o'|]]|]; [|subst a; discriminate|contradiction].
    destruct H1 as (b' & -> & F). cbn in Bk. congruence. }
  assert (heap s (next s) = None) as Hfree by (apply H5; lia).
  constructor.
  - intros k. tabs k i.
    + unfold AnySpec.any_is. rewrite Ei'. eauto.
    + specialize (H1 k). unfold AnySpec.any_is in *. rewrite (Ek k) by auto.
      destruct (anys s k) as [a|] eqn:Ak, (tab w k) as [[al' [o'|]]|]; auto.
      destruct H1 as (b' & -> & F). exists b'. split; auto. rewrite Hk; auto. congruence.
  - intros x. rewrite Hv. apply H2.
  - intros k l a a' b' E E' F F'.
    destruct (Nat.eq_dec k i) as [->|Nk], (Nat.eq_dec l i) as [->|Nl]; auto.
    + rewrite Ei' in E. injection E as <-. injection F as <-. rewrite Ek in E' by auto.
      exfalso. now apply (Hlive l a' (next s)).
    + rewrite Ei' in E'. injection E' as <-. injection F' as <-. rewrite Ek in E by auto.
      exfalso. now apply (Hlive k a (next s)).
    + rewrite Ek in E, E' by auto. eapply H3; eauto.
  - intros b' X. destruct (Nat.eq_dec b' (next s)) as [->|Nb]; [exists i; eauto|]. rewrite Hk in X by auto.
    destruct (H4 b' X) as (k & a & E & F). exists k, a. split; auto. rewrite Ek; auto. intros ->.
    rewrite Ei in E. injection E as <-. discriminate.
  - intros b' L. rewrite Hk by lia. apply H5. lia.
Qed.

Lemma world_new s s' w i al :
  is_world s w -> anys s i = None -> anys s' i = Some (mkAny al None) ->
  (forall k, k <> i -> anys s' k = anys s k) -> (forall b, heap s' b = heap s b) ->
  next s <= next s' -> (forall x, vars s' x = vars s x) ->
  is_world s' (set_tab w i (Some (al, None))).
Proof.
  intros [H1 H2 H3 H4 H5] Ei Ei' Ek Hk Hn Hv. constructor.
  - intros k. tabs k i.
    + unfold AnySpec.any_is. now rewrite Ei'.
    + specialize (H1 k). unfold AnySpec.any_is in *. rewrite (Ek k) by auto.
      destruct (anys s k) as [a|] eqn:Ak, (tab w k) as [[al' [o|]]|]; auto.
      destruct H1 as (b' & -> & F). exists b'. split; auto. now rewrite Hk.
  - intros x. rewrite Hv. apply H2.
  - intros k l a a' b' E E' F F'.
    destruct (Nat.eq_dec k i) as [->|Nk]; [rewrite Ei' in E; injection E as <-; discriminate|].
    destruct (Nat.eq_dec l i) as [->|Nl]; [rewrite Ei' in E'; injection E' as <-; discriminate|].
    rewrite Ek in E, E' by auto. eapply H3; eauto.
  - intros b' X. rewrite Hk in X.
    destruct (H4 b' X) as (k & a & E & F). exists k, a. split; auto. rewrite Ek; auto. congruence.
  - intros b' L. rewrite Hk. apply H5. lia.
Qed.

Lemma world_drop s s' w i al :
  is_world s w -> anys s i = Some (mkAny al None) -> anys s' i = None ->
  (forall k, k <> i -> anys s' k = anys s k) -> (forall b, heap s' b = heap s b) ->
  next s <= next s' -> (forall x, vars s' x = vars s x) ->
  is_world s' (set_tab w i None).
Proof.
  intros [H1 H2 H3 H4 H5] Ei Ei' Ek Hk Hn Hv. constructor.
  - intros k. tabs k i.
    + unfold AnySpec.any_is. now rewrite Ei'.
    + specialize (H1 k). unfold AnySpec.any_is in *. rewrite (Ek k) by auto.
      destruct (anys s k) as [a|] eqn:Ak, (tab w k) as [[al' [o|]]|]; auto.
      destruct H1 as (b' & -> & F). exists b'. split; auto. now rewrite Hk.
  - intros x. rewrite Hv. apply H2.
  - intros k l a a' b' E E' F F'.
    destruct (Nat.eq_dec k i) as [->|Nk]; [congruence|].
    destruct (Nat.eq_dec l i) as [->|Nl]; [congruence|].
    rewrite Ek in E, E' by auto. eapply H3; eauto.
  - intros b' X. rewrite Hk in X.
    destruct (H4 b' X) as (k & a & E & F). exists k, a. split; auto. rewrite Ek; auto. intros ->.
    rewrite Ei in E. injection E as <-. discriminate.
  - intros b' L. rewrite Hk. apply H5. lia.
Qed.

(** The block of any j goes to any i, which has none. *)
Lemma world_move s s' w i j al al' c b :
  is_world s w -> i <> j -> (forall a, anys s i = Some a -> m_block a = None) ->
  tab w j = Some (al', c) -> anys s j = Some (mkAny al' b) -> (c <> None -> al = al') ->
  anys s' i = Some (mkAny al b) -> anys s' j = Some (mkAny al' None) ->
  (forall k, k <> i -> k <> j -> anys s' k = anys s k) -> (forall b, heap s' b = heap s b) ->
  next s <= next s' -> (forall x, vars s' x = vars s x) ->
  is_world s' (set_tab (set_tab w j (Some (al', None))) i (Some (al, c))).
Proof.
  intros [H1 H2 H3 H4 H5] Dij Hi Tj Ej Hal Ei' Ej' Ek Hk Hn Hv.
  constructor.
  - intros k. unfold set_tab; cbn [tab]. destruct (Nat.eq_dec k i) as [->|Nk].
    + rewrite setm_eq. unfold AnySpec.any_is. rewrite Ei'. specialize (H1 j). unfold AnySpec.any_is in H1.
      rewrite Ej, Tj in H1. destruct c as [o|].
      * rewrite Hal by discriminate. destruct H1 as (b' & [= ->] & F). exists b'. now rewrite Hk.
      * congruence.
    + rewrite setm_neq by auto. destruct (Nat.eq_dec k j) as [->|Nj].
      * rewrite setm_eq. unfold AnySpec.any_is. now rewrite Ej'.
      * rewrite setm_neq by auto. specialize (H1 k). unfold AnySpec.any_is in *. rewrite Ek by auto.
        destruct (anys s k) as [a|] eqn:Ak, (tab w k) as [[al2 [o|]]|]; auto.
        destruct H1 as (b' & -> & F). exists b'. split; auto. now rewrite Hk.
  - intros x. rewrite Hv. apply H2.
  - assert (forall k a b', anys s' k = Some a -> m_block a = Some b' ->
      exists k' a', anys s k' = Some a' /\ m_block a' = Some b' /\ (k = i /\ k' = j \/ k = k' /\ k <> i /\ k <> j)) as Back.
    { intros k a b' E F. destruct (Nat.eq_dec k i) as [->|Nk].
      - rewrite Ei' in E. injection E as <-. cbn in F. subst b. exists j, (mkAny al' (Some b')). auto 6.
      - destruct (Nat.eq_dec k j) as [->|Nj].
        + rewrite Ej' in E. injection E as <-. discriminate.
        + rewrite Ek in E by auto. exists k, a. auto 6. }
    intros k l a a' b' E E' F F'.
    destruct (Back k a b' E F) as (k1 & a1 & X1 & Y1 & Z1). destruct (Back l a' b' E' F') as (l1 & a2 & X2 & Y2 & Z2).
    assert (k1 = l1) as <- by (eapply H3; eauto).
    destruct Z1 as [(-> & ->)|(-> & N1 & N1')]; destruct Z2 as [(-> & Z)|(-> & N2 & N2')]; congruence.
  - intros b' X. rewrite Hk in X. destruct (H4 b' X) as (k & a & E & F).
    destruct (Nat.eq_dec k j) as [->|Nj].
    + rewrite Ej in E. injection E as <-. cbn in F. subst b. exists i, (mkAny al (Some b')). auto.
    + exists k, a. split; auto. rewrite Ek; auto. intros ->. specialize (Hi a E). congruence.
  - intros b' L. rewrite Hk. apply H5. lia.
Qed.

(** * The calls *)

Lemma the_ok s i a : anys s i = Some a -> the i s = Ok a s.
Proof. intros H. unfold the. now rewrite H. Qed.

Lemma reset_ok s w i al c : is_world s w -> tab w i = Some (al, c) ->
  exists s', reset i s = Ok tt s' /\ is_world s' (set_tab w i (Some (al, None))).
Proof.
  intros H E. destruct c as [o|].
  - destruct (any_is_full s w i al o H E) as (b & Ai & Hb).
    unfold AnySpec.block_for in Hb. destruct (layout (is_link o) (type_of o)) as (size, align) eqn:L.
    eexists. split.
    + unfold reset. erewrite bind_ok by (apply the_ok; exact Ai). cbn [m_block].
      unfold blk, bind. rewrite Hb. cbn [object header].
      unfold put_blk, get, set_heap, bind. cbn [heap anys next vars provider bsize balign].
      unfold free_block, the, bind. cbn [anys]. rewrite Ai. cbn [m_block].
      unfold blk. cbn [heap]. rewrite setm_eq. cbn [object provider bsize balign allocator].
      rewrite !Nat.eqb_refl. cbn [andb]. unfold get, set_heap. cbn [heap anys next vars].
      unfold set_block, the, put_any, set_anys, get, bind. cbn [anys]. rewrite Ai. cbn [allocator heap anys next vars]. reflexivity.
    + eapply (world_empty s _ w i al b H Ai); cbn [anys heap next vars].
      * apply setm_eq.
      * intros k N. now apply setm_neq.
      * apply setm_eq.
      * intros k N. now rewrite !setm_neq by auto.
      * lia.
      * reflexivity.
  - pose proof (any_is_empty s w i al H E) as Ai. exists s. split.
    + unfold reset. erewrite bind_ok by (apply the_ok; exact Ai). reflexivity.
    + eapply world_ext; [| |exact H]; auto. intros k. tabs k i; auto.
Qed.

(** Storage for new contents. *)
Definition with_block (s s2 : st Val) (i al size align : nat) : Prop :=
  anys s2 i = Some (mkAny al (Some (next s))) /\ (forall k, k <> i -> anys s2 k = anys s k) /\
  heap s2 (next s) = Some (mkBlock al size align None None) /\
  (forall k, k <> next s -> heap s2 k = heap s k) /\
  next s2 = S (next s) /\ (forall x, vars s2 x = vars s x).

Lemma alloc_step {A} s w i al size align (k : nat -> M (st Val) A) : is_world s w ->
  tab w i = Some (al, None) ->
  exists s2, with_block s s2 i al size align /\
    (let* b := allocate i size align false in set_block i (Some b) ;;; k b) s = k (next s) s2.
Proof.
  intros H E. pose proof (any_is_empty s w i al H E) as Ai.
  eexists. split; [|unfold allocate, the, bind; rewrite Ai; rewrite (fresh_ids _ _ _ H) by lia;
     unfold set_block, the, put_any, set_anys, get, bind; cbn [anys heap next vars allocator]; rewrite Ai; cbn [allocator]; reflexivity].
  unfold with_block. cbn [anys heap next vars]. repeat split; try apply setm_eq; intros; now rewrite setm_neq.
Qed.

Lemma alloc_fails_step {A} s w i al size align (k : nat -> M (st Val) A) : is_world s w ->
  tab w i = Some (al, None) ->
  (let* b := allocate i size align true in set_block i (Some b) ;;; k b) s = Throw BadAlloc s.
Proof.
  intros H E. pose proof (any_is_empty s w i al H E) as Ai.
  unfold allocate, the, bind. now rewrite Ai.
Qed.

Lemma free_step s s2 w i al size align : is_world s w -> tab w i = Some (al, None) ->
  with_block s s2 i al size align ->
  exists s3, free_block i size align s2 = Ok tt s3 /\ is_world s3 w.
Proof.
  intros H E (A1 & A2 & A3 & A4 & A5 & A6). pose proof (any_is_empty s w i al H E) as Ai.
  eexists. split.
  - unfold free_block, the, bind. rewrite A1. cbn [m_block]. unfold blk. rewrite A3. cbn [object provider bsize balign allocator].
    rewrite !Nat.eqb_refl. cbn [andb]. unfold get, set_heap.
    unfold set_block, the, put_any, set_anys, get, bind. cbn [anys]. rewrite A1. cbn [allocator heap anys next vars]. reflexivity.
  - apply (world_same s); auto; cbn [anys heap next vars].
    + intros k. destruct (Nat.eq_dec k i) as [->|N]; [now rewrite setm_eq|]. rewrite setm_neq by auto. auto.
    + intros b. destruct (Nat.eq_dec b (next s)) as [->|N]; [|rewrite setm_neq by auto; auto].
      rewrite setm_eq. symmetry. apply (fresh_ids _ _ _ H). lia.
    + lia.
Qed.

Lemma construct_step s s2 w i al o size align : is_world s w -> tab w i = Some (al, None) ->
  layout (is_link o) (type_of o) = (size, align) -> with_block s s2 i al size align ->
  exists s3, (construct (next s) o false ;;; set_header (next s) size align) s2 = Ok tt s3 /\
    is_world s3 (set_tab w i (Some (al, Some o))).
Proof.
  intros H E L (A1 & A2 & A3 & A4 & A5 & A6). pose proof (any_is_empty s w i al H E) as Ai.
  eexists. split.
  - unfold construct, blk, bind. rewrite A3. cbn [object]. unfold put_blk, get, set_heap, bind. cbn [provider bsize balign heap anys next vars].
    unfold set_header, blk, bind. cbn [heap]. rewrite setm_eq. cbn [object]. unfold put_blk, get, set_heap, bind. cbn [provider bsize balign object heap anys next vars]. reflexivity.
  - apply (world_fill s); auto; cbn [anys heap next vars]; auto.
    + rewrite setm_eq. unfold AnySpec.block_for. now rewrite L.
    + intros k N. rewrite !setm_neq by auto. auto.
Qed.

Definition after (r : res (st Val) unit) : option (st Val * ans Val) :=
  match r with
  | Ok _ s => Some (s, ANone)
  | Throw e s => Some (s, AThrew e)
  | _ => None
  end.

Lemma is_empty_tab w i al c : tab (set_tab w i (Some (al, c))) i = Some (al, c).
Proof. unfold set_tab. cbn [tab]. apply setm_eq. Qed.
Lemma set_set_tab w i x y k : tab (set_tab (set_tab w i x) i y) k = tab (set_tab w i y) k.
Proof. unfold set_tab, setm. cbn [tab]. now destruct (k =? i). Qed.

Lemma emplace_obj_ok s w i al c (om : M (st Val) (stored Val)) o is_ref ty f :
  is_world s w -> tab w i = Some (al, c) ->
  (forall s2, (forall x, vars s2 x = vars s x) -> om s2 = Ok o s2) ->
  is_link o = is_ref -> type_of o = ty -> (is_ref = true -> f <> CtorThrows) ->
  exists s', after (emplace_obj layout i om is_ref ty f s) = Some (s', snd (fill w i al (made o f))) /\
    is_world s' (fst (fill w i al (made o f))).
Proof.
  intros H E Hom <- <- Hf. destruct (reset_ok s w i al c H E) as (s1 & R1 & H1).
  unfold emplace_obj. erewrite bind_ok by exact R1.
  destruct (layout (is_link o) (type_of o)) as (size, align) eqn:L.
  set (w1 := set_tab w i (Some (al, None))) in *.
  assert (tab w1 i = Some (al, None)) as E1 by apply is_empty_tab.
  assert (forall x, vars s1 x = vars s x) as V1.
  { intros x. rewrite (same_vars _ _ _ H1). symmetry. apply (same_vars _ _ _ H). }
  destruct f; cbn [alloc_fails ctor_throws made].
  - destruct (alloc_step s1 w1 i al size align (fun b => guarded (let* x := om in construct b x false ;;; set_header b size align) i size align) H1 E1) as (s2 & B & R).
    rewrite R. destruct (construct_step s1 s2 w1 i al o size align H1 E1 L B) as (s3 & R3 & H3).
    exists s3. unfold guarded. erewrite bind_ok by (apply Hom; intros x; rewrite (proj2 (proj2 (proj2 (proj2 (proj2 B))))); apply V1).
    rewrite R3. cbn [after fill fst snd]. split; [reflexivity|]. eapply world_ext; [| |exact H3]; auto. intros k. apply set_set_tab.
  - rewrite (alloc_fails_step s1 w1 i al size align _ H1 E1). exists s1. cbn [after fill fst snd]. auto.
  - destruct (is_link o) eqn:K; [exfalso; now apply Hf|].
    destruct (alloc_step s1 w1 i al size align (fun b => guarded (let* x := om in construct b x true ;;; set_header b size align) i size align) H1 E1) as (s2 & B & R).
    rewrite R. unfold guarded.
    erewrite bind_ok by (apply Hom; intros x; rewrite (proj2 (proj2 (proj2 (proj2 (proj2 B))))); apply V1).
    pose proof B as (_ & _ & A3 & _). unfold construct, blk, bind. rewrite A3. cbn [object throw].
    destruct (free_step s1 s2 w1 i al size align H1 E1 B) as (s3 & R3 & H3).
    unfold throw. rewrite R3. exists s3. cbn [after fill fst snd]. auto.
Qed.

Lemma made_link o f : is_link o = true -> made o (match f with CtorThrows => NoFault | _ => f end) = @made Val o f.
Proof. intros H. destruct f; cbn [made]; auto. now rewrite H. Qed.

Lemma emplace_fwd_ok s w i al c src f o :
  is_world s w -> tab w i = Some (al, c) -> forwarded w src = Some o ->
  exists s', after (emplace_fwd layout i src f s) = Some (s', snd (fill w i al (made o f))) /\
    is_world s' (fst (fill w i al (made o f))).
Proof.
  intros H E F. destruct src as [ty v|x|]; cbn [forwarded] in F.
  - injection F as <-. cbn [emplace_fwd]. eapply emplace_obj_ok; eauto. discriminate.
  - destruct (svars w x) as [(ty, v)|] eqn:X; [|discriminate]. injection F as <-.
    cbn [emplace_fwd]. rewrite bind_get. rewrite (same_vars _ _ _ H), X.
    rewrite <- (made_link (Link ty (Some x)) f eq_refl). eapply emplace_obj_ok; eauto.
    now destruct f.
  - discriminate.
Qed.

Lemma load_ok s w o v : is_world s w -> look w o = Some v -> load o s = Ok v s.
Proof.
  intros H L. destruct o as [ty u|ty [x|]]; cbn [look load] in *; try congruence.
  rewrite (same_vars _ _ _ H). destruct (svars w x) as [(ty', u)|]; [|discriminate].
  destruct (ty' =? ty); congruence.
Qed.

Lemma emplace_ok s w i al c ty src f o :
  is_world s w -> tab w i = Some (al, c) -> emplaced w ty src = Some o ->
  exists s', after (emplace layout i ty src f s) = Some (s', snd (fill w i al (made o f))) /\
    is_world s' (fst (fill w i al (made o f))).
Proof.
  intros H E F. destruct src as [ty' v|x|]; cbn [emplaced emplace] in *.
  - injection F as <-. eapply emplace_obj_ok; eauto. discriminate.
  - destruct (look w (Link ty (Some x))) as [v|] eqn:K; [|discriminate]. injection F as <-.
    eapply emplace_obj_ok; eauto; [|discriminate].
    intros s2 V2. assert (load (Link ty (Some x)) s2 = Ok v s2) as R.
    { pose proof (load_ok s w _ v H K) as R. cbn [load] in *. rewrite V2. destruct (vars s x) as [(ty', u)|]; [|discriminate].
      destruct (ty' =? ty); congruence. }
    erewrite bind_ok by exact R. reflexivity.
  - discriminate.
Qed.

Definition copy_outcome (c : option (stored Val)) (f : fault) : option (outcome Val) :=
  match c with Some o => Some (copied copyable o f) | None => None end.

Lemma copy_from_ok s w i j al c al' c' f :
  is_world s w -> i <> j -> tab w i = Some (al, c) -> tab w j = Some (al', c') ->
  exists s', after (copy_from copyable i j f s) =
      Some (s', snd (match c' with
                     | Some o => fill w i al (copied copyable o f)
                     | None => (set_tab w i (Some (al, None)), ANone)
                     end)) /\
    is_world s' (fst (match c' with
                     | Some o => fill w i al (copied copyable o f)
                     | None => (set_tab w i (Some (al, None)), ANone)
                     end)).
Proof.
  intros H D E Ej. destruct (reset_ok s w i al c H E) as (s1 & R1 & H1).
  unfold copy_from. erewrite bind_ok by exact R1.
  set (w1 := set_tab w i (Some (al, None))) in *.
  assert (tab w1 i = Some (al, None)) as E1 by apply is_empty_tab.
  assert (tab w1 j = Some (al', c')) as Ej1 by (unfold w1, set_tab; cbn [tab]; rewrite setm_neq; auto).
  destruct c' as [o|].
  - destruct (any_is_full s1 w1 j al' o H1 Ej1) as (jb & Aj & Hj).
    erewrite bind_ok by (apply the_ok; exact Aj). cbn [m_block].
    destruct (layout (is_link o) (type_of o)) as (size, align) eqn:L.
    assert (block_for al' o = mkBlock al' size align (Some o) (Some (size, align))) as BF by (unfold AnySpec.block_for; now rewrite L).
    rewrite BF in Hj. erewrite bind_ok by (unfold blk; rewrite Hj; reflexivity). cbn [header].
    assert (heap s1 (next s1) = None) as Fr by (apply (fresh_ids _ _ _ H1); lia).
    assert (jb <> next s1) as Njb by congruence.
    set (body := fun b : nat => guarded (let* o0 := (held j : M (st Val) (option (stored Val))) in match o0 with None => ub | Some o1 => clone_to copyable o1 b f ;;; set_header b size align end) i size align).
    change (exists s', after ((let* b := allocate i size align (alloc_fails f) in set_block i (Some b) ;;; body b) s1) = Some (s', snd (fill w i al (copied copyable o f))) /\ is_world s' (fst (fill w i al (copied copyable o f)))).
    destruct (alloc_fails f) eqn:AF.
    + rewrite (alloc_fails_step s1 w1 i al size align _ H1 E1). destruct f; try discriminate. exists s1. cbn [copied after fill fst snd]. auto.
    + destruct (alloc_step s1 w1 i al size align body H1 E1) as (s2 & B & R). rewrite R. unfold body, guarded.
      pose proof B as (A1 & A2 & A3 & A4 & A5 & A6).
      assert (held j s2 = Ok (Some o) s2) as HJ.
      { unfold held. erewrite bind_ok by (apply the_ok; rewrite (A2 j) by auto; exact Aj). cbn [m_block].
        erewrite bind_ok by (unfold blk; rewrite (A4 jb Njb), Hj; reflexivity). reflexivity. }
      erewrite bind_ok by exact HJ.
      destruct (construct_step s1 s2 w1 i al o size align H1 E1 L B) as (s3 & R3 & H3).
      destruct (free_step s1 s2 w1 i al size align H1 E1 B) as (s4 & R4 & H4).
      assert (forall t, construct (next s1) t true s2 = Throw ElemThrow s2) as CT.
      { intros t. unfold construct, blk, bind. rewrite A3. reflexivity. }
      assert (is_world s3 (set_tab w i (Some (al, Some o)))) as H3'.
      { eapply world_ext; [| |exact H3]; auto. intros k. apply set_set_tab. }
      destruct o as [ty v|ty x]; cbn [clone_to].
      * destruct (copyable ty) eqn:CP.
        -- destruct f; try discriminate AF; cbn [ctor_throws copied]; rewrite CP; cbn [made is_link].
           ++ rewrite R3. exists s3. cbn [after fill fst snd]. auto.
           ++ erewrite bind_throw by apply CT. rewrite R4. exists s4. cbn [after fill fst snd]. auto.
        -- erewrite bind_throw by reflexivity. rewrite R4. exists s4.
           destruct f; try discriminate AF; cbn [copied]; rewrite CP; cbn [after fill fst snd]; auto.
      * rewrite R3. exists s3. destruct f; try discriminate AF; cbn [copied after fill fst snd]; auto.
  - erewrite bind_ok by (apply the_ok; exact (any_is_empty s1 w1 j al' H1 Ej1)). cbn [m_block].
    exists s1. cbn [after fst snd]. auto.
Qed.

(** Constructors. *)
Lemma constructing_ok s w i a (body : M (st Val) unit) r :
  is_world s w -> tab w i = None ->
  (forall s1, is_world s1 (set_tab w i (Some (a, None))) ->
     exists s', after (body s1) = Some (s', snd (fill (set_tab w i (Some (a, None))) i a r)) /\
       is_world s' (fst (fill (set_tab w i (Some (a, None))) i a r))) ->
  exists s', after (constructing i a body s) = Some (s', snd (fill_new w i a r)) /\
    is_world s' (fst (fill_new w i a r)).
Proof.
  intros H E HB. pose proof (any_is_none s w i H E) as Ai.
  unfold constructing. rewrite Ai.
  set (s1 := mkSt (heap s) (next s) (setm (anys s) i (Some (mkAny a None))) (vars s)).
  assert (is_world s1 (set_tab w i (Some (a, None)))) as H1.
  { apply (world_new s s1 w i a H Ai); unfold s1; cbn [anys heap next vars]; auto; [apply setm_eq|].
    intros k N. now apply setm_neq. }
  destruct (HB s1 H1) as (s' & R & H'). destruct r as [o|e]; cbn [fill fill_new fst snd] in *.
  - destruct (body s1) as [u s2|e s2| |]; cbn [after] in R; try discriminate.
    injection R as ->. exists s'. split; [reflexivity|]. eapply world_ext; [| |exact H']; auto. intros k. apply set_set_tab.
  - destruct (body s1) as [u s2|e' s2| |]; cbn [after] in R; try discriminate.
    injection R as -> ->. eexists. split; [cbn [after]; reflexivity|].
    assert (tab (set_tab (set_tab w i (Some (a, None))) i (Some (a, None))) i = Some (a, None)) as E2 by apply is_empty_tab.
    pose proof (any_is_empty s' _ i a H' E2) as Ai'.
    eapply world_ext; [| |eapply (world_drop s' _ _ i a H' Ai'); cbn [anys heap next vars]; auto; [apply setm_eq|]].
    + intros k. rewrite !set_set_tab. unfold set_tab, setm. cbn [tab]. destruct (Nat.eqb_spec k i) as [->|]; auto.
    + auto.
    + intros k N. now apply setm_neq.
Qed.

Lemma held_ok s w i al c : is_world s w -> tab w i = Some (al, c) -> held i s = Ok c s.
Proof.
  intros H E. unfold held. destruct c as [o|].
  - destruct (any_is_full s w i al o H E) as (b & Ai & Hb). erewrite bind_ok by (apply the_ok; exact Ai). cbn [m_block].
    erewrite bind_ok by (unfold blk; rewrite Hb; reflexivity). unfold AnySpec.block_for. destruct (layout _ _). reflexivity.
  - erewrite bind_ok by (apply the_ok; exact (any_is_empty s w i al H E)). reflexivity.
Qed.
Lemma type_ok s w i al c : is_world s w -> tab w i = Some (al, c) ->
  type i s = Ok (match c with Some o => Some (type_of o) | None => None end) s.
Proof. intros H E. unfold type. erewrite bind_ok by (eapply held_ok; eauto). reflexivity. Qed.
Lemma cast_ok s w i ty al c : is_world s w -> tab w i = Some (al, c) ->
  cast i ty s = Ok (match c with Some o => if type_of o =? ty then Some o else None | None => None end) s.
Proof.
  intros H E. unfold cast. erewrite bind_ok by (eapply type_ok; eauto). destruct c as [o|]; [|reflexivity].
  destruct (type_of o =? ty); [|reflexivity]. eapply held_ok; eauto.
Qed.

Lemma do_cast_ok s w i ty al c : is_world s w -> tab w i = Some (al, c) ->
  do_cast i ty s =
  match c with
  | Some o =>
      if type_of o =? ty then match look w o with Some v => Ok v s | None => load o s end
      else Throw BadCast s
  | None => Throw BadCast s
  end.
Proof.
  intros H E. unfold do_cast. erewrite bind_ok by (eapply cast_ok; eauto). destruct c as [o|]; [|reflexivity].
  destruct (type_of o =? ty); [|reflexivity]. destruct (look w o) as [v|] eqn:K; [|reflexivity].
  eapply load_ok; eauto.
Qed.

Lemma world_var s w x y : is_world s w ->
  is_world (mkSt (heap s) (next s) (anys s) (setm (vars s) x y)) (mkWorld (tab w) (setm (svars w) x y)).
Proof.
  intros [H1 H2 H3 H4 H5]. constructor; auto. intros z. cbn. unfold setm. destruct (z =? x); auto.
Qed.

Lemma store_ok s w i al o v u : is_world s w -> tab w i = Some (al, Some o) -> look w o = Some u ->
  exists s', store_at i o v s = Ok tt s' /\ is_world s' (poke w i al o v).
Proof.
  intros H E L. destruct o as [ty u'|ty [x|]]; cbn [look store_at poke] in *.
  - destruct (any_is_full s w i al _ H E) as (b & Ai & Hb). unfold AnySpec.block_for in Hb. cbn [is_link type_of] in Hb.
    destruct (layout false ty) as (size, align) eqn:Ly. eexists. split.
    + erewrite bind_ok by (apply the_ok; exact Ai). cbn [m_block]. erewrite bind_ok by (unfold blk; rewrite Hb; reflexivity).
      unfold put_blk, get, set_heap, bind. reflexivity.
    + destruct H as [H1 H2 H3 H4 H5]. constructor; cbn [heap next anys vars provider bsize balign header].
      * intros k. tabs k i.
        -- unfold AnySpec.any_is. cbn [anys heap]. rewrite Ai. exists b. split; auto. rewrite setm_eq.
           unfold AnySpec.block_for. cbn [is_link type_of]. now rewrite Ly.
        -- specialize (H1 k). unfold AnySpec.any_is in *. cbn [anys heap].
           destruct (anys s k) as [a|] eqn:Ak, (tab w k) as [[al' [o'|]]|]; auto.
           destruct H1 as (b' & -> & F). exists b'. split; auto. rewrite setm_neq; auto. intros ->.
           apply n. now apply (H3 k i _ _ b Ak Ai).
      * intros y. apply H2.
      * auto.
      * intros b' X. destruct (Nat.eq_dec b' b) as [->|Nb]; [exists i; eauto|]. rewrite setm_neq in X; auto.
      * intros b' Lb. destruct (Nat.eq_dec b' b) as [->|Nb]; [|rewrite setm_neq; auto].
        rewrite H5 in Hb by auto. discriminate.
  - rewrite bind_get, (same_vars _ _ _ H). destruct (svars w x) as [(ty', u')|]; [|discriminate].
    destruct (ty' =? ty); [|discriminate]. eexists. split; [reflexivity|]. now apply world_var.
  - discriminate.
Qed.

Definition after_ans (r : res (st Val) (ans Val)) : option (st Val * ans Val) :=
  match r with
  | Ok a s => Some (s, a)
  | Throw e s => Some (s, AThrew e)
  | _ => None
  end.
Lemma after_none m (s : st Val) s' a : after (m s) = Some (s', a) -> after_ans ((m ;;; ret ANone) s) = Some (s', a).
Proof. unfold after, after_ans, bind, ret. destruct (m s) as [[] t|e t| |]; congruence. Qed.

Lemma call_sim s w o : is_world s w -> legal w o ->
  exists s', after_ans (call copyable layout mv o s) = Some (s', snd (step copyable mv w o)) /\
    is_world s' (fst (step copyable mv w o)).
Proof.
  intros H L. destruct o; cbn [legal] in L; unfold live_any, readable in L; cbn [step call].
  - (* New *)
    pose proof (any_is_none s w i H L) as Ai. eexists. split.
    + apply after_none. unfold constructing. rewrite Ai. reflexivity.
    + apply (world_new s _ w i a H Ai); cbn [anys heap next vars]; auto; [apply setm_eq|].
      intros k N. now apply setm_neq.
  - (* NewVal *)
    destruct L as (L1 & L2). destruct (forwarded w src) as [o|] eqn:F; [|congruence].
    destruct (constructing_ok s w i a (emplace_fwd layout i src f) (made o f) H L1) as (s' & R & H').
    + intros s1 H1. eapply emplace_fwd_ok; [exact H1|apply is_empty_tab|]. destruct src; exact F.
    + exists s'. split; [now apply after_none|exact H'].
  - (* NewMove *)
    destruct L as (L1 & L2). destruct (tab w j) as [(al, c)|] eqn:Ej; [|congruence].
    assert (i <> j) as D by congruence. pose proof (any_is_none s w i H L1) as Ai.
    assert (exists b, anys s j = Some (mkAny al b)) as (b & Aj).
    { destruct c as [o|]; [destruct (any_is_full s w j al o H Ej) as (b & A & _); eauto|].
      rewrite (any_is_empty s w j al H Ej); eauto. }
    eexists. split.
    + apply after_none. unfold ctor_move. erewrite bind_ok by (apply the_ok; exact Aj). cbn [allocator m_block].
      unfold constructing. rewrite Ai. unfold set_block, the, put_any, set_anys, get, bind. cbn [anys heap next vars]. rewrite setm_eq.
      cbn [anys heap next vars allocator]. rewrite !setm_neq by auto. rewrite Aj. cbn [allocator]. reflexivity.
    + apply (world_move s _ w i j al al c b H D); cbn [anys heap next vars]; auto.
      * congruence.
      * rewrite setm_neq by auto. now rewrite setm_eq.
      * apply setm_eq.
      * intros k N1 N2. now rewrite !setm_neq by auto.
  - (* NewCopy *)
    destruct L as (L1 & L2). destruct (tab w j) as [(al, c)|] eqn:Ej; [|congruence].
    assert (i <> j) as D by congruence. pose proof (any_is_none s w i H L1) as Ai.
    assert (tab (set_tab w i (Some (a, None))) j = Some (al, c)) as Ej1.
    { unfold set_tab. cbn [tab]. rewrite setm_neq by auto. exact Ej. }
    destruct c as [o|].
    + destruct (constructing_ok s w i a (copy_from copyable i j f) (copied copyable o f) H L1) as (s' & R & H').
      * intros s1 H1. apply (copy_from_ok s1 _ i j a None al (Some o) f H1 D); [apply is_empty_tab|exact Ej1].
      * exists s'. split; [now apply after_none|exact H'].
    + cbn [fst snd]. unfold constructing.
      set (s1 := mkSt (heap s) (next s) (setm (anys s) i (Some (mkAny a None))) (vars s)).
      assert (is_world s1 (set_tab w i (Some (a, None)))) as H1.
      { apply (world_new s s1 w i a H Ai); unfold s1; cbn [anys heap next vars]; auto; [apply setm_eq|].
        intros k N. now apply setm_neq. }
      destruct (copy_from_ok s1 _ i j a None al None f H1 D (is_empty_tab _ _ _ _) Ej1) as (s' & R & H').
      cbn [fst snd] in *. exists s'. split.
      * apply after_none. rewrite Ai. fold s1. destruct (copy_from copyable i j f s1); cbn [after] in *; congruence.
      * eapply world_ext; [| |exact H']; auto. intros k. apply set_set_tab.
  - (* Assign *)
    destruct L as (L1 & L2 & L3). destruct (Nat.eqb_spec i j) as [->|D].
    + exists s. split; [|exact H]. apply after_none. unfold assign_move. now rewrite Nat.eqb_refl.
    + destruct (tab w i) as [(al, c0)|] eqn:Ei; [|congruence]. destruct (tab w j) as [(al', c)|] eqn:Ej; [|congruence].
      destruct (reset_ok s w i al c0 H Ei) as (s1 & R1 & H1).
      set (w1 := set_tab w i (Some (al, None))) in *.
      assert (tab w1 i = Some (al, None)) as E1 by apply is_empty_tab.
      assert (tab w1 j = Some (al', c)) as Ej1 by (unfold w1, set_tab; cbn [tab]; rewrite setm_neq; auto).
      pose proof (any_is_empty s1 w1 i al H1 E1) as Ai.
      assert (exists b, anys s1 j = Some (mkAny al' b)) as (b & Aj).
      { destruct c as [o|]; [destruct (any_is_full s1 w1 j al' o H1 Ej1) as (b & A & _); eauto|].
        rewrite (any_is_empty s1 w1 j al' H1 Ej1); eauto. }
      eexists. split.
      * apply after_none. unfold assign_move. rewrite (proj2 (Nat.eqb_neq i j) D). erewrite bind_ok by exact R1.
        erewrite bind_ok by (apply the_ok; exact Aj). cbn [m_block].
        unfold set_block, the, put_any, set_anys, get, bind. rewrite Ai. cbn [anys heap next vars allocator].
        rewrite !setm_neq by auto. rewrite Aj. cbn [allocator]. reflexivity.
      * eapply world_ext; [| |apply (world_move s1 _ w1 i j al al' c b H1 D); cbn [anys heap next vars]; auto].
        -- intros k. cbn [fst]. unfold w1, set_tab, setm. cbn [tab]. destruct (k =? i); auto.
        -- auto.
        -- intros x A. rewrite Ai in A. now injection A as <-.
        -- intros C. destruct c as [o|]; [|congruence]. eapply L3; eauto.
        -- rewrite setm_neq by auto. now rewrite setm_eq.
        -- apply setm_eq.
        -- intros k N1 N2. now rewrite !setm_neq by auto.
  - (* CopyAssign *)
    destruct L as (L1 & L2 & D). destruct (tab w i) as [(al, c0)|] eqn:Ei; [|congruence]. destruct (tab w j) as [(al', c)|] eqn:Ej; [|congruence].
    destruct (copy_from_ok s w i j al c0 al' c f H D Ei Ej) as (s' & R & H'). exists s'. split; [now apply after_none|exact H'].
  - (* AssignVal *)
    destruct L as (L1 & L2). destruct (tab w i) as [(al, c0)|] eqn:Ei; [|congruence].
    destruct (forwarded w src) as [o|] eqn:F; [|congruence].
    destruct (emplace_fwd_ok s w i al c0 src f o H Ei F) as (s' & R & H'). exists s'. split; [now apply after_none|exact H'].
  - (* Emplace *)
    destruct L as (L1 & L2). destruct (tab w i) as [(al, c0)|] eqn:Ei; [|congruence].
    destruct (emplaced w ty src) as [o|] eqn:F; [|congruence].
    destruct (emplace_ok s w i al c0 ty src f o H Ei F) as (s' & R & H'). exists s'. split; [now apply after_none|exact H'].
  - (* Reset *)
    destruct (tab w i) as [(al, c0)|] eqn:Ei; [|congruence].
    destruct (reset_ok s w i al c0 H Ei) as (s1 & R1 & H1). exists s1. split; [|exact H1]. apply after_none. now rewrite R1.
  - (* Drop *)
    destruct (tab w i) as [(al, c0)|] eqn:Ei; [|congruence].
    destruct (reset_ok s w i al c0 H Ei) as (s1 & R1 & H1).
    pose proof (any_is_empty s1 _ i al H1 (is_empty_tab _ _ _ _)) as Ai.
    eexists. split.
    + apply after_none. unfold dtor. erewrite bind_ok by exact R1. rewrite bind_get. reflexivity.
    + cbn [fst]. eapply world_ext; [| |apply (world_drop s1 _ _ i al H1 Ai); cbn [anys heap next vars]; auto; [apply setm_eq|]].
      * intros k. apply set_set_tab.
      * auto.
      * intros k N. now apply setm_neq.
  - (* Has *)
    destruct (tab w i) as [(al, c)|] eqn:Ei; [|congruence]. exists s. split; [|exact H].
    destruct c as [o|].
    + destruct (any_is_full s w i al o H Ei) as (b & Ai & _). erewrite bind_ok by (apply the_ok; exact Ai). reflexivity.
    + erewrite bind_ok by (apply the_ok; exact (any_is_empty s w i al H Ei)). reflexivity.
  - destruct (tab w i) as [(al, c)|] eqn:Ei; [|congruence]. exists s. split; [|exact H].
    erewrite bind_ok by (eapply type_ok; eauto). reflexivity.
  - (* CastPtr *)
    destruct L as (L1 & L2). destruct (tab w i) as [(al, c)|] eqn:Ei; [|congruence].
    erewrite bind_ok by (eapply cast_ok; eauto). destruct c as [o|]; [|exists s; auto].
    destruct (Nat.eqb_spec (type_of o) ty) as [T|T]; [|exists s; auto].
    destruct (look w o) as [v|] eqn:K; [|exfalso; eapply L2; eauto].
    erewrite bind_ok by (eapply load_ok; eauto). exists s. split; [reflexivity|exact H].
  - (* CastVal *)
    destruct L as (L1 & L2). destruct (tab w i) as [(al, c)|] eqn:Ei; [|congruence].
    pose proof (do_cast_ok s w i ty al c H Ei) as R. destruct c as [o|]; [|exists s; unfold bind; rewrite R; auto].
    destruct (Nat.eqb_spec (type_of o) ty) as [T|T]; [|exists s; unfold bind; rewrite R; auto].
    destruct (look w o) as [v|] eqn:K; [|exfalso; eapply L2; eauto].
    exists s. split; [|exact H]. unfold bind. rewrite R. reflexivity.
  - (* CastMove *)
    destruct L as (L1 & L2). destruct (tab w i) as [(al, c)|] eqn:Ei; [|congruence].
    pose proof (do_cast_ok s w i ty al c H Ei) as R. destruct c as [o|]; [|exists s; unfold bind; rewrite R; auto].
    destruct (Nat.eqb_spec (type_of o) ty) as [T|T]; [|exists s; unfold bind; rewrite R; auto].
    destruct (look w o) as [v|] eqn:K; [|exfalso; eapply L2; eauto].
    erewrite bind_ok by exact R. erewrite bind_ok by (eapply held_ok; eauto).
    destruct (store_ok s w i al o (mv v) v H Ei K) as (s' & R' & H'). exists s'. erewrite bind_ok by exact R'. cbn [fst snd]. auto.
  - (* Mutate *)
    destruct L as (L1 & L2). destruct (tab w i) as [(al, c)|] eqn:Ei; [|congruence].
    erewrite bind_ok by (eapply cast_ok; eauto). destruct c as [o|]; [|exists s; auto].
    destruct (Nat.eqb_spec (type_of o) ty) as [T|T]; [|exists s; auto].
    destruct (look w o) as [u|] eqn:K; [|exfalso; eapply L2; eauto].
    destruct (store_ok s w i al o v u H Ei K) as (s' & R' & H'). exists s'. erewrite bind_ok by exact R'. cbn [fst snd]. auto.
  - eexists. split; [rewrite bind_get; reflexivity|]. now apply world_var.
  - eexists. split; [rewrite bind_get; reflexivity|]. now apply world_var.
Qed.

Lemma run_sim os : forall s w, is_world s w -> legal_along copyable mv w os ->
  exists s', run copyable layout mv s os = Some (s', snd (spec_run copyable mv w os)) /\
    is_world s' (fst (spec_run copyable mv w os)).
Proof.
  induction os as [|o os IH]; intros s w H L; cbn [run spec_run legal_along] in *; [eauto|].
  destruct L as (Lo & L). destruct (call_sim s w o H Lo) as (s1 & R & H1).
  destruct (step copyable mv w o) as (w1, a). cbn [fst snd] in *.
  destruct (IH s1 w1 H1 L) as (s2 & R2 & H2).
  destruct (spec_run copyable mv w1 os) as (w2, rs). cbn [fst snd] in *. exists s2. split; [|exact H2].
  destruct (call copyable layout mv o s); cbn [after_ans] in R; try discriminate; injection R as <- <-; now rewrite R2.
Qed.

Lemma start_world : is_world start (nothing : world Val).
Proof. constructor; cbn; auto; try discriminate; try congruence. Qed.
End P.
