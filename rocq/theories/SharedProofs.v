From Coq Require Import List Arith Lia Bool.
From Verif Require Import Base SharedModel SharedSpec.
Import ListNotations.

(** * Counting *)
Lemma exactly_ext n P Q : (forall x, P x <-> Q x) -> exactly n P -> exactly n Q.
Proof. intros H (L & D & E & HL). exists L. repeat split; auto; intros; [apply H, HL|apply HL, H]; auto. Qed.
Lemma exactly_unique n m P : exactly n P -> exactly m P -> n = m.
Proof.
  intros (L & D & E & HL) (L' & D' & E' & HL'). subst.
  assert (length L <= length L') by (apply NoDup_incl_length; auto; intros x H; apply HL', HL; auto).
  assert (length L' <= length L) by (apply NoDup_incl_length; auto; intros x H'; apply HL, HL'; auto).
  lia.
Qed.
Lemma exactly_0 P : (forall x, ~ P x) -> exactly 0 P.
Proof. intros H. exists []. repeat split; [constructor|intros []|intros Hx; destruct (H _ Hx)]. Qed.
Lemma exactly_0_inv P x : exactly 0 P -> ~ P x.
Proof. intros (L & D & E & HL) H. apply HL in H. destruct L; [destruct H|discriminate]. Qed.
Lemma exactly_pos n P x : exactly n P -> P x -> 0 < n.
Proof. intros (L & D & E & HL) H. apply HL in H. destruct L; [destruct H|cbn in E; lia]. Qed.
Lemma exactly_S_inv n P : exactly (S n) P -> exists x, P x.
Proof. intros (L & D & E & HL). destruct L as [|x L]; [discriminate|]. exists x. apply HL. now left. Qed.
Lemma exactly_add n (P Q : nat -> Prop) x : exactly n P -> ~ P x -> (forall y, Q y <-> P y \/ y = x) -> exactly (S n) Q.
Proof.
  intros (L & D & E & HL) N H. exists (x :: L). split; [|split].
  - constructor; auto. intros i. apply N, HL, i.
  - cbn. lia.
  - intros y. cbn. rewrite H, HL. intuition.
Qed.
Lemma exactly_remove n (P Q : nat -> Prop) x : exactly n P -> P x -> (forall y, Q y <-> P y /\ y <> x) ->
  exactly (pred n) Q.
Proof.
  intros (L & D & E & HL) N H. apply HL in N.
  destruct (in_split _ _ N) as (l1 & l2 & ->). exists (l1 ++ l2).
  split; [eapply NoDup_remove_1; eauto|]. split.
  - rewrite app_length in *. cbn in E. lia.
  - intros y. rewrite H, <- HL. rewrite !in_app_iff. cbn.
    apply NoDup_remove_2 in D. rewrite in_app_iff in D.
    split; [intros [i|i]; (split; [tauto|intros ->; tauto])|]. intros [[i|[i|i]] ne]; auto. congruence.
Qed.

Definition optl (c : option nat) : list nat := match c with Some c => [c] | None => [] end.
Definition blk (p : option sp) : option nat := match p with Some p => block p | None => None end.
Notation occ := (count_occ Nat.eq_dec).

Section Proofs.
Context {V : Type}.
Variable cxx17 : bool.
Notation store := (store V).
Notation ast := (ast V).
Notation call := (@call V cxx17).
Notation sstep := (@sstep V cxx17).

Definition srefs (s : store) (c x : nat) : Prop := exists p, shared s x = Some p /\ block p = Some c.
Definition wrefs (s : store) (c w : nat) : Prop := exists p, weaks s w = Some p /\ block p = Some c.
Definition tref (s : store) (c : nat) (b : cb) : nat :=
  match objs s (managed b) with
  | Some x => match weak_this x with Some c' => if c' =? c then 1 else 0 | None => 0 end
  | None => 0
  end.
Definition pos (n : nat) : nat := match n with 0 => 0 | _ => 1 end.

(** [ph], [phw]: counts which belong to a pointer being made or destroyed; [phu]: an object
    which is not yet, or no more, in its unique pointer. *)
Record inv (ph phw : list nat) (phu : option nat) (s : store) : Prop := mkInv {
  i_bound : forall c b, cbs s c = Some b -> c < fresh_c s /\ managed b < fresh_o s;
  i_strong : forall c b, cbs s c = Some b ->
    exists n, exactly n (srefs s c) /\ strong b = n + occ ph c;
  i_weak : forall c b, cbs s c = Some b ->
    exists n, exactly n (wrefs s c) /\ weak b = n + occ phw c + tref s c b + pos (strong b) /\ 0 < weak b;
  i_one : forall c c' b b', cbs s c = Some b -> cbs s c' = Some b' -> managed b = managed b' -> c = c';
  i_sref : forall c x, srefs s c x -> cbs s c <> None;
  i_wref : forall c w, wrefs s c w -> cbs s c <> None;
  i_ph : forall c, In c ph -> cbs s c <> None;
  i_phw : forall c, In c phw -> cbs s c <> None;
  i_obj : forall o x, objs s o = Some x ->
    o < fresh_o s /\
    (forall c, weak_this x = Some c -> exists b, cbs s c = Some b /\ managed b = o) /\
    (base x = None -> weak_this x = None) /\
    (base x <> None -> forall c b, cbs s c = Some b -> managed b = o -> weak_this x = Some c);
  i_alive : forall o, objs s o <> None <->
    (exists c b, cbs s c = Some b /\ managed b = o /\ 0 < strong b) \/
    (exists u, uniq s u = Some (Some o)) \/ phu = Some o;
  i_uniq : forall u o, uniq s u = Some (Some o) ->
    (forall c b, cbs s c = Some b -> managed b <> o) /\
    (forall u', uniq s u' = Some (Some o) -> u' = u) /\ phu <> Some o;
  i_phu : forall o, phu = Some o -> forall c b, cbs s c = Some b -> managed b = o -> strong b = 0;
  i_dead : NoDup (destroyed s) /\
    forall o, In o (destroyed s) <-> o < fresh_o s /\ objs s o = None
}.

(** The pointers of the model and of the specification. *)
Definition prel (s : store) (q : option (option nat * option addr)) (p : option sp) : Prop :=
  match q, p with
  | None, None => True
  | Some (None, r), Some p => block p = None /\ ptr p = r
  | Some (Some o, r), Some p =>
      ptr p = r /\ exists c b, block p = Some c /\ cbs s c = Some b /\ managed b = o
  | _, _ => False
  end.
Record rel (s : store) (a : ast) : Prop := mkRel {
  r_sh : forall x, prel s (ash a x) (shared s x);
  r_wk : forall w, prel s (awk a w) (weaks s w);
  r_un : forall u, aun a u = uniq s u;
  r_kind : forall o x, objs s o = Some x -> kind a o = Some (val x, base x);
  r_next : anext a = fresh_o s
}.
Definition good ph phw phu s a : Prop := inv ph phw phu s /\ rel s a.

(** ** Counts *)
Definition same_man (s s' : store) : Prop := forall c b, cbs s c = Some b ->
  exists b', cbs s' c = Some b' /\ managed b' = managed b.
Lemma prel_man s s' q p : same_man s s' -> prel s q p -> prel s' q p.
Proof.
  intros H. destruct q as [[[o|] r]|], p as [p|]; cbn; auto.
  intros (E & c & b & E1 & E2 & E3). split; auto.
  destruct (H _ _ E2) as (b' & E4 & E5). exists c, b'. repeat split; congruence.
Qed.

(** The counts of one control block change, and remain positive or not as they were. *)
Lemma set_cb_good ph phw phu ph' phw' s a c b b' :
  good ph phw phu s a -> cbs s c = Some b -> managed b' = managed b ->
  (0 < strong b' <-> 0 < strong b) -> 0 < weak b' ->
  (forall c', c' <> c -> occ ph' c' = occ ph c') -> (forall c', c' <> c -> occ phw' c' = occ phw c') ->
  strong b' + occ ph c = strong b + occ ph' c ->
  weak b' + occ phw c = weak b + occ phw' c ->
  good ph' phw' phu (set_cbs s (setm (cbs s) c (Some b'))) a.
Proof.
  intros [I R] Ec Em Es Ew Ho Ho' Hs Hw.
  assert (Ecb : forall c1 b1, setm (cbs s) c (Some b') c1 = Some b1 ->
            exists b0, cbs s c1 = Some b0 /\ managed b1 = managed b0 /\ (0 < strong b1 <-> 0 < strong b0)).
  { intros c1 b1 H. destruct (Nat.eq_dec c1 c) as [->|n].
    - rewrite setm_eq in H. injection H as <-. eauto.
    - rewrite setm_neq in H by assumption. exists b1. tauto. }
  assert (Ecb' : forall c1 b0, cbs s c1 = Some b0 ->
            exists b1, setm (cbs s) c (Some b') c1 = Some b1 /\ managed b1 = managed b0 /\ (0 < strong b1 <-> 0 < strong b0)).
  { intros c1 b0 H. destruct (Nat.eq_dec c1 c) as [->|n].
    - rewrite setm_eq. rewrite Ec in H. injection H as <-. eauto.
    - rewrite setm_neq by assumption. exists b0. tauto. }
  assert (Nn : forall c1, cbs s c1 <> None -> setm (cbs s) c (Some b') c1 <> None).
  { intros c1 H. destruct (Nat.eq_dec c1 c) as [->|n]; [rewrite setm_eq; discriminate|now rewrite setm_neq]. }
  assert (Inc : forall (l l' : list nat), (forall c', c' <> c -> occ l' c' = occ l c') ->
            (forall c1, In c1 l -> cbs s c1 <> None) -> forall c1, In c1 l' -> cbs s c1 <> None).
  { intros l l' H H' c1 i. destruct (Nat.eq_dec c1 c) as [->|n]; [congruence|]. apply H'.
    apply (count_occ_In Nat.eq_dec). apply (count_occ_In Nat.eq_dec) in i. rewrite <- H; auto. }
  split; [constructor|]; cbn; try apply I.
  - intros c1 b1 H. apply Ecb in H. destruct H as (b0 & H & -> & _). eapply (i_bound _ _ _ _ I); eauto.
  - intros c1 b1 H. destruct (Nat.eq_dec c1 c) as [->|n].
    + rewrite setm_eq in H. injection H as <-. destruct (i_strong _ _ _ _ I _ _ Ec) as (n & H1 & H2).
      exists n. split; [exact H1|]. lia.
    + rewrite setm_neq in H by assumption. destruct (i_strong _ _ _ _ I _ _ H) as (m & H1 & H2).
      exists m. split; [exact H1|]. now rewrite Ho.
  - intros c1 b1 H. destruct (Nat.eq_dec c1 c) as [->|n].
    + rewrite setm_eq in H. injection H as <-. destruct (i_weak _ _ _ _ I _ _ Ec) as (n & H1 & H2 & H3).
      exists n. split; [exact H1|]. unfold tref in *; cbn. rewrite Em.
      assert (pos (strong b') = pos (strong b)) as ->
        by (destruct (strong b'), (strong b); cbn; auto; exfalso; lia). lia.
    + rewrite setm_neq in H by assumption. destruct (i_weak _ _ _ _ I _ _ H) as (m & H1 & H2).
      exists m. split; [exact H1|]. unfold tref in *; cbn. now rewrite Ho'.
  - intros c1 c2 b1 b2 H1 H2 E. apply Ecb in H1. apply Ecb in H2.
    destruct H1 as (b01 & H1 & E1 & _), H2 as (b02 & H2 & E2 & _). eapply (i_one _ _ _ _ I); eauto. congruence.
  - intros c1 x H. apply Nn. eapply (i_sref _ _ _ _ I); eauto.
  - intros c1 x H. apply Nn. eapply (i_wref _ _ _ _ I); eauto.
  - intros c1 i. apply Nn. eapply Inc; [| |exact i]; [exact Ho|apply I].
  - intros c1 i. apply Nn. eapply Inc; [| |exact i]; [exact Ho'|apply I].
  - intros o x H. destruct (i_obj _ _ _ _ I _ _ H) as (H1 & H2 & H3 & H4). repeat split; auto.
    + intros c1 E. apply H2 in E. destruct E as (b0 & E & E'). apply Ecb' in E.
      destruct E as (b1 & E & E'' & _). exists b1. split; congruence.
    + intros B c1 b1 E E'. apply Ecb in E. destruct E as (b0 & E & E'' & _). eapply H4; eauto. congruence.
  - intros o. rewrite (i_alive _ _ _ _ I). split; (intros [H|H]; [left|right; exact H]).
    + destruct H as (c1 & b0 & H & H1 & H2). apply Ecb' in H. destruct H as (b1 & H & H3 & H4).
      exists c1, b1. repeat split; [auto|congruence|tauto].
    + destruct H as (c1 & b0 & H & H1 & H2). apply Ecb in H. destruct H as (b1 & H & H3 & H4).
      exists c1, b1. repeat split; [auto|congruence|tauto].
  - intros u o H. destruct (i_uniq _ _ _ _ I _ _ H) as (H1 & H2 & H3). repeat split; auto.
    intros c1 b1 E. apply Ecb in E. destruct E as (b0 & E & E' & _). rewrite E'. eapply H1; eauto.
  - intros o Ho1 c1 b1 E Em1. apply Ecb in E. destruct E as (b0 & E & E' & E2).
    assert (strong b0 = 0) by (eapply (i_phu _ _ _ _ I); eauto; congruence). lia.
  - assert (Sm : same_man s (set_cbs s (setm (cbs s) c (Some b')))).
    { intros c1 b1 E. apply Ecb' in E. destruct E as (b2 & E & E' & _). exists b2; auto. }
    constructor; cbn; try apply R; intros z; eapply prel_man; eauto; apply R.
Qed.

Lemma add_ref_good ph phw phu s a c b :
  good ph phw phu s a -> cbs s c = Some b -> 0 < strong b ->
  exists s', add_ref (Some c) s = Ok tt s' /\ good (c :: ph) phw phu s' a /\
    shared s' = shared s /\ weaks s' = weaks s /\ uniq s' = uniq s /\ objs s' = objs s /\
    cbs s' c = Some (mkCb (S (strong b)) (weak b) (managed b)).
Proof.
  intros G E P. eexists. split.
  - unfold add_ref, bind, get_cb. rewrite E. reflexivity.
  - split; [|cbn; rewrite setm_eq; auto 10].
    eapply (set_cb_good ph phw phu (c :: ph) phw _ _ _ b); cbn; eauto; try lia.
    + destruct (i_weak _ _ _ _ (proj1 G) _ _ E) as (n & _ & _ & H). exact H.
    + intros c' n. destruct (Nat.eq_dec c c'); congruence.
    + destruct (Nat.eq_dec c c); [lia|congruence].
Qed.
Lemma weak_add_ref_good ph phw phu s a c :
  good ph phw phu s a -> (forall c', c = Some c' -> cbs s c' <> None) ->
  exists s', weak_add_ref c s = Ok tt s' /\ good ph (optl c ++ phw) phu s' a /\
    shared s' = shared s /\ weaks s' = weaks s /\ uniq s' = uniq s /\ objs s' = objs s /\
    (forall c1 b, cbs s c1 = Some b -> exists b', cbs s' c1 = Some b' /\ strong b' = strong b /\ managed b' = managed b).
Proof.
  intros G N. destruct c as [c|]; cbn.
  2:{ exists s. split; [reflexivity|]. split; [exact G|]. repeat (split; [reflexivity|]).
      intros c1 b0 E; exists b0; auto. }
  destruct (cbs s c) as [b|] eqn:E; [|destruct (N c); auto].
  eexists. split.
  - unfold bind, get_cb. rewrite E. reflexivity.
  - split; [|cbn; repeat split; auto].
    + eapply (set_cb_good ph phw phu ph (c :: phw) _ _ _ b); cbn; eauto; try lia.
      * intros c' n. destruct (Nat.eq_dec c c'); congruence.
      * destruct (Nat.eq_dec c c); [lia|congruence].
    + intros c1 b1 E1. destruct (Nat.eq_dec c1 c) as [->|n].
      * rewrite setm_eq. rewrite E in E1. injection E1 as <-. eexists; split; [reflexivity|]. auto.
      * rewrite setm_neq by assumption. exists b1; auto.
Qed.

(** ** Pointers *)
Lemma occ_optl c x l : occ (optl c ++ l) x =
  (match c with Some c' => if Nat.eq_dec c' x then 1 else 0 | None => 0 end) + occ l x.
Proof. destruct c as [c|]; cbn; [|reflexivity]. now destruct (Nat.eq_dec c x). Qed.

Section Slot.
Variable m : nat -> option sp.
Definition refs (m : nat -> option sp) (c x : nat) : Prop := exists p, m x = Some p /\ block p = Some c.
Lemma refs_blk c x : refs m c x <-> blk (m x) = Some c.
Proof.
  unfold refs. split.
  - intros (p & -> & E). exact E.
  - destruct (m x) as [p|]; [|discriminate]. intros E. exists p. auto.
Qed.
End Slot.
Lemma slot_count m x v c n l :
  exactly n (refs m c) ->
  exists n', exactly n' (refs (setm m x v) c) /\
    n' + occ (optl (blk (m x)) ++ l) c = n + occ (optl (blk v) ++ l) c.
Proof.
  intros H. rewrite !occ_optl.
  assert (R : forall y, refs (setm m x v) c y <-> if Nat.eq_dec y x then blk v = Some c else refs m c y).
  { intros y. rewrite (refs_blk (setm m x v)). destruct (Nat.eq_dec y x) as [->|ne].
    - rewrite setm_eq. tauto.
    - rewrite setm_neq, (refs_blk m) by assumption. tauto. }
  destruct (blk (m x)) as [c1|] eqn:E1; [destruct (Nat.eq_dec c1 c) as [->|n1]|];
    (destruct (blk v) as [c2|] eqn:E2; [destruct (Nat.eq_dec c2 c) as [->|n2]|]).
  all: try (exists n; split; [|lia]; eapply exactly_ext; [|exact H]; intros y; rewrite R;
            destruct (Nat.eq_dec y x) as [->|ne]; [rewrite refs_blk|]; intuition congruence).
  all: try (exists (pred n); split;
    [eapply (exactly_remove n (refs m c) _ x); [exact H|now apply refs_blk|];
     intros y; rewrite R; destruct (Nat.eq_dec y x) as [->|ne]; intuition congruence
    |assert (0 < n) by (eapply (exactly_pos _ _ x); [exact H|now apply refs_blk]); lia]).
  all: exists (S n); split; [|lia];
    eapply (exactly_add n (refs m c) _ x); [exact H|rewrite refs_blk; congruence|];
     intros y; rewrite R; destruct (Nat.eq_dec y x) as [->|ne]; intuition congruence.
Qed.
Lemma in_optl c l (x : nat) : In x (optl c ++ l) <-> c = Some x \/ In x l.
Proof. destruct c as [c|]; cbn; intuition congruence. Qed.

Lemma set_sp_good ph phw phu s a x v q :
  good (optl (blk v) ++ ph) phw phu s a -> prel s q v ->
  good (optl (blk (shared s x)) ++ ph) phw phu (set_shared s (setm (shared s) x v)) (with_ash a x q).
Proof.
  intros [I R] Q. split; [constructor|]; cbn; try apply I.
  - intros c b H. destruct (i_strong _ _ _ _ I _ _ H) as (n & H1 & H2).
    destruct (slot_count (shared s) x v c n ph H1) as (n' & H3 & H4).
    exists n'. split; [exact H3|]. lia.
  - intros c y H. apply (refs_blk (setm (shared s) x v)) in H. unfold setm in H.
    destruct (Nat.eqb_spec y x) as [e|ne]; [subst y|].
    + apply (i_ph _ _ _ _ I). apply in_optl. auto.
    + apply (i_sref _ _ _ _ I c y). now apply (refs_blk (shared s)).
  - intros c H. apply in_optl in H. destruct H as [H|H].
    + apply (i_sref _ _ _ _ I c x). now apply (refs_blk (shared s)).
    + apply (i_ph _ _ _ _ I). apply in_optl. auto.
  - constructor; cbn; try apply R.
    intros y. unfold setm. destruct (Nat.eqb_spec y x) as [e|ne]; [exact Q|apply R].
Qed.
Lemma set_wp_good ph phw phu s a w v q :
  good ph (optl (blk v) ++ phw) phu s a -> prel s q v ->
  good ph (optl (blk (weaks s w)) ++ phw) phu (set_weaks s (setm (weaks s) w v)) (with_awk a w q).
Proof.
  intros [I R] Q. split; [constructor|]; cbn; try apply I.
  - intros c b H. destruct (i_weak _ _ _ _ I _ _ H) as (n & H1 & H2 & H3).
    destruct (slot_count (weaks s) w v c n phw H1) as (n' & H4 & H5).
    exists n'. split; [exact H4|]. unfold tref in *; cbn. lia.
  - intros c y H. apply (refs_blk (setm (weaks s) w v)) in H. unfold setm in H.
    destruct (Nat.eqb_spec y w) as [e|ne]; [subst y|].
    + apply (i_phw _ _ _ _ I). apply in_optl. auto.
    + apply (i_wref _ _ _ _ I c y). now apply (refs_blk (weaks s)).
  - intros c H. apply in_optl in H. destruct H as [H|H].
    + apply (i_wref _ _ _ _ I c w). now apply (refs_blk (weaks s)).
    + apply (i_phw _ _ _ _ I). apply in_optl. auto.
  - constructor; cbn; try apply R.
    intros y. unfold setm. destruct (Nat.eqb_spec y w) as [e|ne]; [exact Q|apply R].
Qed.

(** ** Releasing *)
Lemma weak_release_good ph phw phu s a c :
  good ph (optl c ++ phw) phu s a ->
  exists m, good ph phw phu (set_cbs s m) a /\
    forall s1 : store, cbs s1 = cbs s -> weak_release c s1 = Ok tt (set_cbs s1 m).
Proof.
  intros G. destruct c as [c|]; cbn in G.
  2:{ exists (cbs s). split; [destruct s; exact G|]. intros s1 E. cbn. rewrite <- E. now destruct s1. }
  pose proof (proj1 G) as I. assert (In c (c :: phw)) as Hi by now left.
  apply (i_phw _ _ _ _ I) in Hi. destruct (cbs s c) as [b|] eqn:E; [clear Hi|congruence].
  destruct (i_weak _ _ _ _ I _ _ E) as (n & H1 & H2 & H3). cbn in H2.
  destruct (Nat.eq_dec c c) as [_|]; [|congruence].
  destruct (weak b) as [|[|k]] eqn:W; [lia| |].
  - (* the last one *)
    exists (setm (cbs s) c None). split.
    2:{ intros s1 E1. unfold weak_release, bind, get_cb. rewrite E1, E, W. unfold put_cb. now rewrite E1. }
    assert (n = 0 /\ occ phw c = 0 /\ tref s c b = 0 /\ strong b = 0) as (-> & Ho & Ht & Hs).
    { destruct (strong b); cbn in H2; lia. }
    assert (Nw : forall w, ~ wrefs s c w) by (intros w; now apply exactly_0_inv).
    destruct (i_strong _ _ _ _ I _ _ E) as (ns & S1 & S2).
    assert (ns = 0 /\ occ ph c = 0) as [-> Hop] by lia.
    assert (Ns : forall x, ~ srefs s c x) by (intros x; now apply exactly_0_inv).
    assert (Ecb : forall c1 b1, setm (cbs s) c None c1 = Some b1 -> cbs s c1 = Some b1 /\ c1 <> c).
    { intros c1 b1 H. destruct (Nat.eq_dec c1 c) as [->|ne]; [rewrite setm_eq in H; discriminate|].
      rewrite setm_neq in H by assumption. auto. }
    assert (Nn : forall c1, c1 <> c -> cbs s c1 <> None -> setm (cbs s) c None c1 <> None)
      by (intros c1 ne H; now rewrite setm_neq).
    destruct G as [_ R].
    split; [constructor|]; cbn; try apply I.
    + intros c1 b1 H. apply Ecb in H. eapply (i_bound _ _ _ _ I), H.
    + intros c1 b1 H. apply Ecb in H. exact (i_strong _ _ _ _ I _ _ (proj1 H)).
    + intros c1 b1 H. apply Ecb in H. destruct (i_weak _ _ _ _ I _ _ (proj1 H)) as (m & W1 & W2).
      exists m. split; [exact W1|]. unfold tref in *; cbn in *.
      destruct (Nat.eq_dec c c1); [destruct H; congruence|exact W2].
    + intros c1 c2 b1 b2 H4 H5. apply Ecb in H4. apply Ecb in H5. eapply (i_one _ _ _ _ I); [apply H4|apply H5].
    + intros c1 x H. apply Nn; [|eapply (i_sref _ _ _ _ I); exact H]. intros ->. exact (Ns _ H).
    + intros c1 x H. apply Nn; [|eapply (i_wref _ _ _ _ I); exact H]. intros ->. exact (Nw _ H).
    + intros c1 H. apply Nn; [|apply (i_ph _ _ _ _ I), H]. intros ->. apply (count_occ_In Nat.eq_dec) in H. lia.
    + intros c1 H. apply Nn; [|apply (i_phw _ _ _ _ I); now right]. intros ->. apply (count_occ_In Nat.eq_dec) in H. lia.
    + intros o x H. destruct (i_obj _ _ _ _ I _ _ H) as (O1 & O2 & O3 & O4). repeat split; auto.
      * intros c1 H4. destruct (O2 _ H4) as (b1 & H5 & H6). exists b1. split; auto. rewrite setm_neq; auto.
        intros ->. rewrite E in H5. injection H5 as <-. unfold tref in Ht. rewrite H6, H, H4, Nat.eqb_refl in Ht.
        discriminate.
      * intros B c1 b1 H4 H5. apply Ecb in H4. apply (O4 B c1 b1); tauto.
    + intros o. rewrite (i_alive _ _ _ _ I). split; (intros [H|H]; [left|right; exact H]).
      * destruct H as (c1 & b1 & H4 & H5 & H6). exists c1, b1. repeat split; auto. rewrite setm_neq; auto.
        intros ->. rewrite E in H4. injection H4 as <-. lia.
      * destruct H as (c1 & b1 & H4 & H5 & H6). apply Ecb in H4. exists c1, b1. tauto.
    + intros u o H. destruct (i_uniq _ _ _ _ I _ _ H) as (U1 & U2 & U3). repeat split; auto.
      intros c1 b1 H4. apply Ecb in H4. eapply U1, H4.
    + intros o Ho1 c1 b1 H4. apply Ecb in H4. eapply (i_phu _ _ _ _ I); [exact Ho1|apply H4].
    + assert (Pr : forall q p, (forall c1, blk p = Some c1 -> c1 <> c) -> prel s q p ->
                  prel (set_cbs s (setm (cbs s) c None)) q p).
      { intros q p Hn. destruct q as [[[o|] r]|], p as [p|]; cbn; auto.
        intros (E1 & c1 & b1 & E2 & E3 & E4). split; auto. exists c1, b1. repeat split; auto.
        rewrite setm_neq; auto. }
      constructor; cbn; try apply R.
      * intros x. apply Pr; [|apply R]. intros c1 H ->. apply (Ns x). now apply (refs_blk (shared s)).
      * intros x. apply Pr; [|apply R]. intros c1 H ->. apply (Nw x). now apply (refs_blk (weaks s)).
  - exists (setm (cbs s) c (Some (mkCb (strong b) (S k) (managed b)))). split.
    2:{ intros s1 E1. unfold weak_release, bind, get_cb. rewrite E1, E, W. unfold put_cb. now rewrite E1. }
    eapply (set_cb_good ph (c :: phw) phu ph phw _ _ _ b); cbn; eauto; try lia.
    + intros c' ne. destruct (Nat.eq_dec c c'); congruence.
    + destruct (Nat.eq_dec c c); [lia|congruence].
Qed.

(** The object itself goes; what its weak_this counted is then on its own. *)
Definition without (s : store) (o : nat) : store :=
  mkStore (setm (objs s) o None) (fresh_o s) (cbs s) (fresh_c s) (shared s) (weaks s) (uniq s) (o :: destroyed s).
Lemma without_good ph phw s a o x :
  good ph phw (Some o) s a -> objs s o = Some x ->
  good ph (optl (weak_this x) ++ phw) None (without s o) a.
Proof.
  intros [I R] E. destruct (i_obj _ _ _ _ I _ _ E) as (O1 & O2 & O3 & O4).
  assert (Eo : forall o1 x1, setm (objs s) o None o1 = Some x1 -> objs s o1 = Some x1 /\ o1 <> o).
  { intros o1 x1 H. destruct (Nat.eq_dec o1 o) as [->|ne]; [rewrite setm_eq in H; discriminate|].
    rewrite setm_neq in H by assumption. auto. }
  split; [constructor|]; cbn; try apply I.
  - intros c b H. destruct (i_weak _ _ _ _ I _ _ H) as (n & W1 & W2 & W3). exists n.
    split; [exact W1|]. split; [|exact W3]. rewrite W2, occ_optl. unfold tref; cbn.
    destruct (Nat.eq_dec (managed b) o) as [Em|ne].
    + rewrite Em, setm_eq, E. destruct (weak_this x) as [c'|]; [|lia].
      destruct (Nat.eqb_spec c' c) as [e|ne]; [subst c'|].
      * destruct (Nat.eq_dec c c); [lia|congruence].
      * destruct (Nat.eq_dec c' c); [congruence|lia].
    + rewrite setm_neq by assumption. destruct (weak_this x) as [c'|] eqn:Wt; [|lia].
      destruct (Nat.eq_dec c' c) as [->|]; [|lia]. exfalso.
      destruct (O2 _ eq_refl) as (b' & H' & Em). congruence.
  - intros c i. apply in_optl in i. destruct i as [i|i]; [|now apply (i_phw _ _ _ _ I)].
    destruct (O2 _ i) as (b' & H' & _). congruence.
  - intros o1 x1 H. apply Eo in H. exact (i_obj _ _ _ _ I _ _ (proj1 H)).
  - intros o1. split.
    + intros H. destruct (Nat.eq_dec o1 o) as [->|ne]; [now rewrite setm_eq in H|].
      rewrite setm_neq in H by assumption. apply (i_alive _ _ _ _ I) in H.
      destruct H as [H|[H|H]]; [auto|auto|congruence].
    + intros [(c & b & H1 & H2 & H3)|[(u & H)|H]]; [| |discriminate].
      * assert (ne : o1 <> o).
        { intros ->. rewrite (i_phu _ _ _ _ I o eq_refl c b H1 H2) in H3. lia. }
        rewrite setm_neq by assumption. apply (i_alive _ _ _ _ I). left. exists c, b; auto.
      * assert (ne : o1 <> o).
        { intros ->. destruct (i_uniq _ _ _ _ I _ _ H) as (_ & _ & U). congruence. }
        rewrite setm_neq by assumption. apply (i_alive _ _ _ _ I). right. left. exists u; auto.
  - intros u o1 H. destruct (i_uniq _ _ _ _ I _ _ H) as (U1 & U2 & U3). repeat split; auto. discriminate.
  - discriminate.
  - destruct (i_dead _ _ _ _ I) as [D1 D2]. split.
    + constructor; auto. rewrite D2. intros [_ H]. congruence.
    + intros o1. cbn. rewrite D2. destruct (Nat.eq_dec o1 o) as [->|ne].
      * rewrite setm_eq. tauto.
      * rewrite setm_neq by assumption. intuition congruence.
  - constructor; cbn; try apply R.
    intros o1 x1 H. apply Eo in H. apply (r_kind _ _ R), H.
Qed.

Lemma destroy_obj_good ph phw s a o :
  good ph phw (Some o) s a ->
  exists s', destroy_obj o s = Ok tt s' /\ good ph phw None s' a /\
    shared s' = shared s /\ weaks s' = weaks s /\ uniq s' = uniq s.
Proof.
  intros G. assert (A : objs s o <> None) by (apply (i_alive _ _ _ _ (proj1 G)); auto).
  destruct (objs s o) as [x|] eqn:E; [clear A|congruence].
  pose proof (without_good _ _ _ _ _ _ G E) as G'.
  destruct (weak_release_good _ _ _ _ _ _ G') as (m & G1 & W).
  specialize (W s eq_refl). eexists. split.
  - unfold destroy_obj, bind, get_obj. rewrite E, W. reflexivity.
  - split; [exact G1|]. cbn. auto.
Qed.

Lemma release_good ph phw s a c :
  good (optl c ++ ph) phw None s a ->
  exists s', release c s = Ok tt s' /\ good ph phw None s' a /\
    shared s' = shared s /\ weaks s' = weaks s /\ uniq s' = uniq s.
Proof.
  intros G. destruct c as [c|]; cbn in G.
  2:{ exists s. split; [reflexivity|]. split; [exact G|]. auto. }
  pose proof G as [I R]. assert (In c (c :: ph)) as Hi by now left.
  apply (i_ph _ _ _ _ I) in Hi. destruct (cbs s c) as [b|] eqn:E; [clear Hi|congruence].
  destruct (i_strong _ _ _ _ I _ _ E) as (n & H1 & H2). cbn in H2.
  destruct (Nat.eq_dec c c) as [_|]; [|congruence].
  destruct (strong b) as [|[|k]] eqn:W; [lia| |].
  - assert (n = 0 /\ occ ph c = 0) as [-> Ho] by lia.
    set (o := managed b). set (s1 := set_cbs s (setm (cbs s) c (Some (mkCb 0 (weak b) o)))).
    assert (G1 : good ph (c :: phw) (Some o) s1 a).
    { assert (Ecb : forall c1 b1, setm (cbs s) c (Some (mkCb 0 (weak b) o)) c1 = Some b1 ->
                (c1 = c /\ b1 = mkCb 0 (weak b) o) \/ (c1 <> c /\ cbs s c1 = Some b1)).
      { intros c1 b1 H. destruct (Nat.eq_dec c1 c) as [->|ne]; [rewrite setm_eq in H|rewrite setm_neq in H by assumption].
        - left. split; congruence. - auto. }
      assert (Nn : forall c1, cbs s c1 <> None -> setm (cbs s) c (Some (mkCb 0 (weak b) o)) c1 <> None).
      { intros c1 H. destruct (Nat.eq_dec c1 c) as [->|ne]; [rewrite setm_eq; discriminate|now rewrite setm_neq]. }
      split; [constructor|]; cbn; try apply I.
      - intros c1 b1 H. apply Ecb in H. destruct H as [[-> ->]|[ne H]]; [|eapply (i_bound _ _ _ _ I); eauto].
        exact (i_bound _ _ _ _ I _ _ E).
      - intros c1 b1 H. apply Ecb in H. destruct H as [[-> ->]|[ne H]].
        + exists 0. cbn. split; [exact H1|lia].
        + destruct (i_strong _ _ _ _ I _ _ H) as (m & S1 & S2). exists m. split; [exact S1|].
          cbn in S2. destruct (Nat.eq_dec c c1); [congruence|exact S2].
      - intros c1 b1 H. apply Ecb in H. destruct H as [[-> ->]|[ne H]].
        + destruct (i_weak _ _ _ _ I _ _ E) as (m & W1 & W2 & W3). exists m. split; [exact W1|].
          unfold tref in *; cbn in *. destruct (Nat.eq_dec c c); [|congruence]. rewrite W in W2. cbn in W2.
          fold o in W2. lia.
        + destruct (i_weak _ _ _ _ I _ _ H) as (m & W1 & W2 & W3). exists m. split; [exact W1|].
          unfold tref in *; cbn in *. destruct (Nat.eq_dec c c1); [congruence|]. lia.
      - intros c1 c2 b1 b2 X1 X2 Em. apply Ecb in X1. apply Ecb in X2.
        destruct X1 as [[-> ->]|[n1 X1]], X2 as [[-> ->]|[n2 X2]]; cbn in Em; auto.
        + eapply (i_one _ _ _ _ I); eauto. + eapply (i_one _ _ _ _ I); eauto.
        + eapply (i_one _ _ _ _ I); eauto.
      - intros c1 x H. apply Nn. eapply (i_sref _ _ _ _ I); eauto.
      - intros c1 x H. apply Nn. eapply (i_wref _ _ _ _ I); eauto.
      - intros c1 H. apply Nn. apply (i_ph _ _ _ _ I). now right.
      - intros c1 [->|H]; [rewrite setm_eq; discriminate|]. apply Nn. now apply (i_phw _ _ _ _ I).
      - intros o1 x H. destruct (i_obj _ _ _ _ I _ _ H) as (O1 & O2 & O3 & O4). repeat split; auto.
        + intros c1 H4. destruct (O2 _ H4) as (b1 & H5 & H6). destruct (Nat.eq_dec c1 c) as [->|ne].
          * rewrite setm_eq. eexists; split; [reflexivity|]. cbn. unfold o. congruence.
          * rewrite setm_neq by assumption. eauto.
        + intros B c1 b1 H4 H5. apply Ecb in H4. destruct H4 as [[-> ->]|[ne H4]]; eapply O4; eauto.
      - intros o1. rewrite (i_alive _ _ _ _ I). split.
        + intros [(c1 & b1 & H4 & H5 & H6)|[H|H]]; [|auto|discriminate].
          destruct (Nat.eq_dec c1 c) as [->|ne].
          * right. right. unfold o. congruence.
          * left. exists c1, b1. rewrite setm_neq by assumption. auto.
        + intros [(c1 & b1 & H4 & H5 & H6)|[H|H]]; [|auto|].
          * apply Ecb in H4. destruct H4 as [[-> ->]|[ne H4]]; [cbn in H6; lia|]. left. exists c1, b1; auto.
          * left. exists c, b. injection H as H. unfold o in H. repeat split; auto. lia.
      - intros u o1 H. destruct (i_uniq _ _ _ _ I _ _ H) as (U1 & U2 & U3). repeat split; auto.
        + intros c1 b1 H4. apply Ecb in H4. destruct H4 as [[-> ->]|[ne H4]]; [exact (U1 _ _ E)|eapply U1; eauto].
        + intros X. injection X as X. exact (U1 _ _ E X).
      - intros o1 X c1 b1 H4 H5. injection X as <-. apply Ecb in H4.
        destruct H4 as [[-> ->]|[ne H4]]; [reflexivity|]. exfalso. apply ne.
        eapply (i_one _ _ _ _ I); eauto.
      - assert (Sm : same_man s s1).
        { intros c1 b1 E1. cbn. destruct (Nat.eq_dec c1 c) as [->|ne].
          - rewrite setm_eq. eexists; split; [reflexivity|]. cbn. unfold o. congruence.
          - rewrite setm_neq by assumption. eauto. }
        constructor; cbn; try apply R; intros z; eapply prel_man; eauto; apply R. }
    destruct (destroy_obj_good _ _ _ _ _ G1) as (s2 & D & G2 & Es & Ew & Eu).
    destruct (weak_release_good _ _ _ _ _ (Some c) G2) as (m & G3 & Wr).
    exists (set_cbs s2 m). split.
    + unfold release, bind, get_cb. rewrite E, W. unfold put_cb. fold o. fold s1. rewrite D.
      now apply Wr.
    + split; [exact G3|]. cbn. auto.
  - eexists. split.
    + unfold release, bind, get_cb. rewrite E, W. reflexivity.
    + split; [|cbn; auto]. cbn.
      eapply (set_cb_good (c :: ph) phw None ph phw _ _ _ b); cbn; eauto; try lia.
      * destruct (i_weak _ _ _ _ I _ _ E) as (m & _ & _ & H). exact H.
      * intros c' ne. destruct (Nat.eq_dec c c'); congruence.
      * destruct (Nat.eq_dec c c); [lia|congruence].
Qed.
(** ** New objects and control blocks *)
Definition unmanaged (s : store) (o : nat) : Prop := forall c b, cbs s c = Some b -> managed b <> o.

Lemma new_obj_good ph phw s a v e :
  good ph phw None s a ->
  exists s', new_obj v e s = Ok (anext a) s' /\ good ph phw (Some (anext a)) s' (with_obj a (v, e)) /\
    unmanaged s' (anext a) /\ shared s' = shared s /\ weaks s' = weaks s /\ uniq s' = uniq s.
Proof.
  intros [I R]. eexists. split; [unfold new_obj; rewrite (r_next _ _ R); reflexivity|].
  assert (Um : unmanaged s (fresh_o s)).
  { intros c b H E. destruct (i_bound _ _ _ _ I _ _ H). lia. }
  rewrite (r_next _ _ R). split; [|cbn; auto].
  assert (Eo : forall o x, setm (objs s) (fresh_o s) (Some (mkObj v e None)) o = Some x ->
            (o = fresh_o s /\ x = mkObj v e None) \/ (o <> fresh_o s /\ objs s o = Some x)).
  { intros o x H. destruct (Nat.eq_dec o (fresh_o s)) as [->|ne].
    - rewrite setm_eq in H. left. split; congruence.
    - rewrite setm_neq in H by assumption. auto. }
  assert (Fr : objs s (fresh_o s) = None).
  { destruct (objs s (fresh_o s)) eqn:E; [|reflexivity]. destruct (i_obj _ _ _ _ I _ _ E). lia. }
  split; [constructor|]; cbn; try apply I.
  - intros c b H. destruct (i_bound _ _ _ _ I _ _ H). split; [auto|lia].
  - intros c b H. destruct (i_weak _ _ _ _ I _ _ H) as (n & W1 & W2). exists n. split; [exact W1|].
    unfold tref in *; cbn. rewrite setm_neq by (apply (Um _ _ H)). exact W2.
  - intros o x H. apply Eo in H. destruct H as [[-> ->]|[ne H]]; cbn.
    + split; [lia|]. split; [discriminate|]. split; [auto|]. intros _ c b H E. destruct (Um _ _ H E).
    + destruct (i_obj _ _ _ _ I _ _ H) as (O1 & O2). split; [lia|exact O2].
  - intros o. split.
    + intros H. destruct (Nat.eq_dec o (fresh_o s)) as [->|ne]; [auto|]. rewrite setm_neq in H by assumption.
      apply (i_alive _ _ _ _ I) in H. destruct H as [H|[H|H]]; [auto|auto|discriminate].
    + intros H. destruct (Nat.eq_dec o (fresh_o s)) as [->|ne]; [rewrite setm_eq; discriminate|].
      rewrite setm_neq by assumption. apply (i_alive _ _ _ _ I).
      destruct H as [H|[H|H]]; [auto|auto|]. injection H as H. congruence.
  - intros u o H. destruct (i_uniq _ _ _ _ I _ _ H) as (U1 & U2 & U3). repeat split; auto.
    intros X. injection X as <-. assert (A : objs s (fresh_o s) <> None) by (apply (i_alive _ _ _ _ I); eauto).
    congruence.
  - intros o X c b H E. injection X as <-. destruct (Um _ _ H E).
  - destruct (i_dead _ _ _ _ I) as [D1 D2]. split; [exact D1|]. intros o. rewrite D2.
    destruct (Nat.eq_dec o (fresh_o s)) as [->|ne].
    + rewrite setm_eq. split; [intros [H _]; lia|intros [_ H]; discriminate].
    + rewrite setm_neq by assumption. intuition lia.
  - constructor; cbn; try apply R; try (rewrite (r_next _ _ R)); auto.
    intros o x H. apply Eo in H. destruct H as [[-> ->]|[ne H]].
    + now rewrite setm_eq.
    + rewrite setm_neq by assumption. now apply R.
Qed.

Lemma set_uniq_take ph phw s a u o :
  good ph phw (Some o) s a -> (forall o', uniq s u <> Some (Some o')) -> unmanaged s o ->
  good ph phw None (set_uniq s (setm (uniq s) u (Some (Some o)))) (with_aun a u (Some (Some o))).
Proof.
  intros [I R] Hu Um. split; [constructor|]; cbn; try apply I.
  - intros o1. rewrite (i_alive _ _ _ _ I). split.
    + intros [H|[(u1 & H)|H]]; auto.
      * right. left. exists u1. rewrite setm_neq; auto. intros ->. exact (Hu _ H).
      * right. left. exists u. rewrite setm_eq. congruence.
    + intros [H|[(u1 & H)|H]]; auto; [|discriminate]. right.
      destruct (Nat.eq_dec u1 u) as [->|ne].
      * rewrite setm_eq in H. right. congruence.
      * rewrite setm_neq in H by assumption. eauto.
  - intros u1 o1 H. destruct (Nat.eq_dec u1 u) as [->|ne].
    + rewrite setm_eq in H. injection H as <-. split; [exact Um|]. split; [|discriminate].
      intros u2 H2. destruct (Nat.eq_dec u2 u) as [->|ne]; [auto|]. rewrite setm_neq in H2 by assumption.
      destruct (i_uniq _ _ _ _ I _ _ H2) as (_ & _ & X). congruence.
    + rewrite setm_neq in H by assumption. destruct (i_uniq _ _ _ _ I _ _ H) as (U1 & U2 & U3).
      split; [exact U1|]. split; [|discriminate]. intros u2 H2. destruct (Nat.eq_dec u2 u) as [->|ne2].
      * rewrite setm_eq in H2. congruence.
      * rewrite setm_neq in H2 by assumption. auto.
  - discriminate.
  - constructor; cbn; try apply R. intros u1. unfold setm. destruct (u1 =? u); [auto|apply R].
Qed.
Lemma set_uniq_leave ph phw s a u o v :
  good ph phw None s a -> uniq s u = Some (Some o) -> (forall o', v <> Some (Some o')) ->
  good ph phw (Some o) (set_uniq s (setm (uniq s) u v)) (with_aun a u v) /\ unmanaged s o.
Proof.
  intros [I R] Hu Hv. destruct (i_uniq _ _ _ _ I _ _ Hu) as (U1 & U2 & U3). split; [|exact U1].
  split; [constructor|]; cbn; try apply I.
  - intros o1. rewrite (i_alive _ _ _ _ I). split.
    + intros [H|[(u1 & H)|H]]; auto; [|discriminate].
      destruct (Nat.eq_dec u1 u) as [->|ne]; [right; right; congruence|].
      right. left. exists u1. now rewrite setm_neq.
    + intros [H|[(u1 & H)|H]]; auto.
      * right. left. destruct (Nat.eq_dec u1 u) as [->|ne].
        -- rewrite setm_eq in H. destruct (Hv _ H).
        -- rewrite setm_neq in H by assumption. eauto.
      * right. left. exists u. congruence.
  - intros u1 o1 H. destruct (Nat.eq_dec u1 u) as [->|ne].
    + rewrite setm_eq in H. destruct (Hv _ H).
    + rewrite setm_neq in H by assumption. destruct (i_uniq _ _ _ _ I _ _ H) as (X1 & X2 & X3).
      split; [exact X1|]. split.
      * intros u2 H2. destruct (Nat.eq_dec u2 u) as [->|ne2].
        -- rewrite setm_eq in H2. destruct (Hv _ H2).
        -- rewrite setm_neq in H2 by assumption. auto.
      * intros X. injection X as <-. apply ne. auto.
  - intros o1 X c b H E. injection X as <-. destruct (U1 _ _ H E).
  - constructor; cbn; try apply R. intros u1. unfold setm. destruct (u1 =? u); [auto|apply R].
Qed.
Lemma set_uniq_none ph phw s a u v :
  good ph phw None s a -> (forall o', uniq s u <> Some (Some o')) -> (forall o', v <> Some (Some o')) ->
  good ph phw None (set_uniq s (setm (uniq s) u v)) (with_aun a u v).
Proof.
  intros [I R] Hu Hv.
  assert (Eq : forall u1 o1, setm (uniq s) u v u1 = Some (Some o1) <-> uniq s u1 = Some (Some o1)).
  { intros u1 o1. destruct (Nat.eq_dec u1 u) as [->|ne].
    - rewrite setm_eq. split; intros H; [destruct (Hv _ H)|destruct (Hu _ H)].
    - now rewrite setm_neq. }
  split; [constructor|]; cbn; try apply I.
  - intros o1. rewrite (i_alive _ _ _ _ I). setoid_rewrite Eq. tauto.
  - intros u1 o1 H. apply Eq in H. destruct (i_uniq _ _ _ _ I _ _ H) as (X1 & X2 & X3).
    repeat split; auto. intros u2 H2. apply Eq in H2. auto.
  - constructor; cbn; try apply R. intros u1. unfold setm. destruct (u1 =? u); [auto|apply R].
Qed.

Lemma new_cb_good ph phw s a o :
  good ph phw (Some o) s a -> unmanaged s o ->
  exists c b s', new_cb o s = Ok c s' /\ good (c :: ph) phw None s' a /\
    cbs s' c = Some b /\ managed b = o /\
    shared s' = shared s /\ weaks s' = weaks s /\ uniq s' = uniq s.
Proof.
  intros [I R] Um. assert (A : objs s o <> None) by (apply (i_alive _ _ _ _ I); auto).
  destruct (objs s o) as [x|] eqn:E; [clear A|congruence].
  destruct (i_obj _ _ _ _ I _ _ E) as (O1 & O2 & O3 & O4).
  assert (Wt : weak_this x = None).
  { destruct (weak_this x) as [c|]; [|reflexivity]. destruct (O2 c eq_refl) as (b & H & H').
    destruct (Um _ _ H H'). }
  assert (Fr : cbs s (fresh_c s) = None).
  { destruct (cbs s (fresh_c s)) eqn:Ec; [|reflexivity]. destruct (i_bound _ _ _ _ I _ _ Ec). lia. }
  set (c := fresh_c s) in *.
  set (b := mkCb 1 (match base x with Some _ => 2 | None => 1 end) o).
  set (x' := mkObj (val x) (base x) (match base x with Some _ => Some c | None => None end)).
  (* the result, up to the order of the updates *)
  assert (K : forall s', objs s' o = Some x' -> (forall o1, o1 <> o -> objs s' o1 = objs s o1) ->
            fresh_o s' = fresh_o s -> cbs s' c = Some b -> (forall c1, c1 <> c -> cbs s' c1 = cbs s c1) ->
            fresh_c s' = S c -> shared s' = shared s -> weaks s' = weaks s -> uniq s' = uniq s ->
            destroyed s' = destroyed s -> good (c :: ph) phw None s' a).
  { intros s' X1 X2 X3 X4 X5 X6 X7 X8 X9 X10.
    assert (Ecb : forall c1 b1, cbs s' c1 = Some b1 -> (c1 = c /\ b1 = b) \/ (c1 <> c /\ cbs s c1 = Some b1)).
    { intros c1 b1 H. destruct (Nat.eq_dec c1 c) as [->|ne]; [left; split; congruence|].
      rewrite X5 in H by assumption. auto. }
    assert (Nn : forall c1, cbs s c1 <> None -> cbs s' c1 <> None).
    { intros c1 H. destruct (Nat.eq_dec c1 c) as [->|ne]; [congruence|]. now rewrite X5. }
    assert (Ns : forall x, ~ srefs s c x) by (intros y H; apply (i_sref _ _ _ _ I) in H; congruence).
    assert (Nw : forall x, ~ wrefs s c x) by (intros y H; apply (i_wref _ _ _ _ I) in H; congruence).
    assert (Np : ~ In c ph) by (intros H; apply (i_ph _ _ _ _ I) in H; congruence).
    assert (Npw : ~ In c phw) by (intros H; apply (i_phw _ _ _ _ I) in H; congruence).
    split; [constructor|].
    - intros c1 b1 H. apply Ecb in H. rewrite X3, X6. destruct H as [[-> ->]|[ne H]].
      + cbn. auto. + destruct (i_bound _ _ _ _ I _ _ H). unfold c. split; [lia|auto].
    - intros c1 b1 H. apply Ecb in H. unfold srefs. rewrite X7. destruct H as [[-> ->]|[ne H]].
      + exists 0. split; [now apply exactly_0|]. cbn. destruct (Nat.eq_dec c c); [|congruence].
        rewrite (proj1 (count_occ_not_In Nat.eq_dec ph c) Np). reflexivity.
      + destruct (i_strong _ _ _ _ I _ _ H) as (n & S1 & S2). exists n. split; [exact S1|].
        cbn. destruct (Nat.eq_dec c c1); [congruence|exact S2].
    - intros c1 b1 H. apply Ecb in H. unfold wrefs. rewrite X8. destruct H as [[-> ->]|[ne H]].
      + exists 0. split; [now apply exactly_0|].
        rewrite (proj1 (count_occ_not_In Nat.eq_dec phw c) Npw). unfold tref. cbn. rewrite X1. cbn.
        destruct (base x); cbn; [rewrite Nat.eqb_refl|]; lia.
      + destruct (i_weak _ _ _ _ I _ _ H) as (n & W1 & W2). exists n. split; [exact W1|].
        unfold tref in *. rewrite X2 by (apply (Um _ _ H)). exact W2.
    - intros c1 c2 b1 b2 H1 H2 Em. apply Ecb in H1. apply Ecb in H2.
      destruct H1 as [[-> ->]|[n1 H1]], H2 as [[-> ->]|[n2 H2]]; auto.
      + cbn in Em. destruct (Um _ _ H2). auto.
      + cbn in Em. destruct (Um _ _ H1). auto.
      + eapply (i_one _ _ _ _ I); eauto.
    - intros c1 y H. unfold srefs in H. rewrite X7 in H. apply Nn. eapply (i_sref _ _ _ _ I); eauto.
    - intros c1 y H. unfold wrefs in H. rewrite X8 in H. apply Nn. eapply (i_wref _ _ _ _ I); eauto.
    - intros c1 [<-|H]; [congruence|]. apply Nn. now apply (i_ph _ _ _ _ I).
    - intros c1 H. apply Nn. now apply (i_phw _ _ _ _ I).
    - intros o1 x1 H. destruct (Nat.eq_dec o1 o) as [->|ne].
      + rewrite X1 in H. injection H as <-. rewrite X3. split; [exact O1|]. cbn. split; [|split].
        * intros c1 H. destruct (base x); [|discriminate]. injection H as <-. exists b. auto.
        * intros ->. reflexivity.
        * intros B c1 b1 H Em. apply Ecb in H. destruct H as [[-> ->]|[ne H]].
          -- destruct (base x); congruence.
          -- destruct (Um _ _ H Em).
      + rewrite X2 in H by assumption. destruct (i_obj _ _ _ _ I _ _ H) as (P1 & P2 & P3 & P4).
        rewrite X3. repeat split; auto.
        * intros c1 H1. destruct (P2 _ H1) as (b1 & H2 & H3). exists b1. split; auto.
          rewrite X5; auto. congruence.
        * intros B c1 b1 H1 H2. apply Ecb in H1. destruct H1 as [[-> ->]|[ne1 H1]]; [cbn in H2; congruence|eauto].
    - intros o1. destruct (Nat.eq_dec o1 o) as [->|ne].
      + rewrite X1. split; [|discriminate]. intros _. left. exists c, b. cbn. auto.
      + rewrite X2 by assumption. rewrite (i_alive _ _ _ _ I), X9. split.
        * intros [(c1 & b1 & H1 & H2)|[H|H]]; [|auto|congruence]. left. exists c1, b1. rewrite X5; auto. congruence.
        * intros [(c1 & b1 & H1 & H2)|[H|H]]; [|auto|discriminate]. left. exists c1, b1. apply Ecb in H1.
          destruct H1 as [[-> ->]|[ne1 H1]]; [destruct H2; cbn in *; congruence|auto].
    - intros u o1 H. rewrite X9 in H. destruct (i_uniq _ _ _ _ I _ _ H) as (U1 & U2 & U3).
      rewrite X9. split; [|split; [exact U2|discriminate]]. intros c1 b1 H1. apply Ecb in H1.
      destruct H1 as [[-> ->]|[ne1 H1]]; [cbn; congruence|eauto].
    - discriminate.
    - destruct (i_dead _ _ _ _ I) as [D1 D2]. rewrite X10. split; [exact D1|]. intros o1. rewrite D2, X3.
      destruct (Nat.eq_dec o1 o) as [->|ne]; [rewrite X1, E; intuition discriminate|now rewrite X2].
    - assert (Sm : same_man s s').
      { intros c1 b1 E1. exists b1. rewrite X5; auto. congruence. }
      constructor.
      + intros y. rewrite X7. eapply prel_man; eauto. apply R.
      + intros y. rewrite X8. eapply prel_man; eauto. apply R.
      + intros y. rewrite X9. apply R.
      + intros o1 x1 H. destruct (Nat.eq_dec o1 o) as [->|ne].
        * rewrite X1 in H. injection H as <-. cbn. now apply R.
        * rewrite X2 in H by assumption. now apply R.
      + rewrite X3. apply R. }
  unfold new_cb, bind, get_obj. cbn -[c setm]. fold c. rewrite E.
  destruct (base x) as [d|] eqn:B.
  - rewrite Wt. cbn -[setm]. unfold bind, get_cb, get_obj. cbn -[setm]. rewrite setm_eq. cbn -[setm]. rewrite E.
    exists c, b. eexists. split; [reflexivity|]. cbn -[setm]. split; [|rewrite setm_eq; auto 10].
    apply K; cbn -[setm]; rewrite ?setm_eq, ?B; auto; intros; rewrite ?setm_neq; auto.
  - exists c, b. eexists. split; [reflexivity|]. cbn -[setm]. split; [|rewrite setm_eq; auto 10].
    apply K; cbn -[setm]; rewrite ?setm_eq; auto; [|intros; rewrite ?setm_neq; auto].
    rewrite E. unfold x'. f_equal. destruct x; cbn in *; congruence.
Qed.
(** ** The calls *)
Notation G0 := (good [] [] None).
Lemma sh_some ph phw phu s a x v : good ph phw phu s a -> ash a x = Some v ->
  exists p, shared s x = Some p /\ prel s (Some v) (Some p).
Proof.
  intros [_ R] E. pose proof (r_sh _ _ R x) as P. rewrite E in P.
  destruct (shared s x) as [p|]; [|destruct v as [[o|] r]; destruct P]. eauto.
Qed.
Lemma sh_none ph phw phu s a x : good ph phw phu s a -> ash a x = None -> shared s x = None.
Proof.
  intros [_ R] E. pose proof (r_sh _ _ R x) as P. rewrite E in P. now destruct (shared s x).
Qed.
Lemma wk_some ph phw phu s a x v : good ph phw phu s a -> awk a x = Some v ->
  exists p, weaks s x = Some p /\ prel s (Some v) (Some p).
Proof.
  intros [_ R] E. pose proof (r_wk _ _ R x) as P. rewrite E in P.
  destruct (weaks s x) as [p|]; [|destruct v as [[o|] r]; destruct P]. eauto.
Qed.
Lemma wk_none ph phw phu s a x : good ph phw phu s a -> awk a x = None -> weaks s x = None.
Proof.
  intros [_ R] E. pose proof (r_wk _ _ R x) as P. rewrite E in P. now destruct (weaks s x).
Qed.
Lemma new_sp_good ph phw phu s a x p q :
  good (optl (block p) ++ ph) phw phu s a -> ash a x = None -> prel s q (Some p) ->
  exists s', new_sp x p s = Ok tt s' /\ good ph phw phu s' (with_ash a x q).
Proof.
  intros G E Q. pose proof (sh_none _ _ _ _ _ _ G E) as N. unfold new_sp. rewrite N.
  eexists. split; [reflexivity|]. pose proof (set_sp_good ph phw phu s a x (Some p) q G Q) as H.
  rewrite N in H. exact H.
Qed.
Lemma new_wp_good ph phw phu s a w p q :
  good ph (optl (block p) ++ phw) phu s a -> awk a w = None -> prel s q (Some p) ->
  exists s', new_wp w p s = Ok tt s' /\ good ph phw phu s' (with_awk a w q).
Proof.
  intros G E Q. pose proof (wk_none _ _ _ _ _ _ G E) as N. unfold new_wp. rewrite N.
  eexists. split; [reflexivity|]. pose proof (set_wp_good ph phw phu s a w (Some p) q G Q) as H.
  rewrite N in H. exact H.
Qed.

Lemma owner_refs ph phw phu s a c b o x : good ph phw phu s a ->
  cbs s c = Some b -> managed b = o -> (owner a o x <-> srefs s c x).
Proof.
  intros [I R] E Em. unfold owner, srefs. pose proof (r_sh _ _ R x) as P. split.
  - intros (p & H). rewrite H in P. destruct (shared s x) as [q|]; [|destruct P].
    destruct P as (_ & c1 & b1 & E1 & E2 & E3). exists q. split; auto.
    rewrite E1. f_equal. eapply (i_one _ _ _ _ I); eauto. congruence.
  - intros (q & H & E1). rewrite H in P. destruct (ash a x) as [[[o1|] r]|]; [|destruct P; congruence|destruct P].
    destruct P as (_ & c1 & b1 & E2 & E3 & E4). exists r. congruence.
Qed.
Lemma strong_owners s a c b o : G0 s a -> cbs s c = Some b -> managed b = o -> exactly (strong b) (owner a o).
Proof.
  intros G E Em. destruct (i_strong _ _ _ _ (proj1 G) _ _ E) as (n & H1 & H2). cbn in H2.
  replace (strong b) with n by lia. eapply exactly_ext; [|exact H1].
  intros x. symmetry. eapply owner_refs; eauto.
Qed.
Lemma owned_strong s a o : G0 s a -> owned a o -> exists c b, cbs s c = Some b /\ managed b = o /\ 0 < strong b.
Proof.
  intros G (x & p & E). destruct (sh_some _ _ _ _ _ _ _ G E) as (q & H & _ & c & b & E1 & E2 & E3).
  exists c, b. repeat split; auto. eapply exactly_pos; [eapply strong_owners; eauto|].
  exists p. exact E.
Qed.
Lemma strong_owned s a c b o : G0 s a -> cbs s c = Some b -> managed b = o -> 0 < strong b -> owned a o.
Proof.
  intros G E Em P. pose proof (strong_owners _ _ _ _ _ G E Em) as X. destruct (strong b); [lia|].
  apply exactly_S_inv in X. exact X.
Qed.
Lemma alive_obj s a o : G0 s a -> (alive a o <-> objs s o <> None).
Proof.
  intros G. rewrite (i_alive _ _ _ _ (proj1 G)). unfold alive. split.
  - intros [H|(u & H)]; [left; eapply owned_strong; eauto|]. right. left. exists u. now rewrite <- (r_un _ _ (proj2 G)).
  - intros [(c & b & E & Em & P)|[(u & H)|H]]; [|right; exists u; now rewrite (r_un _ _ (proj2 G))|discriminate].
    left. eapply strong_owned; eauto.
Qed.
Lemma owned_dec s a o : G0 s a -> owned a o \/ ~ owned a o.
Proof.
  intros G. destruct (objs s o) as [x|] eqn:E.
  - assert (A : objs s o <> None) by congruence. apply (i_alive _ _ _ _ (proj1 G)) in A.
    destruct A as [(c & b & E1 & Em & P)|[(u & H)|H]]; [|right|discriminate].
    + left. eapply strong_owned; eauto.
    + intros O. destruct (owned_strong _ _ _ G O) as (c & b & E1 & Em & P).
      destruct (i_uniq _ _ _ _ (proj1 G) _ _ H) as (U & _). exact (U _ _ E1 Em).
  - right. intros O. assert (A : alive a o) by now left. apply (alive_obj _ _ _ G) in A. congruence.
Qed.

(** use_count() of a pointer which owns or observes [o] *)
Lemma use_count_some s c b r : cbs s c = Some b ->
  use_count (mkSp (Some c) r) s = Ok (strong b) (s : store).
Proof. intros E. unfold use_count, bind, get_cb. cbn. now rewrite E. Qed.

Lemma base_weak_this ph phw phu s a o v d x : good ph phw phu s a -> kind a o = Some (v, Some d) ->
  objs s o = Some x -> base x = Some d.
Proof. intros [_ R] K E. rewrite (r_kind _ _ R _ _ E) in K. congruence. Qed.

Lemma shared_from_this_good s a o v d : G0 s a -> kind a o = Some (v, Some d) -> owned a o ->
  exists c b s', shared_from_this o s = Ok (mkSp (Some c) (Some (o, d))) s' /\
    good [c] [] None s' a /\ cbs s' c = Some b /\ managed b = o /\ 1 < strong b /\
    shared s' = shared s /\ weaks s' = weaks s /\ objs s' = objs s.
Proof.
  intros G K O. destruct (owned_strong _ _ _ G O) as (c & b & E & Em & P).
  assert (A : objs s o <> None) by (apply (alive_obj _ _ _ G); now left).
  destruct (objs s o) as [x|] eqn:Eo; [clear A|congruence].
  assert (B := base_weak_this _ _ _ _ _ _ _ _ _ G K Eo).
  destruct (i_obj _ _ _ _ (proj1 G) _ _ Eo) as (_ & _ & _ & O4).
  assert (W : weak_this x = Some c) by (eapply O4; eauto; congruence).
  destruct (add_ref_good _ _ _ _ _ _ _ G E P) as (s' & A & G' & E1 & E2 & E3 & E4 & E5).
  exists c, (mkCb (S (strong b)) (weak b) (managed b)), s'. split.
  - unfold shared_from_this, bind, get_obj. rewrite Eo, B, W. unfold from_weak, bind.
    rewrite (use_count_some _ _ _ _ E). destruct (Nat.eqb_spec (strong b) 0); [lia|].
    cbn [block]. rewrite A. reflexivity.
  - split; [exact G'|]. split; [exact E5|]. cbn. split; [exact Em|]. split; [lia|auto].
Qed.
Lemma shared_from_this_none s a o v d : G0 s a -> kind a o = Some (v, Some d) -> alive a o -> ~ owned a o ->
  shared_from_this o s = Throw BadWeakPtr s.
Proof.
  intros G K Al O. apply (alive_obj _ _ _ G) in Al. destruct (objs s o) as [x|] eqn:Eo; [clear Al|congruence].
  assert (B := base_weak_this _ _ _ _ _ _ _ _ _ G K Eo).
  destruct (i_obj _ _ _ _ (proj1 G) _ _ Eo) as (_ & O2 & _ & O4).
  unfold shared_from_this, bind, get_obj. rewrite Eo, B. unfold from_weak, bind.
  destruct (weak_this x) as [c|] eqn:W; [|reflexivity].
  destruct (O2 _ eq_refl) as (b & E & Em). rewrite (use_count_some _ _ _ _ E).
  destruct (Nat.eqb_spec (strong b) 0); [reflexivity|]. destruct O. eapply strong_owned; eauto. lia.
Qed.
(** a temporary shared pointer becomes another one and goes *)
Lemma swap_ref_good phw s a c b : good [c] phw None s a -> cbs s c = Some b -> 0 < strong b ->
  exists s', (add_ref (Some c) ;;; release (Some c)) s = Ok tt s' /\ good [c] phw None s' a /\
    shared s' = shared s /\ weaks s' = weaks s /\ uniq s' = uniq s.
Proof.
  intros G E P. destruct (add_ref_good _ _ _ _ _ _ _ G E P) as (s1 & A & G1 & E1 & E2 & E3 & E4 & E5).
  destruct (release_good [c] phw s1 a (Some c) G1) as (s2 & B & G2 & F1 & F2 & F3).
  exists s2. split; [unfold bind; now rewrite A|]. split; [exact G2|]. repeat split; congruence.
Qed.
Lemma shared_from_good s a o v d p : G0 s a -> kind a o = Some (v, Some d) -> owned a o ->
  exists c b s', shared_from o p s = Ok (mkSp (Some c) p) s' /\
    good [c] [] None s' a /\ cbs s' c = Some b /\ managed b = o /\ 0 < strong b /\
    shared s' = shared s /\ weaks s' = weaks s.
Proof.
  intros G K O. destruct (shared_from_this_good _ _ _ _ _ G K O) as (c & b & s1 & E & G1 & E1 & Em & P & F1 & F2 & F3).
  destruct (swap_ref_good _ _ _ _ _ G1 E1) as (s2 & E2 & G2 & F4 & F5 & F6); [lia|].
  assert (X : exists b', cbs s2 c = Some b' /\ managed b' = o /\ 0 < strong b').
  { destruct O as (x & r & Hx). destruct (sh_some _ _ _ _ _ _ _ G2 Hx) as (q & Hq & _ & c' & b' & E3 & E4 & E5).
    destruct (sh_some _ _ _ _ _ _ _ G1 Hx) as (q1 & Hq1 & _ & c1 & b1 & E6 & E7 & E8).
    assert (c1 = c) by (eapply (i_one _ _ _ _ (proj1 G1)); eauto; congruence). subst c1.
    assert (q1 = q) by congruence. subst q1. assert (c' = c) by congruence. subst c'.
    exists b'. repeat split; auto.
    destruct (i_strong _ _ _ _ (proj1 G2) _ _ E4) as (n & _ & S2). cbn in S2.
    destruct (Nat.eq_dec c c); [lia|congruence]. }
  destruct X as (b' & X1 & X2 & X3).
  exists c, b', s2. split.
  - unfold shared_from. rewrite (bind_ok _ _ _ _ _ E). cbn [block].
    unfold bind in *. destruct (add_ref (Some c) s1) as [[] s1'| | |] eqn:A; try discriminate.
    rewrite E2. reflexivity.
  - split; [exact G2|]. repeat split; auto; congruence.
Qed.
Lemma shared_from_none s a o v d p : G0 s a -> kind a o = Some (v, Some d) -> alive a o -> ~ owned a o ->
  shared_from o p s = Throw BadWeakPtr s.
Proof.
  intros G K Al O. unfold shared_from. erewrite bind_throw; [reflexivity|].
  eapply shared_from_this_none; eauto.
Qed.
(** a temporary shared pointer is observed and goes *)
Lemma to_weak_good s a c b : good [c] [] None s a -> cbs s c = Some b ->
  exists s', (weak_add_ref (Some c) ;;; release (Some c)) s = Ok tt s' /\ good [] [c] None s' a /\
    shared s' = shared s /\ weaks s' = weaks s /\ uniq s' = uniq s.
Proof.
  intros G E. destruct (weak_add_ref_good _ _ _ _ _ (Some c) G) as (s1 & A & G1 & E1 & E2 & E3 & E4 & E5).
  { intros c' H. congruence. }
  destruct (release_good [] [c] s1 a (Some c) G1) as (s2 & B & G2 & F1 & F2 & F3).
  exists s2. split; [unfold bind; now rewrite A|]. split; [exact G2|]. repeat split; congruence.
Qed.
(** the control block of an owned object stays *)
Lemma still_man ph phw phu ph' phw' phu' s s' a c b o : good ph phw phu s a -> good ph' phw' phu' s' a ->
  owned a o -> cbs s c = Some b -> managed b = o -> shared s' = shared s ->
  exists b', cbs s' c = Some b' /\ managed b' = o.
Proof.
  intros G G' (x & r & Hx) E Em F.
  destruct (sh_some _ _ _ _ _ _ _ G Hx) as (q & Hq & _ & c1 & b1 & E1 & E2 & E3).
  destruct (sh_some _ _ _ _ _ _ _ G' Hx) as (q' & Hq' & _ & c2 & b2 & E4 & E5 & E6).
  assert (c1 = c) by (eapply (i_one _ _ _ _ (proj1 G)); eauto; congruence). subst c1.
  assert (q' = q) by congruence. subst q'. assert (c2 = c) by congruence. subst c2. eauto.
Qed.
Lemma prel_empty s : prel s (Some (None, None)) (Some empty).
Proof. cbn. auto. Qed.
Lemma prel_own s c b o r : cbs s c = Some b -> managed b = o ->
  prel s (Some (Some o, r)) (Some (mkSp (Some c) r)).
Proof. intros. cbn. split; [reflexivity|]. exists c, b. auto. Qed.
(** copying a pointer counts *)
Lemma add_ref_opt ph phw s a v p : good ph phw None s a -> prel s (Some v) (Some p) ->
  (forall o, fst v = Some o -> exists c b, cbs s c = Some b /\ managed b = o /\ 0 < strong b) ->
  exists s', add_ref (block p) s = Ok tt s' /\ good (optl (block p) ++ ph) phw None s' a /\
    shared s' = shared s /\ weaks s' = weaks s /\ uniq s' = uniq s /\ prel s' (Some v) (Some p).
Proof.
  intros G P Ow. destruct v as [[o|] r]; cbn in P.
  - destruct P as (E & c & b & E1 & E2 & E3). destruct (Ow o eq_refl) as (c' & b' & F1 & F2 & F3).
    assert (c' = c) by (eapply (i_one _ _ _ _ (proj1 G)); eauto; congruence). subst c'.
    assert (b' = b) by congruence. subst b'.
    destruct (add_ref_good _ _ _ _ _ _ _ G E2 F3) as (s' & A & G' & H1 & H2 & H3 & H4 & H5).
    exists s'. rewrite E1. split; [exact A|]. split; [exact G'|]. repeat (split; [assumption|]).
    exists c. eexists. split; [exact E1|]. split; [exact H5|]. exact E3.
  - destruct P as [E E']. rewrite E. exists s. split; [reflexivity|]. split; [exact G|].
    cbn. auto.
Qed.

Lemma call_sim s a o x a' : G0 s a -> sstep a o x a' ->
  exists s', call o s = Ok x s' /\ G0 s' a'.
Proof.
  intros G S. inversion S; subst.
  - (* Default *)
    destruct (new_sp_good [] [] None s a x0 empty _ G H (prel_empty s)) as (s' & E & G').
    exists s'. split; [cbn; now rewrite (bind_ok _ _ _ _ _ E)|exact G'].
  - (* MakeShared *)
    destruct (new_obj_good [] [] s a v e G) as (s1 & E1 & G1 & Um & F1 & F2 & F3).
    destruct (new_cb_good _ _ _ _ _ G1 Um) as (c & b & s2 & E2 & G2 & B1 & B2 & F4 & F5 & F6).
    destruct (new_sp_good [] [] None s2 (with_obj a (v, e)) x0 (mkSp (Some c) (Some (anext a, 0)))
                (Some (Some (anext a), Some (anext a, 0))) G2 H (prel_own _ _ _ _ _ B1 B2)) as (s3 & E3 & G3).
    exists s3. split; [|exact G3]. cbn [SharedModel.call]. unfold make_shared.
    unfold bind. rewrite E1, E2. cbn. rewrite E3. reflexivity.
  - (* MakeUnique *)
    destruct (new_obj_good [] [] s a v e G) as (s1 & E1 & G1 & Um & F1 & F2 & F3).
    assert (N : uniq s u = None) by (rewrite <- (r_un _ _ (proj2 G)); exact H).
    eexists. split.
    + cbn [SharedModel.call]. rewrite N. unfold make_unique, bind. rewrite E1. reflexivity.
    + cbn. eapply set_uniq_take; auto. intros o'. rewrite F3, N. discriminate.
  - (* DropUnique *)
    assert (N : uniq s u = Some h) by (rewrite <- (r_un _ _ (proj2 G)); exact H).
    cbn [SharedModel.call]. rewrite N. destruct h as [o|].
    + destruct (set_uniq_leave [] [] s a u o None G N) as [G1 Um]; [discriminate|].
      destruct (destroy_obj_good _ _ _ _ _ G1) as (s2 & E2 & G2 & _).
      exists s2. split; [|exact G2]. unfold bind. rewrite E2. reflexivity.
    + eexists. split; [reflexivity|]. cbn. apply set_uniq_none; auto; [|discriminate].
      rewrite N. discriminate.
  - (* Adopt *)
    assert (N : uniq s u = Some (Some o0)) by (rewrite <- (r_un _ _ (proj2 G)); assumption).
    destruct (set_uniq_leave [] [] s a u o0 (Some None) G N) as [G1 Um]; [discriminate|].
    destruct (new_cb_good _ _ _ _ _ G1 Um) as (c & b & s2 & E2 & G2 & B1 & B2 & F4 & F5 & F6).
    destruct (new_sp_good [] [] None s2 (with_aun a u (Some None)) x0 (mkSp (Some c) (Some (o0, 0)))
                (Some (Some o0, Some (o0, 0))) G2 H (prel_own _ _ _ _ _ B1 B2)) as (s3 & E3 & G3).
    exists s3. split; [|exact G3]. cbn [SharedModel.call]. rewrite N. unfold bind. rewrite E2, E3. reflexivity.
  - (* Adopt, null *)
    assert (N : uniq s u = Some None) by (rewrite <- (r_un _ _ (proj2 G)); assumption).
    destruct (new_sp_good [] [] None s a x0 empty _ G H (prel_empty s)) as (s' & E & G').
    exists s'. split; [cbn; rewrite N; now rewrite (bind_ok _ _ _ _ _ E)|exact G'].
  - (* Copy *)
    destruct (sh_some _ _ _ _ _ _ _ G H0) as (p & Ep & P).
    destruct (add_ref_opt _ _ _ _ _ _ G P) as (s1 & E1 & G1 & F1 & F2 & F3 & P1).
    { intros o E. eapply owned_strong; eauto. exists y, (snd v). rewrite H0. destruct v; cbn in *; congruence. }
    destruct (new_sp_good [] [] None s1 a x0 p _ G1 H P1) as (s2 & E2 & G2).
    exists s2. split; [|exact G2]. cbn [SharedModel.call]. unfold bind, get_sp. rewrite Ep, E1, E2. reflexivity.
  - (* Steal *)
    destruct (sh_some _ _ _ _ _ _ _ G H0) as (p & Ep & P).
    pose proof (set_sp_good [] [] None s a y (Some empty) (Some (None, None)) G (prel_empty s)) as G1.
    rewrite Ep in G1. cbn [blk] in G1.
    assert (Nx : ash (with_ash a y (Some (None, None))) x0 = None).
    { cbn. rewrite setm_neq; auto. congruence. }
    assert (P1 : prel (set_shared s (setm (shared s) y (Some empty))) (Some v) (Some p)).
    { eapply prel_man; [|exact P]. intros c b E. exists b. auto. }
    destruct (new_sp_good [] [] None _ _ x0 p _ G1 Nx P1) as (s2 & E2 & G2).
    exists s2. split; [|exact G2]. cbn [SharedModel.call]. unfold bind, get_sp, set_sp. rewrite Ep, E2. reflexivity.
  - (* Assign *)
    destruct (sh_some _ _ _ _ _ _ _ G H0) as (p & Ep & P).
    destruct (sh_some _ _ _ _ _ _ _ G H) as (q & Eq & Q).
    destruct (add_ref_opt _ _ _ _ _ _ G P) as (s1 & E1 & G1 & F1 & F2 & F3 & P1).
    { intros o E. eapply owned_strong; eauto. exists y, (snd v). rewrite H0. destruct v; cbn in *; congruence. }
    pose proof (set_sp_good [] [] None s1 a x0 (Some p) (Some v) G1 P1) as G2.
    assert (Eq1 : shared s1 x0 = Some q) by congruence. rewrite Eq1 in G2. cbn [blk] in G2.
    destruct (release_good [] [] _ _ _ G2) as (s3 & E3 & G3 & _).
    exists s3. split; [|exact G3]. cbn [SharedModel.call]. unfold bind, get_sp, set_sp. rewrite Ep, E1, Eq1, E3. reflexivity.
  - (* Reset *)
    destruct (sh_some _ _ _ _ _ _ _ G H) as (q & Eq & Q).
    pose proof (set_sp_good [] [] None s a x0 (Some empty) (Some (None, None)) G (prel_empty s)) as G2.
    rewrite Eq in G2. cbn [blk] in G2.
    destruct (release_good [] [] _ _ _ G2) as (s3 & E3 & G3 & _).
    exists s3. split; [|exact G3]. cbn [SharedModel.call]. unfold bind, get_sp, set_sp. rewrite Eq, E3. reflexivity.
  - (* Drop *)
    destruct (sh_some _ _ _ _ _ _ _ G H) as (q & Eq & Q).
    pose proof (set_sp_good [] [] None s a x0 None None G Logic.I) as G2.
    rewrite Eq in G2. cbn [blk] in G2.
    destruct (release_good [] [] _ _ _ G2) as (s3 & E3 & G3 & _).
    exists s3. split; [|exact G3]. cbn [SharedModel.call]. unfold bind, get_sp, set_sp. rewrite Eq, E3. reflexivity.
  - (* StdAlias *)
    destruct (sh_some _ _ _ _ _ _ _ G H0) as (q1 & Eq & Q).
    destruct (add_ref_opt _ _ _ _ _ _ G Q) as (s1 & E1 & G1 & F1 & F2 & F3 & P1).
    { intros o E. eapply owned_strong; eauto. exists y, q. cbn in E. congruence. }
    assert (P2 : prel s1 (Some (g, p)) (Some (mkSp (block q1) p))).
    { destruct g as [o|]; cbn in *; [|tauto]. split; [reflexivity|tauto]. }
    destruct (new_sp_good [] [] None s1 a x0 (mkSp (block q1) p) _ G1 H P2) as (s2 & E2 & G2).
    exists s2. split; [|exact G2]. cbn [SharedModel.call]. unfold bind, get_sp. rewrite Eq, E1, E2. reflexivity.
  - (* MakeAliased *)
    destruct (sh_some _ _ _ _ _ _ _ G H0) as (q1 & Eq & Q).
    assert (Ow : owned a o0) by (exists y, q; exact H0).
    destruct (add_ref_opt _ _ _ _ _ _ G Q) as (s1 & E1 & G1 & F1 & F2 & F3 & P1).
    { intros o E. cbn in E. injection E as <-. eapply owned_strong; eauto. }
    assert (P2 : prel s1 (Some (Some o0, p)) (Some (mkSp (block q1) p))).
    { cbn in *. split; [reflexivity|tauto]. }
    destruct (new_sp_good [] [] None s1 a x0 (mkSp (block q1) p) _ G1 H P2) as (s2 & E2 & G2).
    exists s2. split; [|exact G2]. cbn [SharedModel.call]. unfold bind, get_sp. rewrite Eq.
    destruct (owned_strong _ _ _ G Ow) as (c & b & C1 & C2 & C3).
    destruct Q as (_ & c' & b' & D1 & D2 & D3).
    assert (c' = c) by (eapply (i_one _ _ _ _ (proj1 G)); eauto; congruence). subst c'.
    destruct q1 as [bl q2]. cbn in D1. subst bl. unfold make_aliased, bind.
    rewrite (use_count_some _ _ _ _ C1). destruct (Nat.eqb_spec (strong b) 0); [lia|].
    rewrite E1. cbn [ret]. unfold ret. cbn [block] in *. rewrite E2. reflexivity.
  - (* MakeAliased, empty owner *)
    destruct (sh_some _ _ _ _ _ _ _ G H0) as (q1 & Eq & Q). destruct Q as [Q _].
    destruct (new_sp_good [] [] None s a x0 empty _ G H (prel_empty s)) as (s' & E & G').
    exists s'. split; [|exact G']. cbn [SharedModel.call]. unfold bind, get_sp. rewrite Eq. unfold make_aliased, use_count.
    rewrite Q. unfold bind, ret. cbn [Nat.eqb]. rewrite E. reflexivity.
  - (* WeakOf *)
    destruct (sh_some _ _ _ _ _ _ _ G H0) as (p & Ep & P).
    destruct (weak_add_ref_good _ _ _ _ _ (block p) G) as (s1 & E1 & G1 & F1 & F2 & F3 & F4 & F5).
    { intros c E. apply (i_sref _ _ _ _ (proj1 G) c x0). exists p. auto. }
    assert (P1 : prel s1 (Some v) (Some p)).
    { eapply prel_man; [|exact P]. intros c b E. destruct (F5 _ _ E) as (b' & ? & _ & ?). eauto. }
    destruct (new_wp_good [] [] None s1 a w p _ G1 H P1) as (s2 & E2 & G2).
    exists s2. split; [|exact G2]. cbn [SharedModel.call]. unfold bind, get_sp. rewrite Ep, E1, E2. reflexivity.
  - (* WeakDrop *)
    destruct (wk_some _ _ _ _ _ _ _ G H) as (q & Eq & Q).
    pose proof (set_wp_good [] [] None s a w None None G Logic.I) as G2.
    rewrite Eq in G2. cbn [blk] in G2.
    destruct (weak_release_good _ _ _ _ _ _ G2) as (m & G3 & W).
    eexists. split; [|exact G3]. cbn [SharedModel.call]. unfold bind, get_wp, set_wp. rewrite Eq.
    rewrite W by reflexivity. reflexivity.
  - (* Lock *)
    destruct (wk_some _ _ _ _ _ _ _ G H0) as (q & Eq & Q).
    destruct (owned_strong _ _ _ G H1) as (c & b & C1 & C2 & C3).
    destruct (add_ref_opt _ _ _ _ _ _ G Q) as (s1 & E1 & G1 & F1 & F2 & F3 & P1).
    { intros o E. cbn in E. injection E as <-. eauto. }
    destruct (new_sp_good [] [] None s1 a x0 q _ G1 H P1) as (s2 & E2 & G2).
    exists s2. split; [|exact G2]. cbn [SharedModel.call]. unfold bind, get_wp. rewrite Eq.
    destruct Q as (_ & c' & b' & D1 & D2 & D3).
    assert (c' = c) by (eapply (i_one _ _ _ _ (proj1 G)); eauto; congruence). subst c'.
    destruct q as [bl q2]. cbn in D1. subst bl. rewrite (use_count_some _ _ _ _ C1).
    destruct (Nat.eqb_spec (strong b) 0); [lia|]. rewrite E1, E2. reflexivity.
  - (* Lock, expired *)
    destruct (wk_some _ _ _ _ _ _ _ G H0) as (q & Eq & Q).
    destruct Q as (_ & c & b & D1 & D2 & D3).
    destruct (new_sp_good [] [] None s a x0 empty _ G H (prel_empty s)) as (s' & E & G').
    exists s'. split; [|exact G']. cbn [SharedModel.call]. unfold bind, get_wp. rewrite Eq.
    destruct q as [bl q2]. cbn in D1. subst bl. rewrite (use_count_some _ _ _ _ D2).
    destruct (Nat.eqb_spec (strong b) 0); [|destruct H1; eapply strong_owned; eauto; lia].
    rewrite E. reflexivity.
  - (* Lock, empty *)
    destruct (wk_some _ _ _ _ _ _ _ G H0) as (q & Eq & Q). destruct Q as [Q _].
    destruct (new_sp_good [] [] None s a x0 empty _ G H (prel_empty s)) as (s' & E & G').
    exists s'. split; [|exact G']. cbn [SharedModel.call]. unfold bind, get_wp. rewrite Eq. unfold use_count. rewrite Q.
    unfold ret. cbn [Nat.eqb]. rewrite E. reflexivity.
  - (* SharedFromThis *)
    destruct (shared_from_this_good _ _ _ _ _ G H0 H1) as (c & b & s1 & E & G1 & E1 & Em & P & F1 & F2 & F3).
    destruct (new_sp_good [] [] None s1 a x0 (mkSp (Some c) (Some (o0, d))) _ G1 H (prel_own _ _ _ _ (Some (o0, d)) E1 Em)) as (s2 & E2 & G2).
    exists s2. split; [|exact G2]. cbn [SharedModel.call]. unfold caught, bind. rewrite E, E2. reflexivity.
  - cbn [SharedModel.call]. unfold caught. rewrite (bind_throw _ _ _ _ _ (shared_from_this_none _ _ _ _ _ G H H0 H1)).
    eauto.
  - (* SharedFrom *)
    destruct (shared_from_good _ _ _ _ _ p G H0 H1) as (c & b & s1 & E & G1 & E1 & Em & P & F1 & F2).
    destruct (new_sp_good [] [] None s1 a x0 (mkSp (Some c) p) _ G1 H (prel_own _ _ _ _ p E1 Em)) as (s2 & E2 & G2).
    exists s2. split; [|exact G2]. cbn [SharedModel.call]. unfold caught, bind. rewrite E, E2. reflexivity.
  - cbn [SharedModel.call]. unfold caught. rewrite (bind_throw _ _ _ _ _ (shared_from_none _ _ _ _ _ p G H H0 H1)).
    eauto.
  - (* WeakFromThis *)
    destruct cxx17 eqn:X.
    + destruct (owned_strong _ _ _ G H1) as (c & b & E & Em & P).
      assert (A : objs s o0 <> None) by (apply (alive_obj _ _ _ G); now left).
      destruct (objs s o0) as [x|] eqn:Eo; [clear A|congruence].
      assert (B := base_weak_this _ _ _ _ _ _ _ _ _ G H0 Eo).
      destruct (i_obj _ _ _ _ (proj1 G) _ _ Eo) as (_ & _ & _ & O4).
      assert (W : weak_this x = Some c) by (eapply O4; eauto; congruence).
      destruct (weak_add_ref_good _ _ _ _ _ (Some c) G) as (s1 & E1 & G1 & F1 & F2 & F3 & F4 & F5).
      { intros c' Hc. congruence. }
      destruct (F5 _ _ E) as (b' & B1 & _ & B2).
      assert (P1 : prel s1 (Some (Some o0, Some (o0, d))) (Some (mkSp (Some c) (Some (o0, d)))))
        by (eapply prel_own; eauto; congruence).
      destruct (new_wp_good [] [] None s1 a w (mkSp (Some c) (Some (o0, d))) _ G1 H P1) as (s2 & E2 & G2).
      exists s2. split; [|exact G2]. cbn [SharedModel.call]. unfold caught, weak_from_this, bind, get_obj.
      rewrite Eo, B, W, E1. unfold ret. rewrite E2. reflexivity.
    + destruct (shared_from_this_good _ _ _ _ _ G H0 H1) as (c & b & s1 & E & G1 & E1 & Em & P & F1 & F2 & F3).
      destruct (to_weak_good _ _ _ _ G1 E1) as (s2 & E2 & G2 & F4 & F5 & F6).
      destruct (still_man _ _ _ _ _ _ _ _ _ _ _ _ G1 G2 H1 E1 Em F4) as (b' & B1 & B2).
      destruct (new_wp_good [] [] None s2 a w (mkSp (Some c) (Some (o0, d))) _ G2 H (prel_own _ _ _ _ (Some (o0, d)) B1 B2)) as (s3 & E3 & G3).
      exists s3. split; [|exact G3]. cbn [SharedModel.call]. unfold caught, weak_from_this, bind in *. rewrite E. cbn [block].
      destruct (weak_add_ref (Some c) s1) as [[] s1'| | |]; try discriminate. rewrite E2. unfold ret.
      rewrite E3. reflexivity.
  - cbn [SharedModel.call]. unfold caught. unfold weak_from_this.
    assert (T := shared_from_this_none _ _ _ _ _ G H0 H1 H2).
    unfold bind. rewrite T. eauto.
  - (* WeakFromThis, none: empty *)
    pose proof H2 as Al. apply (alive_obj _ _ _ G) in Al. destruct (objs s o0) as [x|] eqn:Eo; [clear Al|congruence].
    assert (B := base_weak_this _ _ _ _ _ _ _ _ _ G H1 Eo).
    destruct (i_obj _ _ _ _ (proj1 G) _ _ Eo) as (_ & O2 & _ & O4).
    destruct (new_wp_good [] [] None s a w empty _ G H0 (prel_empty s)) as (s' & E & G').
    assert (W : weak_this x = None).
    { destruct (weak_this x) as [c|] eqn:W; [|reflexivity]. destruct (O2 _ eq_refl) as (b & Eb & Em).
      assert (A : objs s o0 <> None) by congruence. apply (i_alive _ _ _ _ (proj1 G)) in A.
      destruct A as [(c1 & b1 & A1 & A2 & A3)|[(u & A)|A]]; [|exfalso|discriminate].
      - destruct H3. eapply strong_owned; eauto.
      - destruct (i_uniq _ _ _ _ (proj1 G) _ _ A) as (U & _). exact (U _ _ Eb Em). }
    exists s'. split; [|exact G']. cbn [SharedModel.call]. unfold caught, weak_from_this, bind, get_obj. rewrite Eo, B, W.
    unfold weak_add_ref, ret. rewrite E. reflexivity.
  - (* WeakFrom *)
    destruct (shared_from_good _ _ _ _ _ p G H0 H1) as (c & b & s1 & E & G1 & E1 & Em & P & F1 & F2).
    destruct (to_weak_good _ _ _ _ G1 E1) as (s2 & E2 & G2 & F4 & F5 & F6).
    destruct (still_man _ _ _ _ _ _ _ _ _ _ _ _ G1 G2 H1 E1 Em F4) as (b' & B1 & B2).
    destruct (new_wp_good [] [] None s2 a w (mkSp (Some c) p) _ G2 H (prel_own _ _ _ _ p B1 B2)) as (s3 & E3 & G3).
    exists s3. split; [|exact G3]. cbn [SharedModel.call]. unfold caught, weak_from, bind in *. rewrite E. cbn [block].
    destruct (weak_add_ref (Some c) s1) as [[] s1'| | |]; try discriminate. rewrite E2. unfold ret.
    rewrite E3. reflexivity.
  - cbn [SharedModel.call]. unfold caught, weak_from, bind. rewrite (shared_from_none _ _ _ _ _ p G H H0 H1).
    eauto.
  - destruct (sh_some _ _ _ _ _ _ _ G H) as (q & Eq & Q). exists s. split; [|exact G].
    cbn [SharedModel.call]. unfold bind, get_sp. rewrite Eq. unfold ret. do 2 f_equal. destruct g; cbn in Q; tauto.
  - destruct (wk_some _ _ _ _ _ _ _ G H) as (q & Eq & Q). exists s. split; [|exact G].
    cbn [SharedModel.call]. unfold bind, get_wp. rewrite Eq. unfold ret. do 2 f_equal. destruct g; cbn in Q; tauto.
  - (* UseCount *)
    destruct (sh_some _ _ _ _ _ _ _ G H) as ([bl q] & Eq & Q). exists s. split; [|exact G].
    destruct Q as (_ & c & b & D1 & D2 & D3). cbn in D1. subst bl.
    cbn [SharedModel.call]. unfold bind, get_sp. rewrite Eq, (use_count_some _ _ _ _ D2). unfold ret. do 2 f_equal.
    eapply exactly_unique; [|eassumption]. eapply strong_owners; eauto.
  - destruct (sh_some _ _ _ _ _ _ _ G H) as ([bl q] & Eq & Q). exists s. split; [|exact G].
    destruct Q as [D1 _]. cbn in D1. subst bl. cbn [SharedModel.call]. unfold bind, get_sp. rewrite Eq. reflexivity.
  - (* Expired *)
    destruct (wk_some _ _ _ _ _ _ _ G H) as ([bl q] & Eq & Q). exists s. split; [|exact G].
    destruct Q as (_ & c & b1 & D1 & D2 & D3). cbn in D1. subst bl.
    cbn [SharedModel.call]. unfold bind, get_wp. rewrite Eq, (use_count_some _ _ _ _ D2). unfold ret. do 2 f_equal.
    destruct (Nat.eqb_spec (strong b1) 0) as [e|e].
    + destruct b; [reflexivity|]. destruct (owned_strong _ _ _ G (proj1 H0 eq_refl)) as (c2 & b2 & X1 & X2 & X3).
      assert (c2 = c) by (eapply (i_one _ _ _ _ (proj1 G)); eauto; congruence). subst c2.
      assert (b2 = b1) by congruence. subst. lia.
    + symmetry. apply H0. eapply strong_owned; eauto. lia.
  - destruct (wk_some _ _ _ _ _ _ _ G H) as ([bl q] & Eq & Q). exists s. split; [|exact G].
    destruct Q as [D1 _]. cbn in D1. subst bl. cbn [SharedModel.call]. unfold bind, get_wp. rewrite Eq. reflexivity.
  - (* Value *)
    apply (alive_obj _ _ _ G) in H0. destruct (objs s o0) as [x|] eqn:Eo; [clear H0|congruence].
    exists s. split; [|exact G]. cbn [SharedModel.call]. unfold bind, get_obj. rewrite Eo. unfold ret. do 2 f_equal.
    rewrite (r_kind _ _ (proj2 G) _ _ Eo) in H. congruence.
Qed.

Lemma init_good : G0 init (ainit (V := V)).
Proof.
  assert (N : forall (P : Prop) (c : nat), (None : option cb) = Some (mkCb 0 0 0) -> P) by discriminate.
  split; [constructor|]; cbn; try discriminate; try contradiction; auto.
  - intros c x (p & E & _). discriminate.
  - intros c x (p & E & _). discriminate.
  - intros o. split; [congruence|]. intros [(c & b & E & _)|[(u & E)|E]]; discriminate.
  - split; [constructor|]. intros o. split; [contradiction|lia].
  - constructor; cbn; auto. discriminate.
Qed.
Lemma calls_sim s a os xs a' : G0 s a -> ssteps cxx17 a os xs a' ->
  exists s', calls cxx17 os s = Ok xs s' /\ G0 s' a'.
Proof.
  intros G S. revert s G. induction S as [|a o x a' os xs a'' S1 S2 IH]; intros s G.
  - exists s. split; [reflexivity|exact G].
  - destruct (call_sim _ _ _ _ _ G S1) as (s1 & E1 & G1).
    destruct (IH _ G1) as (s2 & E2 & G2). exists s2. split; [|exact G2].
    cbn. unfold bind. rewrite E1, E2. reflexivity.
Qed.

Lemma exactly_owners s a o : G0 s a -> owned a o -> exists n, exactly n (owner a o).
Proof.
  intros G O. destruct (owned_strong _ _ _ G O) as (c & b & E & Em & P).
  exists (strong b). eapply strong_owners; eauto.
Qed.
Lemma progress s a o : G0 s a -> legal a o -> exists x a', sstep a o x a'.
Proof.
  intros G L.
  assert (Nm : forall x, ~ made a x -> ash a x = None)
    by (intros x H; unfold made in H; destruct (ash a x); [destruct H; discriminate|reflexivity]).
  assert (Md : forall x, made a x -> exists g p, ash a x = Some (g, p))
    by (intros x H; unfold made in H; destruct (ash a x) as [[g p]|]; [eauto|congruence]).
  assert (Wk : forall w, awk a w <> None -> exists g p, awk a w = Some (g, p))
    by (intros x H; destruct (awk a x) as [[g p]|]; [eauto|congruence]).
  destruct o; cbn in L; unfold member in L;
    repeat match goal with
    | H : _ /\ _ |- _ => destruct H
    | H : ~ made _ _ |- _ => apply Nm in H
    | H : made _ _ |- _ => apply Md in H; destruct H as (? & ? & ?)
    | H : awk _ _ <> None |- _ => apply Wk in H; destruct H as (? & ? & ?)
    | H : exists _, _ |- _ => destruct H
    end.
  all: try (eauto using s_default, s_make, s_make_unique, s_copy, s_steal, s_assign, s_reset, s_drop,
            s_std_alias, s_weak_of, s_weak_drop, s_get, s_weak_get; fail).
  - destruct (aun a u) as [h|] eqn:E; [|congruence]. eauto using s_drop_unique.
  - destruct (aun a u) as [[h|]|] eqn:E; [| |congruence]; eauto using s_adopt, s_adopt_null.
  - destruct x0 as [o|]; eauto using s_aliased, s_aliased_null.
  - destruct x0 as [o|]; [|eauto using s_lock_empty].
    destruct (owned_dec _ _ o G); eauto using s_lock, s_lock_dead.
  - destruct (owned_dec _ _ o G); eauto using s_this, s_this_none.
  - destruct (owned_dec _ _ o G); eauto using s_from, s_from_none.
  - destruct (owned_dec _ _ o G); [eauto using s_wthis|].
    destruct cxx17 eqn:X; eauto using s_wthis_none, s_wthis_empty.
  - destruct (owned_dec _ _ o G); eauto using s_wfrom, s_wfrom_none.
  - destruct x0 as [o|]; [|eauto using s_count_empty].
    destruct (exactly_owners _ _ o G) as (n & Hn); [exists x; eexists; eauto|]. eauto using s_count.
  - destruct x as [o|]; [|eauto using s_expired_empty].
    destruct (owned_dec _ _ o G) as [O|O].
    + exists (Bool false), a. eapply s_expired; eauto. tauto.
    + exists (Bool true), a. eapply s_expired; eauto. split; [discriminate|tauto].
  - pose proof L as A. apply (alive_obj _ _ _ G) in A. destruct (objs s o) as [x|] eqn:E; [|congruence].
    pose proof (r_kind _ _ (proj2 G) _ _ E). eauto using s_value.
Qed.

(** ** What histories lead to *)
Lemma history_good os xs a : ssteps cxx17 ainit os xs a ->
  exists s, calls cxx17 os init = Ok xs s /\ G0 s a.
Proof. apply calls_sim, init_good. Qed.
Lemma good_destroyed s a o : G0 s a -> o < anext a ->
  (alive a o -> count_occ Nat.eq_dec (destroyed s) o = 0) /\
  (~ alive a o -> count_occ Nat.eq_dec (destroyed s) o = 1).
Proof.
  intros G L. destruct (i_dead _ _ _ _ (proj1 G)) as [D1 D2]. rewrite (alive_obj _ _ _ G).
  rewrite (r_next _ _ (proj2 G)) in L. split; intros A.
  - apply count_occ_not_In. rewrite D2. tauto.
  - assert (I : In o (destroyed s)) by (apply D2; split; auto; destruct (objs s o); auto; destruct A; discriminate).
    apply (NoDup_count_occ' Nat.eq_dec); auto.
Qed.
Lemma good_blocks s a c b : G0 s a -> cbs s c = Some b ->
  owned a (managed b) \/ exists w p, awk a w = Some (Some (managed b), p).
Proof.
  intros G E.
  destruct (i_weak _ _ _ _ (proj1 G) _ _ E) as (n & W1 & W2 & W3). cbn in W2.
  destruct (strong b) as [|k] eqn:Sb.
  - cbn in W2. destruct n as [|n].
    + exfalso. unfold tref in W2. destruct (objs s (managed b)) as [x|] eqn:Eo; [|lia].
      assert (A : objs s (managed b) <> None) by congruence. apply (i_alive _ _ _ _ (proj1 G)) in A.
      destruct A as [(c1 & b1 & A1 & A2 & A3)|[(u & A)|A]]; [| |discriminate].
      * assert (c1 = c) by (eapply (i_one _ _ _ _ (proj1 G)); eauto). subst. assert (b1 = b) by congruence. subst. lia.
      * destruct (i_uniq _ _ _ _ (proj1 G) _ _ A) as (U & _). exact (U _ _ E eq_refl).
    + right. apply exactly_S_inv in W1. destruct W1 as (w & p & P1 & P2). exists w.
      pose proof (r_wk _ _ (proj2 G) w) as P. rewrite P1 in P. destruct (awk a w) as [[[o|] r]|]; cbn in P.
      * destruct P as (_ & c1 & b1 & X1 & X2 & X3). exists r. congruence.
      * destruct P; congruence.
      * destruct P.
  - left. eapply strong_owned; eauto. lia.
Qed.
End Proofs.
