(** Proofs about anys in anys: the blocks on the heap are the nodes of a tree. *)
From Coq Require Import List Arith Bool Lia Permutation.
From Verif Require Import Base AnyNestModel AnyNestSpec.
Import ListNotations.

(** ** Trees *)
Section TreeInd.
Context {A : Type} (P : tree A -> Prop).
Hypothesis HE : P E.
Hypothesis HN : forall a ks, Forall P ks -> P (N a ks).
Fixpoint tree_rec' (t : tree A) : P t :=
  match t with
  | E => HE
  | N a ks => HN a ks ((fix each (l : list (tree A)) : Forall P l :=
                          match l with
                          | [] => Forall_nil _
                          | x :: l' => Forall_cons x (tree_rec' x) (each l')
                          end) ks)
  end.
End TreeInd.

Lemma nth_upd {A} (l : list A) i x j :
  nth_error (upd l i x) j = if (i =? j) && (i <? length l) then Some x else nth_error l j.
Proof.
  revert i j. induction l as [|y l IH]; intros [|i] [|j]; cbn; auto.
  - now rewrite andb_comm.
  - rewrite IH. cbn [Nat.eqb]. destruct (i =? j); auto.
Qed.
Lemma upd_length {A} (l : list A) i x : length (upd l i x) = length l.
Proof. revert i. induction l as [|y l IH]; intros [|i]; cbn; auto. Qed.
Lemma map_upd {A B} (f : A -> B) l i x : map f (upd l i x) = upd (map f l) i (f x).
Proof. revert i. induction l as [|y l IH]; intros [|i]; cbn; auto. now rewrite IH. Qed.
Lemma upd_same {A} (l : list A) i x : nth_error l i = Some x -> upd l i x = l.
Proof.
  revert i. induction l as [|y l IH]; intros [|i]; cbn; intros; try congruence. now rewrite IH.
Qed.
Lemma upd_upd {A} (l : list A) i x y : upd (upd l i x) i y = upd l i y.
Proof. revert i. induction l as [|z l IH]; intros [|i]; cbn; auto. now rewrite IH. Qed.
Lemma upd_app {A} (l l' : list A) i x : i < length l -> upd (l ++ l') i x = upd l i x ++ l'.
Proof. revert i. induction l as [|z l IH]; intros [|i] L; cbn in *; try lia; auto. rewrite IH by lia. reflexivity. Qed.
Lemma upd_last {A} (l : list A) y x : upd (l ++ [y]) (length l) x = l ++ [x].
Proof. induction l; cbn; auto. now rewrite IHl. Qed.

Lemma NoDup_app_iff {A} (a b : list A) :
  NoDup (a ++ b) <-> NoDup a /\ NoDup b /\ forall x, In x a -> ~ In x b.
Proof.
  induction a as [|y a IH]; cbn.
  - split; [intros H; split; [constructor|split; [exact H|tauto]]|tauto].
  - rewrite !NoDup_cons_iff, IH, in_app_iff. split.
    + intros (H & Na & Nb & D). split; [split; [tauto|exact Na]|]. split; [exact Nb|].
      intros x [<-|I]; [tauto|auto].
    + intros ((H & Na) & Nb & D). split; [intros [I|I]; [tauto|exact (D y (or_introl eq_refl) I)]|].
      split; [exact Na|]. split; [exact Nb|]. intros x I. apply D. now right.
Qed.

Section Proofs.
Context {V : Type}.
Variable copyable : V -> bool.
Variable lay : V -> nat * nat.
Variable avail : nat -> bool.

(** Trees whose nodes know their blocks *)
Notation at_ := (tree (nat * V)).
Fixpoint strip (t : at_) : tree V :=
  match t with E => E | N a ks => N (snd a) (map strip ks) end.
Fixpoint ids (t : at_) : list nat :=
  match t with E => [] | N a ks => fst a :: flat_map ids ks end.
Definition oid (t : at_) : slot := match t with E => None | N a _ => Some (fst a) end.
Fixpoint height {A} (t : tree A) : nat :=
  match t with E => 0 | N _ ks => S (list_max (map height ks)) end.
Fixpoint rep (H : nat -> option (block V)) (t : at_) : Prop :=
  match t with
  | E => True
  | N a ks =>
      (exists ly, H (fst a) = Some (mkB ly (Some (snd a, map oid ks)) (Some ly))) /\
      (fix each l := match l with [] => True | x :: l' => rep H x /\ each l' end) ks
  end.
Lemma rep_N H a ks :
  rep H (N a ks) <->
  (exists ly, H (fst a) = Some (mkB ly (Some (snd a, map oid ks)) (Some ly))) /\ Forall (rep H) ks.
Proof.
  cbn [rep]. apply and_iff_compat_l. induction ks as [|t ks IH]; cbn.
  - split; auto.
  - rewrite IH. split; [intros [? ?]; auto|]. intros F. inversion F. auto.
Qed.

Lemma rep_frame H H' t : rep H t -> (forall x, In x (ids t) -> H' x = H x) -> rep H' t.
Proof.
  induction t as [|a ks IH] using tree_rec'; intros R EQ; [exact I|].
  apply rep_N in R. destruct R as ((ly & Hb) & R). apply rep_N. split.
  - exists ly. rewrite EQ; [exact Hb|now left].
  - rewrite Forall_forall in *. intros t I. apply IH; [exact I|now apply R|].
    intros x J. apply EQ. right. apply in_flat_map. eauto.
Qed.
Lemma reps_frame H H' ts : Forall (rep H) ts -> (forall x, In x (flat_map ids ts) -> H' x = H x) -> Forall (rep H') ts.
Proof.
  rewrite !Forall_forall. intros R EQ t I. eapply rep_frame; [now apply R|]. intros x J. apply EQ.
  apply in_flat_map. eauto.
Qed.

Lemma list_max_in l n : In n l -> n <= list_max l.
Proof. intros I. pose proof (proj1 (list_max_le l (list_max l)) (le_n _)) as F. rewrite Forall_forall in F. auto. Qed.

(** ** Reset *)
Definition ref_block (r : ref) : list nat := match r with Root _ => [] | Kid b _ => [b] end.
(** [s'] is [s] without the blocks [l] *)
Definition without (l : list nat) (s s' : st V) : Prop :=
  fresh s' = fresh s /\ roots s' = roots s /\
  forall x, heap s' x = if in_dec Nat.eq_dec x l then None else heap s x.

Lemma getr_setr r x (s : st V) : getr r s <> None -> getr r (setr r x s) = Some x.
Proof.
  destruct r as [i|b k]; cbn.
  - intros H. rewrite nth_upd, Nat.eqb_refl. apply nth_error_Some in H.
    destruct (Nat.ltb_spec i (length (roots s))); [reflexivity|lia].
  - destruct (heap s b) as [[g [[v l]|] h]|] eqn:Eb; try congruence. intros H. cbn.
    rewrite Nat.eqb_refl, nth_upd, Nat.eqb_refl. apply nth_error_Some in H.
    destruct (Nat.ltb_spec k (length l)); [reflexivity|lia].
Qed.
Lemma heap_setr_other r x (s : st V) y : ~ In y (ref_block r) -> heap (setr r x s) y = heap s y.
Proof.
  destruct r as [i|b k]; cbn; [reflexivity|]. intros H.
  destruct (heap s b) as [[g [[v l]|] h]|]; try reflexivity. cbn.
  destruct (Nat.eqb_spec y b); [subst; tauto|reflexivity].
Qed.
Lemma fresh_setr r x (s : st V) : fresh (setr r x s) = fresh s.
Proof. destruct r as [i|b k]; cbn; [reflexivity|]. now destruct (heap s b) as [[g [[v l]|] h]|]. Qed.
Lemma roots_setr_kid b k x (s : st V) : roots (setr (Kid b k) x s) = roots s.
Proof. cbn. now destruct (heap s b) as [[g [[v l]|] h]|]. Qed.

(** States which differ in no place *)
Definition same (s s' : st V) : Prop :=
  fresh s' = fresh s /\ roots s' = roots s /\ forall x, heap s' x = heap s x.
Lemma getr_ext r (s s' : st V) : roots s' = roots s -> (forall x, In x (ref_block r) -> heap s' x = heap s x) -> getr r s' = getr r s.
Proof. destruct r as [i|b k]; cbn; intros Q H; [now rewrite Q|]. rewrite (H b) by auto. reflexivity. Qed.
Lemma setr_ext_heap r x (s s' : st V) y :
  (In y (ref_block r) \/ heap s' y = heap s y) -> (forall b, In b (ref_block r) -> heap s' b = heap s b) ->
  heap (setr r x s') y = heap (setr r x s) y.
Proof.
  destruct r as [i|b k]; cbn; intros Hy Hb.
  - destruct Hy as [[]|Hy]. exact Hy.
  - rewrite (Hb b) by auto. destruct (heap s b) as [[g [[v l]|] h]|] eqn:Eb; cbn.
    + destruct (Nat.eqb_spec y b); [reflexivity|]. destruct Hy as [[Hy|[]]|Hy]; [congruence|exact Hy].
    + destruct Hy as [[Hy|[]]|Hy]; [subst; rewrite (Hb y) by auto; reflexivity|exact Hy].
    + destruct Hy as [[Hy|[]]|Hy]; [subst; rewrite (Hb y) by auto; reflexivity|exact Hy].
Qed.
Lemma setr_ext_roots r x (s s' : st V) : roots s' = roots s -> roots (setr r x s') = roots (setr r x s).
Proof. destruct r as [i|b k]; intros H; [cbn; now rewrite H|]. now rewrite !roots_setr_kid. Qed.

Lemma each_destroy n b c (s : st V) :
  (fix each (c : nat) : M (st V) unit :=
     match c with
     | 0 => ret tt
     | S c' => reset n (Kid b c') ;;; each c'
     end) c s = destroy_kids n b c s.
Proof.
  revert s. induction c as [|c IH]; intros s; [reflexivity|]. cbn [destroy_kids]. unfold bind.
  destruct (reset n (Kid b c) s) as [[]| | |]; auto.
Qed.

Lemma free_block_ok r b ly (s : st V) :
  getr r s = Some (Some b) -> heap s b = Some (mkB ly None None) -> ~ In b (ref_block r) ->
  free_block r ly s = Ok tt (setr r None (set_heap b None s)).
Proof.
  intros G Hb Nb. unfold free_block, slot_of, bind. rewrite G. unfold blk. rewrite Hb. cbn [body given].
  rewrite !Nat.eqb_refl. cbn [andb]. unfold put_slot.
  replace (getr r (set_heap b None s)) with (getr r s).
  2:{ symmetry. apply getr_ext; [reflexivity|]. intros x I. cbn.
      destruct (Nat.eqb_spec x b); [subst; tauto|reflexivity]. }
  now rewrite G.
Qed.

Definition reset_law (t : at_) : Prop := forall n r (s : st V),
  height t < n -> getr r s = Some (oid t) -> rep (heap s) t -> NoDup (ids t) ->
  (forall x, In x (ref_block r) -> ~ In x (ids t)) ->
  exists s', reset n r s = Ok tt s' /\ without (ids t) (setr r None s) s'.

(** The members of the object in block [b], the last ones of which are gone *)
Lemma destroy_kids_ok n b g v h ks gone : forall s,
  Forall reset_law ks ->
  heap s b = Some (mkB g (Some (v, map oid ks ++ repeat None gone)) h) ->
  Forall (rep (heap s)) ks -> NoDup (flat_map ids ks) -> ~ In b (flat_map ids ks) ->
  list_max (map height ks) < n ->
  exists s', destroy_kids n b (length ks) s = Ok tt s' /\
    without (flat_map ids ks)
      (set_heap b (Some (mkB g (Some (v, repeat None (length ks + gone))) h)) s) s'.
Proof.
  revert gone. induction ks as [|t ks IH] using rev_ind; intros gone s L Hb R ND Nb Hn.
  - exists s. split; [reflexivity|]. split; [reflexivity|]. split; [reflexivity|]. intros x. cbn.
    destruct (Nat.eqb_spec x b); [subst; exact Hb|reflexivity].
  - rewrite app_length, Nat.add_comm. cbn [length Nat.add destroy_kids].
    apply Forall_app in L. destruct L as [L Lt]. inversion Lt as [|? ? Lt' _]; subst. clear Lt.
    apply Forall_app in R. destruct R as [R Rt]. inversion Rt as [|? ? Rt' _]; subst. clear Rt.
    rewrite map_app, list_max_app in Hn. cbn [map list_max fold_right] in Hn.
    rewrite flat_map_app in *. cbn [flat_map] in *. rewrite app_nil_r in *.
    rewrite map_app, <- app_assoc in Hb. cbn [map app] in Hb.
    assert (getr (Kid b (length ks)) s = Some (oid t)) as G.
    { cbn. rewrite Hb. rewrite nth_error_app2 by (rewrite map_length; lia).
      rewrite map_length, Nat.sub_diag. reflexivity. }
    destruct (Lt' n (Kid b (length ks)) s) as (s1 & E1 & F1 & Q1 & H1); [unfold list_max in *; cbn in *; lia|exact G|exact Rt'| | |].
    { apply NoDup_app_iff in ND. tauto. }
    { intros x [<-|[]] I. apply Nb. apply in_or_app. auto. }
    unfold bind at 1. rewrite E1.
    assert (heap (setr (Kid b (length ks)) None s) b
            = Some (mkB g (Some (v, map oid ks ++ repeat None (S gone))) h)) as Hs.
    { cbn [setr]. rewrite Hb. cbn. rewrite Nat.eqb_refl. repeat f_equal.
      replace (length ks) with (length (map oid ks) + 0) by (rewrite map_length; lia).
      clear. induction (map oid ks); cbn; [reflexivity|]. now rewrite IHl. }
    assert (forall x, x <> b -> heap (setr (Kid b (length ks)) None s) x = heap s x) as Ho.
    { intros x Nx. apply heap_setr_other. cbn. intros [J|[]]. congruence. }
    assert (forall x, In x (flat_map ids ks) -> ~ In x (ids t)) as Dis.
    { apply NoDup_app_iff in ND. tauto. }
    destruct (IH (S gone) s1) as (s2 & E2 & F2 & Q2 & H2).
    + exact L.
    + rewrite H1. destruct (in_dec Nat.eq_dec b (ids t)) as [I|_]; [exfalso; apply Nb; apply in_or_app; auto|exact Hs].
    + eapply reps_frame; [exact R|]. intros x I. rewrite H1.
      destruct (in_dec Nat.eq_dec x (ids t)) as [J|_]; [exfalso; eapply Dis; eauto|].
      apply Ho. intros ->. apply Nb. apply in_or_app. auto.
    + apply NoDup_app_iff in ND. tauto.
    + intros I. apply Nb. apply in_or_app. auto.
    + lia.
    + exists s2. split; [exact E2|]. split; [now rewrite F2; cbn [fresh set_heap]; rewrite F1, fresh_setr|].
      split; [rewrite Q2; cbn [roots set_heap]; rewrite Q1, roots_setr_kid; reflexivity|].
      intros x. rewrite H2. cbn [heap set_heap].
      destruct (in_dec Nat.eq_dec x (flat_map ids ks)) as [I|I].
      * destruct (in_dec Nat.eq_dec x (flat_map ids ks ++ ids t)) as [_|J]; [reflexivity|].
        exfalso. apply J. apply in_or_app. auto.
      * destruct (Nat.eqb_spec x b) as [->|Nx].
        -- destruct (in_dec Nat.eq_dec b (flat_map ids ks ++ ids t)) as [J|_]; [tauto|].
           repeat f_equal. lia.
        -- rewrite H1, Ho by exact Nx.
           destruct (in_dec Nat.eq_dec x (ids t)) as [J|J];
             destruct (in_dec Nat.eq_dec x (flat_map ids ks ++ ids t)) as [K|K]; auto.
           ++ exfalso. apply K. apply in_or_app. auto.
           ++ apply in_app_or in K. tauto.
Qed.

Lemma reset_ok t : reset_law t.
Proof.
  induction t as [|[b v] ks IH] using tree_rec'; intros n r s Hn G R ND Nr.
  - destruct n as [|n]; [lia|]. exists s. cbn [reset]. unfold slot_of, bind. rewrite G. cbn [oid].
    split; [reflexivity|]. split; [now rewrite fresh_setr|].
    cbn [oid] in G. destruct r as [i|b k]; cbn in *.
    + split; [now rewrite upd_same|]. intros x. reflexivity.
    + destruct (heap s b) as [[g [[v l]|] h]|] eqn:Eb; try discriminate. cbn.
      split; [reflexivity|]. intros x. rewrite upd_same by exact G.
      destruct (Nat.eqb_spec x b); [congruence|reflexivity].
  - destruct n as [|n]; [lia|]. cbn [height] in Hn. apply rep_N in R. cbn [fst snd] in R.
    destruct R as ((ly & Hb) & R). cbn [ids fst] in *. apply NoDup_cons_iff in ND. destruct ND as [N1 N2].
    cbn [reset]. unfold slot_of at 1, bind at 1. rewrite G. cbn [oid fst].
    unfold blk at 1, bind at 1. rewrite Hb. cbn [body header given]. rewrite map_length.
    unfold bind at 1. rewrite each_destroy.
    destruct (destroy_kids_ok n b ly v (Some ly) ks 0 s) as (s1 & E1 & F1 & Q1 & H1); auto.
    { cbn. now rewrite app_nil_r. }
    { lia. }
    rewrite E1.
    assert (heap s1 b = Some (mkB ly (Some (v, repeat None (length ks + 0))) (Some ly))) as Hb1.
    { rewrite H1. destruct (in_dec Nat.eq_dec b (flat_map ids ks)); [tauto|]. cbn. now rewrite Nat.eqb_refl. }
    unfold put_blk, bind at 1. rewrite Hb1.
    assert (~ In b (ref_block r)) as Nb by (intros I; exact (Nr b I (or_introl eq_refl))).
    assert (forall x, In x (ref_block r) -> heap s1 x = heap s x) as Hr.
    { intros x I. rewrite H1. cbn.
      destruct (in_dec Nat.eq_dec x (flat_map ids ks)) as [J|_]; [exfalso; eapply Nr; [exact I|now right]|].
      destruct (Nat.eqb_spec x b); [subst; tauto|reflexivity]. }
    set (s2 := set_heap b (Some (mkB ly None None)) s1).
    assert (forall x, x <> b -> heap s2 x = heap s1 x) as H2.
    { intros x Nx. cbn. destruct (Nat.eqb_spec x b); [congruence|reflexivity]. }
    rewrite (free_block_ok r b ly s2).
    2:{ rewrite (getr_ext r s s2); [exact G|exact Q1|]. intros x I. rewrite H2 by (intros ->; auto). auto. }
    2:{ cbn. now rewrite Nat.eqb_refl. }
    2:{ exact Nb. }
    eexists. split; [reflexivity|]. split; [rewrite !fresh_setr; exact F1|]. split.
    { apply setr_ext_roots. exact Q1. }
    intros x. destruct (in_dec Nat.eq_dec x (b :: flat_map ids ks)) as [I|I].
    + rewrite heap_setr_other by (intros J; exact (Nr x J I)). cbn.
      destruct (Nat.eqb_spec x b) as [|Nx]; [reflexivity|]. rewrite H1.
      destruct (in_dec Nat.eq_dec x (flat_map ids ks)); [reflexivity|]. destruct I as [I|I]; [congruence|tauto].
    + assert (heap (set_heap b None s2) x = heap s x) as Q.
      { cbn. destruct (Nat.eqb_spec x b); [subst; exfalso; apply I; now left|]. rewrite H1. cbn.
        destruct (in_dec Nat.eq_dec x (flat_map ids ks)); [exfalso; apply I; now right|].
        destruct (Nat.eqb_spec x b); [congruence|reflexivity]. }
      apply setr_ext_heap; [now right|]. intros y J. cbn.
      destruct (Nat.eqb_spec y b); [subst; tauto|]. now rewrite Hr.
Qed.

(** ** Copies *)
Notation dup := (dup copyable avail).
Notation copy_from := (copy_from copyable avail).
Fixpoint dups (c : nat) (ks : list (tree V)) : nat * option exn :=
  match ks with
  | [] => (c, None)
  | t :: ks' => match dup c t with (c', None) => dups c' ks' | x => x end
  end.
Lemma dup_N c v ks :
  dup c (N v ks) =
  if avail c then if copyable v then dups (S c) ks else (S c, Some BadCast) else (S c, Some BadAlloc).
Proof.
  cbn [AnyNestSpec.dup]. destruct (avail c); [|reflexivity]. destruct (copyable v); [|reflexivity].
  generalize (S c). induction ks as [|t ks IH]; intros d; [reflexivity|]. cbn [dups].
  destruct (dup d t) as [c' [e|]]; [reflexivity|]. apply IH.
Qed.
Lemma height_strip t : height (strip t) = height t.
Proof.
  induction t as [|a ks IH] using tree_rec'; [reflexivity|]. cbn. f_equal. rewrite map_map. f_equal.
  induction IH; cbn; [reflexivity|]. now rewrite H, IHIH.
Qed.

Lemma getr_setr_other r o x (s : st V) : same_ref o r = false -> getr o (setr r x s) = getr o s.
Proof.
  destruct r as [i|b k], o as [j|c m]; cbn; intros H.
  - rewrite nth_upd. rewrite Nat.eqb_sym, H. reflexivity.
  - reflexivity.
  - now destruct (heap s b) as [[g [[v l]|] h]|].
  - destruct (heap s b) as [[g [[v l]|] h]|] eqn:Eb; try reflexivity. cbn.
    destruct (Nat.eqb_spec c b) as [->|Nc]; [|reflexivity]. cbn [andb] in H. rewrite Eb, nth_upd.
    rewrite Nat.eqb_sym, H. reflexivity.
Qed.
Lemma same_ref_refl r : same_ref r r = true.
Proof. destruct r; cbn; now rewrite ?Nat.eqb_refl. Qed.
Lemma same_ref_eq r o : same_ref o r = true -> o = r.
Proof.
  destruct r, o; cbn; try discriminate.
  - intros H. apply Nat.eqb_eq in H. congruence.
  - intros H. apply andb_prop in H. destruct H as [H1 H2]. apply Nat.eqb_eq in H1, H2. congruence.
Qed.

(** The part of copy_from after reset *)
Definition clone (n' : nat) (b b' : nat) (ly : nat * nat) (k : block V) : M (st V) unit :=
  match body k with
  | None => ub
  | Some (v, kids) =>
      if copyable v then
        let* k' := blk b' in
        put_blk b' (mkB (given k') (Some (v, [])) None) ;;;
        (fix each (c i : nat) : M (st V) unit :=
           match c with
           | 0 => ret tt
           | S c' =>
               push_kid b' ;;;
               on_throw (copy_from n' (Kid b' i) (Kid b i))
                 (drop_kid b' i ;;; destroy_kids n' b' i ;;; no_object b') ;;;
               each c' (S i)
           end) (length kids) 0 ;;;
        let* k'' := blk b' in
        put_blk b' (mkB (given k'') (body k'') (Some ly))
      else throw BadCast
  end.
Fixpoint copy_kids (n' b b' c i : nat) : M (st V) unit :=
  match c with
  | 0 => ret tt
  | S c' =>
      push_kid b' ;;;
      on_throw (copy_from n' (Kid b' i) (Kid b i))
        (drop_kid b' i ;;; destroy_kids n' b' i ;;; no_object b') ;;;
      copy_kids n' b b' c' (S i)
  end.
Definition unwind (r o : ref) : M (st V) unit :=
  let* y := slot_of o in
  match y with
  | None => ub
  | Some c =>
      let* q := blk c in
      match header q with
      | Some ly' => free_block r ly'
      | None => ub
      end
  end.
Definition copy_rest (n' : nat) (r o : ref) : M (st V) unit :=
  let* x := slot_of o in
  match x with
  | None => ret tt
  | Some b =>
      let* k := blk b in
      match header k with
      | None => ub
      | Some ly =>
          let* b' := allocate avail ly in
          put_slot r (Some b') ;;;
          on_throw (clone n' b b' ly k) (unwind r o)
      end
  end.
Lemma copy_from_S n' r o s : copy_from (S n') r o s = (reset (S n') r ;;; copy_rest n' r o) s.
Proof. reflexivity. Qed.
Lemma each_copy n' b b' c : forall i s,
  (fix each (c i : nat) : M (st V) unit :=
     match c with
     | 0 => ret tt
     | S c' =>
         push_kid b' ;;;
         on_throw (copy_from n' (Kid b' i) (Kid b i))
           (drop_kid b' i ;;; destroy_kids n' b' i ;;; no_object b') ;;;
         each c' (S i)
     end) c i s = copy_kids n' b b' c i s.
Proof.
  induction c as [|c IH]; intros i s; [reflexivity|]. cbn [copy_kids]. unfold bind.
  destruct (push_kid b' s) as [[]| | |]; auto.
  destruct (on_throw _ _ _) as [[]| | |]; auto.
Qed.

Lemma each_copy_bind {B} n' b b' c i (Y : unit -> M (st V) B) s :
  bind ((fix each (c i : nat) : M (st V) unit :=
     match c with
     | 0 => ret tt
     | S c' =>
         push_kid b' ;;;
         on_throw (copy_from n' (Kid b' i) (Kid b i))
           (drop_kid b' i ;;; destroy_kids n' b' i ;;; no_object b') ;;;
         each c' (S i)
     end) c i) Y s = bind (copy_kids n' b b' c i) Y s.
Proof. unfold bind at 1 5. now rewrite each_copy. Qed.

(** What a copy does with the state *)
Definition copied (t : at_) (r : ref) (s : st V) (c : nat) (s' : st V) : Prop :=
  exists t', strip t' = strip t /\ fresh s' = c /\ fresh s <= c /\
    (forall x, In x (ids t') -> fresh s <= x < c) /\ NoDup (ids t') /\ rep (heap s') t' /\
    roots s' = roots (setr r (oid t') s) /\
    (forall x, x < fresh s -> heap s' x = heap (setr r (oid t') s) x) /\
    (forall x, fresh s <= x -> ~ In x (ids t') -> heap s' x = None).
Definition uncopied (s : st V) (c : nat) (s' : st V) : Prop :=
  fresh s' = c /\ fresh s <= c /\ roots s' = roots s /\ forall x, heap s' x = heap s x.

Definition copy_law (t : at_) : Prop := forall n r o (s : st V),
  height t < n -> getr r s = Some None -> getr o s = Some (oid t) -> rep (heap s) t ->
  NoDup (ids t) -> (forall x, In x (ids t) -> x < fresh s) ->
  (forall x, In x (ref_block r) -> x < fresh s /\ ~ In x (ids t)) ->
  (forall x, fresh s <= x -> heap s x = None) ->
  match dup (fresh s) (strip t) with
  | (c, None) => exists s', copy_from n r o s = Ok tt s' /\ copied t r s c s'
  | (c, Some e) => exists s', copy_from n r o s = Throw e s' /\ uncopied s c s'
  end.

Lemma firstn_map_len {A B} (f : A -> B) l l' : firstn (length l) (map f l ++ l') = map f l.
Proof. induction l; cbn; [now destruct l'|]. now rewrite IHl. Qed.

Lemma copy_kids_ok n b b' v ly : forall ks done (s : st V),
  Forall copy_law ks ->
  (exists pre, heap s b = Some (mkB ly (Some (v, pre ++ map oid ks)) (Some ly)) /\ length pre = length done) ->
  heap s b' = Some (mkB ly (Some (v, map oid done)) None) ->
  b < b' -> b' < fresh s -> list_max (map height ks) < n -> list_max (map height done) < n ->
  Forall (rep (heap s)) ks -> NoDup (flat_map ids ks) -> (forall x, In x (flat_map ids ks) -> x < b') ->
  Forall (rep (heap s)) done -> NoDup (flat_map ids done) ->
  (forall x, In x (flat_map ids done) -> b' < x < fresh s) ->
  (forall x, fresh s <= x -> heap s x = None) ->
  match dups (fresh s) (map strip ks) with
  | (c, None) => exists s' new,
      copy_kids n b b' (length ks) (length done) s = Ok tt s' /\
      map strip new = map strip ks /\ fresh s' = c /\ fresh s <= c /\ roots s' = roots s /\
      heap s' b' = Some (mkB ly (Some (v, map oid (done ++ new))) None) /\
      (forall x, In x (flat_map ids new) -> fresh s <= x < c) /\ NoDup (flat_map ids new) /\
      Forall (rep (heap s')) new /\
      (forall x, x < fresh s -> x <> b' -> heap s' x = heap s x) /\
      (forall x, fresh s <= x -> ~ In x (flat_map ids new) -> heap s' x = None)
  | (c, Some e) => exists s',
      copy_kids n b b' (length ks) (length done) s = Throw e s' /\
      fresh s' = c /\ fresh s <= c /\ roots s' = roots s /\
      heap s' b' = Some (mkB ly None None) /\
      (forall x, x <> b' -> heap s' x = if in_dec Nat.eq_dec x (flat_map ids done) then None else heap s x)
  end.
Proof.
  induction ks as [|t ks IH]; intros done s L (pre & Hb & Lp) Hb' Lb Lf Hn Hd R ND Lk Rd NDd Ld Fr.
  - cbn [map dups]. exists s, []. cbn. rewrite app_nil_r.
    split; [reflexivity|]. split; [reflexivity|]. split; [reflexivity|]. split; [lia|]. split; [reflexivity|].
    split; [exact Hb'|]. split; [tauto|]. split; [constructor|]. split; [constructor|]. auto.
  - inversion L as [|? ? Lt Lks]; subst. inversion R as [|? ? Rt Rks]; subst.
    cbn [map list_max fold_right] in Hn. change (fold_right Nat.max 0) with list_max in Hn. cbn [flat_map] in ND, Lk. apply NoDup_app_iff in ND.
    destruct ND as (NDt & NDks & Dis).
    cbn [map dups length].
    set (s1 := set_heap b' (Some (mkB ly (Some (v, map oid done ++ [None])) None)) s).
    assert (copy_kids n b b' (S (length ks)) (length done) s =
      (on_throw (copy_from n (Kid b' (length done)) (Kid b (length done)))
         (drop_kid b' (length done) ;;; destroy_kids n b' (length done) ;;; no_object b') ;;;
       copy_kids n b b' (length ks) (S (length done))) s1) as Ek.
    { cbn [copy_kids]. unfold push_kid at 1, blk at 1. unfold bind at 1, bind at 1. rewrite Hb'.
      cbn [body given header]. unfold put_blk at 1. rewrite Hb'. reflexivity. }
    rewrite Ek. clear Ek.
    assert (forall x, x <> b' -> heap s1 x = heap s x) as H1.
    { intros x Nx. cbn. destruct (Nat.eqb_spec x b'); [congruence|reflexivity]. }
    assert (heap s1 b' = Some (mkB ly (Some (v, map oid done ++ [None])) None)) as H1b.
    { cbn. now rewrite Nat.eqb_refl. }
    change (fresh s) with (fresh s1).
    specialize (Lt n (Kid b' (length done)) (Kid b (length done)) s1).
    destruct (dup (fresh s1) (strip t)) as [c1 e1] eqn:Ed.
    assert (match e1 with
            | None => exists s', copy_from n (Kid b' (length done)) (Kid b (length done)) s1 = Ok tt s' /\
                        copied t (Kid b' (length done)) s1 c1 s'
            | Some e => exists s', copy_from n (Kid b' (length done)) (Kid b (length done)) s1 = Throw e s' /\
                        uncopied s1 c1 s'
            end) as T.
    { destruct e1 as [e1|]; apply Lt; clear Lt.
      all: try lia.
      all: try (cbn [getr]; rewrite H1b, nth_error_app2 by (rewrite map_length; lia);
                rewrite map_length, Nat.sub_diag; reflexivity).
      all: try (cbn [getr]; rewrite H1, Hb by lia; rewrite nth_error_app2 by lia;
                rewrite <- Lp, Nat.sub_diag; reflexivity).
      all: try (eapply rep_frame; [exact Rt|]; intros x I; apply H1;
                assert (x < b') by (apply Lk, in_or_app; auto); lia).
      all: try exact NDt.
      all: try (intros x I; assert (x < b') by (apply Lk, in_or_app; auto); cbn; lia).
      all: try (intros x [<-|[]]; split; [cbn; lia|]; intros I; assert (b' < b') by (apply Lk, in_or_app; auto); lia).
      all: intros x I; cbn in I; rewrite H1 by lia; apply Fr; lia. }
    clear Lt. destruct e1 as [e1|].
    + destruct T as (s2 & E2 & F2 & L2 & Q2 & H2). unfold bind at 1. unfold on_throw at 1. rewrite E2.
      unfold bind at 1. unfold drop_kid, blk, bind at 1. rewrite H2, H1b. cbn [body given header].
      rewrite firstn_map_len.
      unfold put_blk at 1. rewrite H2, H1b.
      set (s3 := set_heap b' (Some (mkB ly (Some (v, map oid done)) None)) s2).
      assert (forall x, heap s3 x = heap s x) as H3.
      { intros x. cbn. destruct (Nat.eqb_spec x b') as [->|Nx]; [now rewrite Hb'|]. now rewrite H2, H1. }
      unfold bind at 1.
      destruct (destroy_kids_ok n b' ly v None done 0 s3) as (s4 & E4 & F4 & Q4 & H4).
      { apply Forall_forall. intros x _. apply reset_ok. }
      { rewrite H3, Hb'. cbn. now rewrite app_nil_r. }
      { eapply reps_frame; [exact Rd|]. intros x _. apply H3. }
      { exact NDd. }
      { intros I. apply Ld in I. lia. }
      { exact Hd. }
      rewrite E4.
      assert (heap s4 b' = Some (mkB ly (Some (v, repeat None (length done + 0))) None)) as Hb4.
      { rewrite H4. destruct (in_dec Nat.eq_dec b' (flat_map ids done)) as [I|_]; [apply Ld in I; lia|].
        cbn. now rewrite Nat.eqb_refl. }
      unfold no_object, blk, bind at 1. rewrite Hb4. unfold put_blk. rewrite Hb4. cbn [given].
      eexists. split; [reflexivity|]. cbn [fresh roots set_heap].
      split; [rewrite F4; cbn; rewrite F2; reflexivity|]. split; [cbn in L2; exact L2|].
      split; [rewrite Q4; cbn; rewrite Q2; reflexivity|].
      split; [cbn; now rewrite Nat.eqb_refl|].
      intros x Nx. cbn. destruct (Nat.eqb_spec x b'); [congruence|]. rewrite H4. cbn.
      destruct (in_dec Nat.eq_dec x (flat_map ids done)); [reflexivity|].
      destruct (Nat.eqb_spec x b'); [congruence|]. now rewrite H2, H1.
    + destruct T as (s2 & E2 & t' & S2 & F2 & L2 & I2 & ND2 & R2 & Q2 & H2 & N2).
      change (fresh s1) with (fresh s) in *.
      assert ((on_throw (copy_from n (Kid b' (length done)) (Kid b (length done)))
         (drop_kid b' (length done) ;;; destroy_kids n b' (length done) ;;; no_object b') ;;;
         copy_kids n b b' (length ks) (S (length done))) s1
         = copy_kids n b b' (length ks) (S (length done)) s2) as Ek.
      { unfold bind at 1. unfold on_throw at 1. rewrite E2. reflexivity. }
      rewrite Ek. clear Ek.
      rewrite roots_setr_kid in Q2.
      assert (heap s2 b' = Some (mkB ly (Some (v, map oid (done ++ [t']))) None)) as Hb2.
      { rewrite H2 by exact Lf. cbn [setr]. rewrite H1b. cbn. rewrite Nat.eqb_refl.
        rewrite map_app. cbn [map]. rewrite <- (map_length oid done), upd_last. reflexivity. }
      assert (forall x, x < fresh s -> x <> b' -> heap s2 x = heap s x) as O2.
      { intros x Lx Nx. rewrite H2 by exact Lx. rewrite heap_setr_other; [now apply H1|]. cbn. intros [J|[]]; congruence. }
      specialize (IH (done ++ [t']) s2 Lks).
      replace (S (length done)) with (length (done ++ [t'])) by (rewrite app_length; cbn; lia).
      rewrite F2 in IH.
      destruct (dups c1 (map strip ks)) as [c2 e2].
      assert (match e2 with
        | None => exists s' new,
            copy_kids n b b' (length ks) (length (done ++ [t'])) s2 = Ok tt s' /\
            map strip new = map strip ks /\ fresh s' = c2 /\ c1 <= c2 /\ roots s' = roots s2 /\
            heap s' b' = Some (mkB ly (Some (v, map oid ((done ++ [t']) ++ new))) None) /\
            (forall x, In x (flat_map ids new) -> c1 <= x < c2) /\ NoDup (flat_map ids new) /\
            Forall (rep (heap s')) new /\
            (forall x, x < c1 -> x <> b' -> heap s' x = heap s2 x) /\
            (forall x, c1 <= x -> ~ In x (flat_map ids new) -> heap s' x = None)
        | Some e => exists s',
            copy_kids n b b' (length ks) (length (done ++ [t'])) s2 = Throw e s' /\
            fresh s' = c2 /\ c1 <= c2 /\ roots s' = roots s2 /\
            heap s' b' = Some (mkB ly None None) /\
            (forall x, x <> b' -> heap s' x = if in_dec Nat.eq_dec x (flat_map ids (done ++ [t'])) then None else heap s2 x)
        end) as T.
      { assert (forall x, In x (flat_map ids (done ++ [t'])) -> b' < x < c1) as LD.
        { intros x I. rewrite flat_map_app in I. cbn in I. rewrite app_nil_r in I. apply in_app_or in I.
          destruct I as [I|I]; [apply Ld in I; lia|apply I2 in I; lia]. }
        destruct e2 as [e2|]; apply IH; clear IH.
        all: try (exists (pre ++ [oid t]); split; [|rewrite !app_length; cbn; lia];
                  rewrite O2, Hb by lia; rewrite <- app_assoc; reflexivity).
        all: try exact Hb2. all: try lia.
        all: try (rewrite map_app, list_max_app; cbn [map list_max fold_right];
                  rewrite <- (height_strip t'), S2, height_strip; cbn; unfold list_max in *; lia).
        all: try (eapply reps_frame; [exact Rks|]; intros x I;
                  assert (x < b') by (apply Lk, in_or_app; auto); apply O2; lia).
        all: try exact NDks.
        all: try (intros x I; apply Lk, in_or_app; auto).
        all: try (apply Forall_app; split; [|constructor; [exact R2|constructor]];
                  eapply reps_frame; [exact Rd|]; intros x I; apply Ld in I; apply O2; lia).
        all: try (rewrite flat_map_app; cbn [flat_map]; rewrite app_nil_r; apply NoDup_app_iff;
                  split; [exact NDd|]; split; [exact ND2|]; intros x I J; apply Ld in I; apply I2 in J; lia).
        all: try exact LD.
        all: try (unfold list_max in *; lia).
        all: intros x Lx; apply N2; [lia|]; intros I; apply I2 in I; lia. }
      clear IH. destruct e2 as [e2|].
      * destruct T as (s' & E' & F' & L' & Q' & Hb'' & H').
        exists s'. split; [exact E'|]. split; [exact F'|]. split; [lia|]. split; [cbn in Q2; congruence|]. split; [exact Hb''|].
        intros x Nx. rewrite H' by exact Nx. rewrite flat_map_app. cbn [flat_map]. rewrite app_nil_r.
        destruct (in_dec Nat.eq_dec x (flat_map ids done)) as [I|I].
        -- destruct (in_dec Nat.eq_dec x (flat_map ids done ++ ids t')) as [_|J]; [reflexivity|].
           exfalso. apply J. apply in_or_app. auto.
        -- destruct (in_dec Nat.eq_dec x (flat_map ids done ++ ids t')) as [J|J].
           ++ apply in_app_or in J. destruct J as [J|J]; [tauto|]. apply I2 in J. symmetry. apply Fr. lia.
           ++ destruct (le_lt_dec (fresh s) x) as [Lx|Lx].
              ** rewrite N2; [symmetry; now apply Fr|exact Lx|]. intros K. apply J. apply in_or_app. auto.
              ** now apply O2.
      * destruct T as (s' & new & E' & S' & F' & L' & Q' & Hb'' & I' & ND' & R' & O' & N').
        exists s', (t' :: new). split; [exact E'|]. cbn [map flat_map]. split; [congruence|].
        split; [exact F'|]. split; [lia|]. split; [cbn in Q2; congruence|].
        split; [rewrite Hb'', <- app_assoc; reflexivity|].
        split; [intros x I; apply in_app_or in I; destruct I as [I|I]; [apply I2 in I|apply I' in I]; lia|].
        split; [apply NoDup_app_iff; split; [exact ND2|]; split; [exact ND'|]; intros x I J; apply I2 in I; apply I' in J; lia|].
        split.
        { constructor; [|exact R']. eapply rep_frame; [exact R2|]. intros x I. apply I2 in I. apply O'; lia. }
        split.
        { intros x Lx Nx. rewrite O' by lia. now apply O2. }
        { intros x Lx I. destruct (le_lt_dec c1 x) as [Lc|Lc].
          - apply N'; [exact Lc|]. intros J. apply I. apply in_or_app. auto.
          - rewrite O' by lia. apply N2; [exact Lx|]. intros J. apply I. apply in_or_app. auto. }
Qed.

Lemma setr_same r x (s : st V) : getr r s = Some x -> same s (setr r x s).
Proof.
  destruct r as [i|b k]; cbn; intros G.
  - split; [reflexivity|]. split; [cbn; now rewrite upd_same|reflexivity].
  - destruct (heap s b) as [[g [[v l]|] h]|] eqn:Eb; try discriminate.
    split; [reflexivity|]. split; [reflexivity|]. intros y. cbn. rewrite upd_same by exact G.
    destruct (Nat.eqb_spec y b); [now subst|reflexivity].
Qed.
(** Setting an any twice *)
Lemma setr_twice r x y (s s' : st V) :
  getr r s <> None -> roots s' = roots (setr r x s) -> (forall z, In z (ref_block r) -> heap s' z = heap (setr r x s) z) ->
  roots (setr r y s') = roots (setr r y s) /\
  (forall z, In z (ref_block r) -> heap (setr r y s') z = heap (setr r y s) z).
Proof.
  destruct r as [i|b k]; intros G Q H.
  - split; [cbn in *; rewrite Q, upd_upd; reflexivity|]. intros z [].
  - rewrite !roots_setr_kid in *. split; [exact Q|]. intros z [<-|[]]. specialize (H b (or_introl eq_refl)).
    cbn [getr setr ref_block] in *. destruct (heap s b) as [[g [[v l]|] h]|] eqn:Eb; try congruence.
    cbn in H. rewrite Nat.eqb_refl in H. rewrite H. cbn. now rewrite Nat.eqb_refl, upd_upd.
Qed.

Lemma unwind_ok r o b b' ly v l (s s2 s4 : st V) :
  getr r s = Some None -> getr o s = Some (Some b) ->
  heap s b = Some (mkB ly (Some (v, l)) (Some ly)) -> ~ In b (ref_block r) -> ~ In b' (ref_block r) ->
  heap s b' = None ->
  roots s2 = roots (setr r (Some b') s) -> (forall x, x <> b' -> heap s2 x = heap (setr r (Some b') s) x) ->
  roots s4 = roots s2 -> (forall x, x <> b' -> heap s4 x = heap s2 x) -> heap s4 b' = Some (mkB ly None None) ->
  exists s5, unwind r o s4 = Ok tt s5 /\ fresh s5 = fresh s4 /\ roots s5 = roots s /\ forall x, heap s5 x = heap s x.
Proof.
  intros Gr Go Hb Nb Nb' Hb' Q2 H2 Q4 H4 Hb4.
  assert (b <> b') as Nbb by congruence.
  assert (same_ref o r = false) as Nro.
  { destruct (same_ref o r) eqn:Er; [|reflexivity]. apply same_ref_eq in Er. subst. congruence. }
  assert (forall x, x <> b' -> heap s4 x = heap (setr r (Some b') s) x) as H42.
  { intros x Nx. now rewrite H4, H2. }
  assert (getr o s4 = Some (Some b)) as G4.
  { rewrite <- Go, <- (getr_setr_other r o (Some b') s Nro). apply getr_ext; [congruence|].
    intros x I. apply H42. intros ->. destruct o as [i|c k]; [destruct I|]. destruct I as [<-|[]].
    cbn in Go. rewrite Hb' in Go. discriminate. }
  assert (heap s4 b = Some (mkB ly (Some (v, l)) (Some ly))) as Hb4b.
  { rewrite H42 by exact Nbb. now rewrite heap_setr_other. }
  assert (getr r s4 = Some (Some b')) as Gr4.
  { transitivity (getr r (setr r (Some b') s)); [|apply getr_setr; congruence]. apply getr_ext; [congruence|].
    intros x I. apply H42. intros ->. tauto. }
  unfold unwind, slot_of, bind. rewrite G4. unfold blk. rewrite Hb4b. cbn [header].
  rewrite (free_block_ok r b' ly s4 Gr4 Hb4 Nb').
  eexists. split; [reflexivity|]. split; [now rewrite fresh_setr|].
  destruct (setr_twice r (Some b') None s (set_heap b' None s4)) as [T1 T2].
  { congruence. }
  { cbn [roots set_heap]. congruence. }
  { intros z I. cbn. destruct (Nat.eqb_spec z b'); [subst; tauto|]. now apply H42. }
  destruct (setr_same r None s Gr) as (_ & S2 & S3).
  split; [congruence|]. intros x. destruct (in_dec Nat.eq_dec x (ref_block r)) as [I|I].
  - rewrite T2 by exact I. apply S3.
  - rewrite heap_setr_other by exact I. cbn. destruct (Nat.eqb_spec x b') as [->|Nx]; [now rewrite Hb'|].
    rewrite H42 by exact Nx. now rewrite heap_setr_other.
Qed.

Lemma copy_ok t : copy_law t.
Proof.
  induction t as [|[b v] ks IH] using tree_rec'; intros n r o s Hn Gr Go R ND Lt Lr Fr.
  - destruct n as [|n]; [lia|]. cbn [strip AnyNestSpec.dup]. exists s. rewrite copy_from_S. split.
    + cbn [reset]. unfold slot_of, bind. rewrite Gr. unfold ret. unfold copy_rest, slot_of, bind. rewrite Go. reflexivity.
    + exists E. destruct (setr_same r None s Gr) as (S1 & S2 & S3).
      split; [reflexivity|]. split; [reflexivity|]. split; [lia|]. split; [intros x []|].
      split; [constructor|]. split; [exact I|]. split; [cbn [oid]; congruence|].
      split; [intros x _; symmetry; apply S3|]. intros x Lx _. now apply Fr.
  - destruct n as [|n]; [lia|]. cbn [height] in Hn.
    apply rep_N in R. cbn [fst snd] in R. destruct R as ((ly & Hb) & R).
    cbn [ids fst] in *. apply NoDup_cons_iff in ND. destruct ND as [N1 N2].
    cbn [strip snd]. rewrite dup_N. cbn [oid fst] in Go.
    set (b' := fresh s) in *.
    assert (b < b') as Lb by (apply Lt; now left).
    assert (heap s b' = None) as Hb' by (apply Fr; lia).
    assert (~ In b' (ref_block r)) as Nb'.
    { intros I. apply Lr in I. lia. }
    assert (~ In b (ref_block r)) as Nb.
    { intros I. apply Lr in I. destruct I as [_ I]. apply I. now left. }
    set (k := mkB ly (Some (v, map oid ks)) (Some ly)) in *.
    assert (copy_from (S n) r o s =
      (let* b' := allocate avail ly in
       put_slot r (Some b') ;;;
       on_throw (clone n b b' ly k) (unwind r o)) s) as Ec.
    { rewrite copy_from_S. cbn [reset]. unfold slot_of at 1, bind at 1. unfold bind at 1. rewrite Gr.
      unfold ret at 1. unfold copy_rest at 1. unfold slot_of at 1, bind at 1. rewrite Go.
      unfold blk at 1, bind at 1. rewrite Hb. reflexivity. }
    rewrite Ec. clear Ec.
    destruct (avail b') eqn:Ea.
    2:{ eexists. split; [unfold allocate, bind; fold b'; rewrite Ea; reflexivity|]. split; [reflexivity|]. split; [lia|]. split; reflexivity. }
    set (s1 := mkSt (heap (set_heap b' (Some (mkB ly None None)) s)) (S b') (roots s)).
    assert ((let* b' := allocate avail ly in
             put_slot r (Some b') ;;;
             on_throw (clone n b b' ly k) (unwind r o)) s =
            (put_slot r (Some b') ;;; on_throw (clone n b b' ly k) (unwind r o)) s1) as Ec.
    { unfold allocate, bind. fold b'. rewrite Ea. reflexivity. }
    rewrite Ec. clear Ec.
    assert (forall x, x <> b' -> heap s1 x = heap s x) as H1.
    { intros x Nx. cbn. destruct (Nat.eqb_spec x b'); [congruence|reflexivity]. }
    assert (heap s1 b' = Some (mkB ly None None)) as H1b by (cbn; now rewrite Nat.eqb_refl).
    assert (getr r s1 = Some None) as Gr1.
    { rewrite <- Gr. apply getr_ext; [reflexivity|]. intros x I. apply H1. intros ->. tauto. }
    set (s2 := setr r (Some b') s1).
    assert (forall f : M (st V) unit, (put_slot r (Some b') ;;; f) s1 = f s2) as Ep.
    { intros f. unfold put_slot, bind. rewrite Gr1. reflexivity. }
    assert (roots s2 = roots (setr r (Some b') s)) as Q2 by (apply setr_ext_roots; reflexivity).
    assert (forall x, x <> b' -> heap s2 x = heap (setr r (Some b') s) x) as H2.
    { intros x Nx. apply setr_ext_heap; [right; now apply H1|]. intros y I. apply H1. intros ->. tauto. }
    assert (heap s2 b' = Some (mkB ly None None)) as H2b.
    { unfold s2. rewrite heap_setr_other by exact Nb'. exact H1b. }
    assert (heap s2 b = heap s b) as H2s.
    { rewrite H2 by lia. now apply heap_setr_other. }
    assert (fresh s2 = S b') as F2 by (unfold s2; now rewrite fresh_setr).
    destruct (copyable v) eqn:Ev.
    2:{ rewrite Ep. unfold on_throw, clone. cbn [body k]. rewrite Ev. unfold throw.
        destruct (unwind_ok r o b b' ly v (map oid ks) s s2 s2) as (s5 & E5 & F5 & Q5 & H5); auto.
        rewrite E5. exists s5. split; [reflexivity|]. split; [congruence|]. split; [fold b'; lia|]. auto. }
    set (s3 := set_heap b' (Some (mkB ly (Some (v, [])) None)) s2).
    assert (forall x, x <> b' -> heap s3 x = heap s2 x) as H3.
    { intros x Nx. cbn. destruct (Nat.eqb_spec x b'); [congruence|reflexivity]. }
    assert (forall x, x <> b' -> ~ In x (ref_block r) -> heap s3 x = heap s x) as H3s.
    { intros x Nx Nr. rewrite H3, H2 by exact Nx. now apply heap_setr_other. }
    assert (forall f : M (st V) unit, (put_slot r (Some b') ;;; on_throw (clone n b b' ly k) f) s1 =
       on_throw (copy_kids n b b' (length ks) 0 ;;;
                 let* k'' := blk b' in put_blk b' (mkB (given k'') (body k'') (Some ly))) f s3) as Ek.
    { intros f. rewrite Ep. unfold on_throw, clone. cbn [body k]. rewrite Ev.
      unfold blk at 1, bind at 1. rewrite H2b. cbn [given]. unfold put_blk at 1, bind at 1. rewrite H2b.
      fold s3. rewrite each_copy_bind, map_length. reflexivity. }
    rewrite Ek. clear Ek.
    pose proof (copy_kids_ok n b b' v ly ks [] s3) as CK.
    assert (fresh s3 = S b') as F3 by exact F2. rewrite F3 in CK.
    assert (forall P : Prop, (Forall copy_law ks ->
      (exists pre, heap s3 b = Some (mkB ly (Some (v, pre ++ map oid ks)) (Some ly)) /\ length pre = length (@nil at_)) ->
      heap s3 b' = Some (mkB ly (Some (v, map oid [])) None) ->
      b < b' -> b' < S b' -> list_max (map height ks) < n -> list_max (map height (@nil at_)) < n ->
      Forall (rep (heap s3)) ks -> NoDup (flat_map ids ks) -> (forall x, In x (flat_map ids ks) -> x < b') ->
      Forall (rep (heap s3)) [] -> NoDup (flat_map ids []) ->
      (forall x, In x (flat_map ids []) -> b' < x < S b') ->
      (forall x, S b' <= x -> heap s3 x = None) -> P) -> P) as Hyp.
    { intros P HP. apply HP; clear HP CK.
      - exact IH.
      - exists []. split; [|reflexivity]. rewrite H3 by lia. now rewrite H2s.
      - cbn. now rewrite Nat.eqb_refl.
      - exact Lb.
      - lia.
      - lia.
      - cbn. lia.
      - eapply reps_frame; [exact R|]. intros x I.
        assert (x < b') by (apply Lt; now right). apply H3s; [lia|]. intros J. apply Lr in J. destruct J as [_ J]. apply J. now right.
      - exact N2.
      - intros x I. apply Lt. now right.
      - constructor.
      - constructor.
      - intros x [].
      - intros x Lx. rewrite H3s; [apply Fr; fold b'; lia|lia|]. intros J. apply Lr in J. lia. }
    apply Hyp in CK. clear Hyp.
    destruct (dups (S b') (map strip ks)) as [c [e|]].
    + destruct CK as (s4 & E4 & F4 & L4 & Q4 & Hb4 & H4). cbn [length] in E4.
      unfold on_throw. unfold bind at 1. rewrite E4.
      destruct (unwind_ok r o b b' ly v (map oid ks) s s2 s4) as (s5 & E5 & F5 & Q5 & H5); auto.
      { intros x Nx. rewrite H4 by exact Nx. cbn [flat_map]. destruct (in_dec Nat.eq_dec x []) as [[]|_]. now apply H3. }
      rewrite E5. exists s5. split; [reflexivity|]. split; [congruence|]. split; [fold b'; lia|]. auto.
    + destruct CK as (s4 & new & E4 & S4 & F4 & L4 & Q4 & Hb4 & I4 & ND4 & R4 & O4 & N4). cbn [length] in E4.
      unfold on_throw. unfold bind at 1. rewrite E4. unfold blk, bind. rewrite Hb4. unfold put_blk. rewrite Hb4.
      cbn [given body app]. eexists. split; [reflexivity|].
      set (s5 := set_heap _ _ s4).
      assert (forall x, x <> b' -> heap s5 x = heap s4 x) as H5.
      { intros x Nx. cbn. destruct (Nat.eqb_spec x b'); [congruence|reflexivity]. }
      exists (N (b', v) new). cbn [strip snd ids fst oid].
      split; [congruence|]. split; [exact F4|]. split; [fold b'; lia|].
      split; [intros x [<-|I]; [fold b'; lia|apply I4 in I; fold b'; lia]|].
      split; [constructor; [intros I; apply I4 in I; lia|exact ND4]|].
      split.
      { apply rep_N. cbn [fst snd]. split.
        - exists ly. cbn. now rewrite Nat.eqb_refl.
        - eapply reps_frame; [exact R4|]. intros x I. apply H5. apply I4 in I. lia. }
      split; [cbn [roots s5 set_heap]; rewrite Q4; exact Q2|].
      split.
      * intros x Lx. fold b' in Lx. rewrite H5, O4, H3, H2 by lia. reflexivity.
      * intros x Lx I. fold b' in Lx. rewrite H5 by (intros ->; apply I; now left). apply N4; [|intros J; apply I; now right].
        assert (x <> b') by (intros ->; apply I; now left). lia.
Qed.

(** ** Paths *)
Fixpoint refw (ts : list at_) (mk : nat -> ref) (k : nat) (p : list nat) : option ref :=
  match p with
  | [] => Some (mk k)
  | k' :: p' =>
      match nth_error ts k with
      | Some (N a ks) => refw ks (Kid (fst a)) k' p'
      | _ => None
      end
  end.

Lemma upd_perm (ts : list at_) k t : nth_error ts k = Some t ->
  exists rest, Permutation (flat_map ids ts) (ids t ++ rest) /\
    forall t', Permutation (flat_map ids (upd ts k t')) (ids t' ++ rest).
Proof.
  revert k. induction ts as [|y ts IH]; intros [|k] H; cbn in *; try discriminate.
  - injection H as ->. exists (flat_map ids ts). split; intros; apply Permutation_refl.
  - destruct (IH k H) as (rest & P1 & P2). exists (ids y ++ rest). split.
    + rewrite P1, !app_assoc. apply Permutation_app_tail, Permutation_app_comm.
    + intros t'. rewrite (P2 t'), !app_assoc. apply Permutation_app_tail, Permutation_app_comm.
Qed.
Lemma place_perm p : forall (ts : list at_) k t, sub ts k p = Some t ->
  exists rest, Permutation (flat_map ids ts) (ids t ++ rest) /\
    forall t', Permutation (flat_map ids (place ts k p t')) (ids t' ++ rest).
Proof.
  induction p as [|k' p IH]; intros ts k t H; cbn in *.
  - destruct (nth_error ts k) eqn:Ek; [|discriminate]. injection H as <-. now apply upd_perm.
  - destruct (nth_error ts k) as [[|a ks]|] eqn:Ek; try discriminate.
    destruct (upd_perm ts k _ Ek) as (r1 & P1 & P2). destruct (IH ks k' t H) as (r2 & Q1 & Q2).
    exists (fst a :: r2 ++ r1). cbn [ids] in *. split.
    + rewrite P1. cbn. rewrite Q1, <- app_assoc. apply Permutation_middle.
    + intros t'. rewrite P2. cbn. rewrite (Q2 t'), <- app_assoc. apply Permutation_middle.
Qed.

Lemma strip_sub p : forall (ts : list at_) k, sub (map strip ts) k p = option_map strip (sub ts k p).
Proof.
  induction p as [|k' p IH]; intros ts k; cbn; rewrite nth_error_map; destruct (nth_error ts k) as [[|a ks]|]; cbn; auto.
Qed.
Lemma strip_place p : forall (ts : list at_) k t, map strip (place ts k p t) = place (map strip ts) k p (strip t).
Proof.
  induction p as [|k' p IH]; intros ts k t; cbn.
  - apply map_upd.
  - rewrite nth_error_map. destruct (nth_error ts k) as [[|a ks]|]; cbn; auto. rewrite map_upd. cbn. now rewrite IH.
Qed.
Lemma nth_upd_same {A} (l : list A) k x y : nth_error l k = Some y -> nth_error (upd l k x) k = Some x.
Proof.
  intros H. rewrite nth_upd, Nat.eqb_refl. destruct (Nat.ltb_spec k (length l)) as [|L]; [reflexivity|].
  apply nth_error_None in L. congruence.
Qed.
Lemma nth_upd_other {A} (l : list A) k j x : k <> j -> nth_error (upd l k x) j = nth_error l j.
Proof. intros H. rewrite nth_upd. destruct (Nat.eqb_spec k j); [congruence|reflexivity]. Qed.
Lemma sub_place p : forall {A} (ts : list (tree A)) k t t', sub ts k p = Some t -> sub (place ts k p t') k p = Some t'.
Proof.
  induction p as [|k' p IH]; intros A ts k t t' H; cbn in *; destruct (nth_error ts k) as [u|] eqn:Ek; try discriminate.
  - erewrite nth_upd_same by exact Ek. reflexivity.
  - destruct u as [|a ks]; [discriminate|]. erewrite nth_upd_same by exact Ek. eapply IH. exact H.
Qed.
Lemma place_place p : forall {A} (ts : list (tree A)) k t t' t'', sub ts k p = Some t ->
  place (place ts k p t') k p t'' = place ts k p t''.
Proof.
  induction p as [|k' p IH]; intros A ts k t t' t'' H; cbn in *.
  - apply upd_upd.
  - destruct (nth_error ts k) as [[|a ks]|] eqn:Ek; try discriminate.
    erewrite nth_upd_same by exact Ek. rewrite upd_upd. now rewrite (IH _ _ _ t).
Qed.
Lemma refw_place p : forall ts mk k t t', sub ts k p = Some t -> refw (place ts k p t') mk k p = refw ts mk k p.
Proof.
  induction p as [|k' p IH]; intros ts mk k t t' H; cbn in *; [reflexivity|].
  destruct (nth_error ts k) as [[|a ks]|] eqn:Ek; try discriminate.
  erewrite nth_upd_same by exact Ek. eapply IH. exact H.
Qed.
Lemma apart_inv k p j q : apart (k, p) (j, q) ->
  k <> j \/ k = j /\ exists k' p' j' q', p = k' :: p' /\ q = j' :: q' /\ apart (k', p') (j', q').
Proof.
  intros [A B]. unfold begins in *. cbn in *. destruct (Nat.eq_dec k j) as [->|D]; [right|now left].
  split; [reflexivity|]. destruct p as [|k' p]; [exfalso; apply A; split; [reflexivity|eexists; reflexivity]|].
  destruct q as [|j' q]; [exfalso; apply B; split; [reflexivity|eexists; reflexivity]|].
  exists k', p, j', q. split; [reflexivity|]. split; [reflexivity|]. split; intros [E (r & F)]; cbn in *; subst.
  - apply A. split; [reflexivity|]. now exists r.
  - apply B. split; [reflexivity|]. now exists r.
Qed.
Lemma apart_sym p q : apart p q -> apart q p.
Proof. intros [A B]. now split. Qed.
Lemma apart_sub p : forall {A} (ts : list (tree A)) k t t' j q, apart (k, p) (j, q) -> sub ts k p = Some t ->
  sub (place ts k p t') j q = sub ts j q.
Proof.
  induction p as [|k' p IH]; intros A ts k t t' j q D H; destruct (apart_inv _ _ _ _ D) as [Nk|(-> & k1 & p1 & j1 & q1 & E1 & -> & D1)].
  - cbn. destruct q; cbn; now rewrite nth_upd_other.
  - discriminate.
  - cbn. destruct (nth_error ts k) as [[|a ks]|] eqn:Ek; auto. destruct q; cbn; now rewrite nth_upd_other.
  - injection E1 as <- <-. cbn in *. destruct (nth_error ts j) as [[|a ks]|] eqn:Ek; try discriminate.
    erewrite nth_upd_same by exact Ek. eapply IH; eauto.
Qed.
Lemma apart_refw p : forall ts mk k t t' j q, apart (k, p) (j, q) -> sub ts k p = Some t ->
  refw (place ts k p t') mk j q = refw ts mk j q.
Proof.
  induction p as [|k' p IH]; intros ts mk k t t' j q D H; destruct (apart_inv _ _ _ _ D) as [Nk|(-> & k1 & p1 & j1 & q1 & E1 & -> & D1)].
  - cbn. destruct q; cbn; [reflexivity|]. now rewrite nth_upd_other.
  - discriminate.
  - cbn. destruct (nth_error ts k) as [[|a ks]|] eqn:Ek; auto. destruct q; cbn; [reflexivity|]. now rewrite nth_upd_other.
  - injection E1 as <- <-. cbn in *. destruct (nth_error ts j) as [[|a ks]|] eqn:Ek; try discriminate.
    erewrite nth_upd_same by exact Ek. eapply IH; eauto.
Qed.

(** ** The state *)
(** [af] is what the variables hold, [l] are blocks which belong to nobody for the moment, and
    there are no others. *)
Definition holdsx (s : st V) (af : list at_) (l : list nat) : Prop :=
  roots s = map oid af /\ Forall (rep (heap s)) af /\ NoDup (flat_map ids af ++ l) /\
  (forall x, In x (flat_map ids af ++ l) -> x < fresh s) /\
  (forall x, ~ In x (flat_map ids af ++ l) -> heap s x = None).
Notation holds s af := (holdsx s af []).

Lemma holdsx_same s s' af l : holdsx s af l -> same s s' -> holdsx s' af l.
Proof.
  intros (H1 & H2 & H3 & H4 & H5) (S1 & S2 & S3). split; [congruence|].
  split; [eapply reps_frame; [exact H2|]; intros; apply S3|]. split; [exact H3|].
  split; [rewrite S1; exact H4|]. intros x I. rewrite S3. auto.
Qed.

Lemma rep_nth H ts k t : Forall (rep H) ts -> nth_error ts k = Some t -> rep H t.
Proof. intros F E. rewrite Forall_forall in F. apply F. eapply nth_error_In. exact E. Qed.

Lemma walk_ok p : forall ts k mk (s : st V) t,
  (forall j, getr (mk j) s = nth_error (map oid ts) j) -> Forall (rep (heap s)) ts -> sub ts k p = Some t ->
  exists r, refw ts mk k p = Some r /\ walk (mk k) p s = Ok r s /\ getr r s = Some (oid t) /\ rep (heap s) t.
Proof.
  induction p as [|k' p IH]; intros ts k mk s t G R H; cbn in *.
  - destruct (nth_error ts k) as [u|] eqn:Ek; [|discriminate]. injection H as ->.
    exists (mk k). unfold slot_of, bind. rewrite G, nth_error_map, Ek. cbn.
    split; [reflexivity|]. split; [reflexivity|]. split; [reflexivity|]. eapply rep_nth; eauto.
  - destruct (nth_error ts k) as [[|a ks]|] eqn:Ek; try discriminate.
    pose proof (rep_nth _ _ _ _ R Ek) as Rk. apply rep_N in Rk. destruct Rk as ((ly & Hb) & Rk).
    destruct (IH ks k' (Kid (fst a)) s t) as (r & E1 & E2 & E3 & E4); auto.
    { intros j. cbn. now rewrite Hb. }
    exists r. split; [exact E1|]. split; [|auto]. unfold slot_of, bind. rewrite G, nth_error_map, Ek. exact E2.
Qed.

(** Where the any at a path is *)
Lemma refw_block p : forall ts mk k t r, NoDup (flat_map ids ts) -> sub ts k p = Some t -> refw ts mk k p = Some r ->
  match p with
  | [] => r = mk k
  | _ => exists b j, r = Kid b j /\ In b (flat_map ids ts) /\ ~ In b (ids t)
  end.
Proof.
  induction p as [|k' p IH]; intros ts mk k t r ND H E; cbn in *; [congruence|].
  destruct (nth_error ts k) as [[|[b v] ks]|] eqn:Ek; try discriminate. cbn [fst] in E.
  destruct (upd_perm ts k _ Ek) as (r1 & P1 & _). cbn [ids fst] in P1.
  assert (NoDup (b :: flat_map ids ks)) as ND1.
  { apply (Permutation_NoDup P1) in ND. apply NoDup_app_iff in ND. tauto. }
  apply NoDup_cons_iff in ND1. destruct ND1 as [Nb ND1].
  assert (forall x, In x (b :: flat_map ids ks) -> In x (flat_map ids ts)) as Sub.
  { intros x I. apply (Permutation_in x (Permutation_sym P1)). apply in_or_app. now left. }
  specialize (IH ks (Kid b) k' t r ND1 H E). destruct p as [|k'' p].
  - subst. exists b, k'. split; [reflexivity|]. split; [apply Sub; now left|].
    destruct (place_perm [] ks k' t H) as (r2 & P2 & _). intros I. apply Nb.
    apply (Permutation_in b (Permutation_sym P2)). apply in_or_app. now left.
  - destruct IH as (b2 & j & -> & I1 & I2). exists b2, j. split; [reflexivity|]. split; [apply Sub; now right|exact I2].
Qed.

(** A path which goes on leads into the tree. *)
Lemma refw_inside p : forall ts mk k t r k' q, sub ts k p = Some t -> refw ts mk k (p ++ k' :: q) = Some r ->
  exists b j, r = Kid b j /\ In b (ids t).
Proof.
  induction p as [|k1 p IH]; intros ts mk k t r k' q H E; cbn in *.
  - destruct (nth_error ts k) as [u|] eqn:Ek; [|discriminate]. injection H as ->. destruct t as [|a ks]; [discriminate|].
    clear Ek. revert a ks k' r E. induction q as [|k2 q IHq]; intros a ks k' r E; cbn in E.
    + injection E as <-. exists (fst a), k'. split; [reflexivity|now left].
    + destruct (nth_error ks k') as [[|a2 ks2]|] eqn:E2; try discriminate.
      destruct (IHq _ _ _ _ E) as (b & j & -> & I). exists b, j. split; [reflexivity|]. right.
      apply in_flat_map. eexists. split; [eapply nth_error_In; exact E2|exact I].
  - destruct (nth_error ts k) as [[|a ks]|] eqn:Ek; try discriminate. eapply IH; eauto.
Qed.

Lemma upd_rep H H' ts k t t' :
  Forall (rep H) ts -> NoDup (flat_map ids ts) -> nth_error ts k = Some t -> rep H' t' ->
  (forall x, In x (flat_map ids ts) -> ~ In x (ids t) -> H' x = H x) -> Forall (rep H') (upd ts k t').
Proof.
  revert k. induction ts as [|y ts IH]; intros k R ND E R' EQ; [destruct k; discriminate|].
  inversion R as [|? ? Ry Rts]; subst. cbn [flat_map] in *. apply NoDup_app_iff in ND. destruct ND as (N1 & N2 & D).
  destruct k as [|k]; cbn in *.
  - injection E as ->. constructor; [exact R'|]. eapply reps_frame; [exact Rts|]. intros x I. apply EQ; [apply in_or_app; auto|].
    intros J. exact (D x J I).
  - constructor.
    + eapply rep_frame; [exact Ry|]. intros x I. apply EQ; [apply in_or_app; auto|]. intros J. apply (D x I).
      apply in_flat_map. eexists. split; [eapply nth_error_In; exact E|exact J].
    + apply IH; auto. intros x I. apply EQ. apply in_or_app. auto.
Qed.

Lemma place_rep p : forall ts k mk r (s s' : st V) t t',
  Forall (rep (heap s)) ts -> NoDup (flat_map ids ts) -> sub ts k p = Some t -> refw ts mk k p = Some r ->
  (forall x, In x (ref_block (mk k)) -> ~ In x (flat_map ids ts)) ->
  (forall x, In x (flat_map ids ts) -> ~ In x (ids t) -> heap s' x = heap (setr r (oid t') s) x) ->
  rep (heap s') t' ->
  Forall (rep (heap s')) (place ts k p t') /\
  (p <> [] -> map oid (place ts k p t') = map oid ts).
Proof.
  induction p as [|k' p IH]; intros ts k mk r s s' t t' R ND H E Nmk EQ R'; cbn in *.
  - destruct (nth_error ts k) as [u|] eqn:Ek; [|discriminate]. injection H as ->. injection E as <-.
    split; [|congruence]. eapply upd_rep; eauto. intros x I J. rewrite EQ by assumption.
    apply heap_setr_other. intros K. exact (Nmk x K I).
  - destruct (nth_error ts k) as [[|[b v] ks]|] eqn:Ek; try discriminate. cbn [fst] in E.
    destruct (upd_perm ts k _ Ek) as (r1 & P1 & _). cbn [ids fst] in P1.
    assert (NoDup (b :: flat_map ids ks)) as ND1.
    { apply (Permutation_NoDup P1) in ND. apply NoDup_app_iff in ND. tauto. }
    apply NoDup_cons_iff in ND1. destruct ND1 as [Nb ND1].
    assert (forall x, In x (b :: flat_map ids ks) -> In x (flat_map ids ts)) as Sub.
    { intros x I. apply (Permutation_in x (Permutation_sym P1)). apply in_or_app. now left. }
    pose proof (rep_nth _ _ _ _ R Ek) as Rk. apply rep_N in Rk. cbn [fst snd] in Rk. destruct Rk as ((ly & Hb) & Rk).
    destruct (IH ks k' (Kid b) r s s' t t') as (R1 & O1); auto.
    { intros x [<-|[]]. exact Nb. }
    { intros x I J. apply EQ; [apply Sub; now right|exact J]. }
    assert (forall x, In x (ids t) -> In x (flat_map ids ks)) as Subt.
    { destruct (place_perm p ks k' t H) as (r2 & P2 & _). intros x I.
      apply (Permutation_in x (Permutation_sym P2)). apply in_or_app. now left. }
    assert (heap s' b = heap (setr r (oid t') s) b) as Hb'.
    { apply EQ; [apply Sub; now left|]. intros I. apply Nb. now apply Subt. }
    assert (rep (heap s') (N (b, v) (place ks k' p t'))) as RN.
    { apply rep_N. cbn [fst snd]. split; [|exact R1]. exists ly. rewrite Hb'. destruct p as [|k'' p].
      - cbn in E. injection E as <-. cbn [setr]. rewrite Hb. cbn. rewrite Nat.eqb_refl, map_upd. reflexivity.
      - rewrite O1 by discriminate. rewrite heap_setr_other; [exact Hb|].
        pose proof (refw_block _ _ _ _ _ _ ND1 H E) as (b2 & j & -> & I1 & I2). cbn. intros [->|[]]. tauto. }
    split.
    + eapply upd_rep; [exact R|exact ND|exact Ek|exact RN|]. intros x I J. cbn [ids fst] in J.
      rewrite EQ; [|exact I|intros K; apply J; right; now apply Subt].
      apply heap_setr_other. intros K. apply J. pose proof (refw_block _ _ _ _ _ _ ND1 H E) as RB. destruct p.
      * subst. cbn in K. destruct K as [<-|[]]. now left.
      * destruct RB as (b2 & j & -> & I1 & I2). cbn in K. destruct K as [<-|[]]. now right.
    + intros _. rewrite map_upd. cbn [oid fst]. apply upd_same. rewrite nth_error_map, Ek. reflexivity.
Qed.

Lemma holds_find s af l p t : holdsx s af l -> at_path af p = Some t ->
  exists r, refw af Root (fst p) (snd p) = Some r /\ find p s = Ok r s /\ getr r s = Some (oid t) /\
    rep (heap s) t /\ NoDup (ids t) /\ (forall x, In x (ids t) -> x < fresh s) /\
    (forall x, In x (ref_block r) -> x < fresh s /\ ~ In x (ids t)).
Proof.
  intros (H1 & H2 & H3 & H4 & H5) E. destruct p as [k p]. unfold at_path, find in *. cbn [fst snd] in *.
  destruct (walk_ok p af k Root s t) as (r & E1 & E2 & E3 & E4); auto.
  { intros j. cbn. now rewrite H1. }
  apply NoDup_app_iff in H3. destruct H3 as (H3 & _).
  destruct (place_perm p af k t E) as (rest & P1 & _).
  exists r. split; [exact E1|]. split; [exact E2|]. split; [exact E3|]. split; [exact E4|].
  split; [apply (Permutation_NoDup P1) in H3; apply NoDup_app_iff in H3; tauto|].
  split; [intros x I; apply H4; apply in_or_app; left; apply (Permutation_in x (Permutation_sym P1)); apply in_or_app; auto|].
  pose proof (refw_block _ _ _ _ _ _ H3 E E1) as RB. intros x I. destruct p; [subst; destruct I|].
  destruct RB as (b & j & -> & I1 & I2). destruct I as [<-|[]]. split; [apply H4, in_or_app; auto|exact I2].
Qed.

Lemma holds_update s s' af l l' p t t' r :
  holdsx s af l -> at_path af p = Some t -> refw af Root (fst p) (snd p) = Some r ->
  fresh s <= fresh s' -> roots s' = roots (setr r (oid t') s) ->
  (forall x, In x (flat_map ids af) -> ~ In x (ids t) -> heap s' x = heap (setr r (oid t') s) x) ->
  rep (heap s') t' -> NoDup (ids t' ++ l') -> (forall x, In x (ids t' ++ l') -> x < fresh s') ->
  (forall x, In x (ids t' ++ l') -> In x (flat_map ids af) -> In x (ids t)) ->
  (forall x, ~ (In x (flat_map ids af) /\ ~ In x (ids t)) -> ~ In x (ids t' ++ l') -> heap s' x = None) ->
  holdsx s' (with_path af p t') l'.
Proof.
  intros (H1 & H2 & H3 & H4 & H5) E Er F Q EQ R' ND' Lt' Sub' Fr'. destruct p as [k p]. unfold at_path, with_path in *. cbn [fst snd] in *.
  apply NoDup_app_iff in H3. destruct H3 as (H3 & _).
  destruct (place_perm p af k t E) as (rest & P1 & P2). specialize (P2 t').
  assert (NoDup (ids t ++ rest)) as NDr by (eapply Permutation_NoDup; eauto).
  apply NoDup_app_iff in NDr. destruct NDr as (_ & NDr & Dis).
  destruct (place_rep p af k Root r s s' t t') as (R1 & O1); auto.
  assert (forall x, In x rest <-> In x (flat_map ids af) /\ ~ In x (ids t)) as Hrest.
  { intros x. split.
    - intros I. split; [apply (Permutation_in x (Permutation_sym P1)), in_or_app; auto|]. intros J. exact (Dis x J I).
    - intros [I J]. apply (Permutation_in x P1) in I. apply in_app_or in I. tauto. }
  assert (Permutation (flat_map ids (place af k p t') ++ l') (rest ++ ids t' ++ l')) as P3.
  { rewrite P2, (Permutation_app_comm (ids t') rest), app_assoc. apply Permutation_refl. }
  split.
  { destruct p as [|k' p].
    - cbn in Er. injection Er as <-. rewrite Q. cbn. now rewrite map_upd, H1.
    - rewrite O1 by discriminate. pose proof (refw_block _ _ _ _ _ _ H3 E Er) as (b & j & -> & _).
      now rewrite Q, roots_setr_kid. }
  split; [exact R1|]. split.
  { apply (Permutation_NoDup (Permutation_sym P3)). apply NoDup_app_iff. split; [exact NDr|]. split; [exact ND'|].
    intros x I J. apply Hrest in I. destruct I as [I1 I2]. apply I2. now apply Sub'. }
  split.
  { intros x I. apply (Permutation_in x P3) in I. apply in_app_or in I. destruct I as [I|I]; [|auto].
    apply Hrest in I. enough (x < fresh s) by lia. apply H4, in_or_app. tauto. }
  intros x I. apply Fr'.
  - intros J. apply I. apply (Permutation_in x (Permutation_sym P3)). apply in_or_app. left. now apply Hrest.
  - intros J. apply I. apply (Permutation_in x (Permutation_sym P3)). apply in_or_app. now right.
Qed.

Lemma at_strip af p t : at_path (map strip af) p = Some t -> exists t', at_path af p = Some t' /\ strip t' = t.
Proof.
  unfold at_path. rewrite strip_sub. destruct (sub af (fst p) (snd p)); cbn; [|discriminate]. intros [=]. eauto.
Qed.
Lemma with_strip af p t : map strip (with_path af p t) = with_path (map strip af) p (strip t).
Proof. apply strip_place. Qed.

Lemma sub_height p : forall {A} (ts : list (tree A)) k t, sub ts k p = Some t -> height t <= list_max (map height ts).
Proof.
  induction p as [|k' p IH]; intros A ts k t H; cbn in H; destruct (nth_error ts k) as [u|] eqn:Ek; try discriminate.
  - injection H as ->. apply list_max_in. apply in_map. eapply nth_error_In. exact Ek.
  - destruct u as [|a ks]; [discriminate|]. apply IH in H.
    assert (height (N a ks) <= list_max (map height ts)) by (apply list_max_in, in_map; eapply nth_error_In; exact Ek).
    cbn [height] in *. lia.
Qed.

Definition tall (af : list at_) : nat := list_max (map height (map strip af)).
Lemma at_height af p t : at_path af p = Some t -> height t <= tall af.
Proof.
  intros H. unfold tall. rewrite map_map. replace (map (fun x => height (strip x)) af) with (map height af).
  - eapply sub_height. exact H.
  - apply map_ext. intros x. symmetry. apply height_strip.
Qed.

(** reset, at a path *)
Lemma reset_at n s af p t r :
  holds s af -> at_path af p = Some t -> refw af Root (fst p) (snd p) = Some r -> tall af < n ->
  exists s', reset n r s = Ok tt s' /\ fresh s' = fresh s /\ holds s' (with_path af p E) /\
    forall x, In x (ids t) -> heap s' x = None.
Proof.
  intros H E Er Hn. destruct (holds_find _ _ _ _ _ H E) as (r' & Er' & _ & G & R & ND & Lt & Lr).
  rewrite Er in Er'. injection Er' as <-.
  destruct (reset_ok t n r s) as (s' & E' & F' & Q' & H').
  { pose proof (at_height _ _ _ E). lia. }
  { exact G. } { exact R. } { exact ND. } { intros x I. now apply Lr. }
  rewrite fresh_setr in F'. exists s'. split; [exact E'|]. split; [exact F'|]. split.
  - eapply holds_update; [exact H|exact E|exact Er|lia|exact Q'| |exact I|constructor| | |].
    + intros x I J. rewrite H'. destruct (in_dec Nat.eq_dec x (ids t)); [tauto|reflexivity].
    + intros x [].
    + intros x [].
    + intros x I _. rewrite H'. destruct (in_dec Nat.eq_dec x (ids t)) as [J|J]; [reflexivity|].
      destruct H as (H1 & H2 & H3 & H4 & H5). rewrite heap_setr_other.
      * apply H5. rewrite app_nil_r. tauto.
      * intros K. apply NoDup_app_iff in H3. destruct H3 as (H3 & _).
        pose proof (refw_block _ _ _ _ _ _ H3 E Er) as RB. destruct (snd p); [subst; destruct K|].
        destruct RB as (b & j & -> & I1 & I2). destruct K as [<-|[]]. tauto.
  - intros x I. rewrite H'. destruct (in_dec Nat.eq_dec x (ids t)); [reflexivity|tauto].
Qed.

Lemma setr_comm r o x y (s : st V) : same_ref o r = false ->
  same (setr o y (setr r x s)) (setr r x (setr o y s)).
Proof.
  intros D. split; [now rewrite !fresh_setr|]. destruct r as [i|b k], o as [j|c m]; cbn in D.
  - cbn. apply Nat.eqb_neq in D. split; [|reflexivity]. clear -D. revert i j D.
    induction (roots s) as [|z l IH]; intros [|i] [|j] D; cbn; try congruence. rewrite IH by lia. reflexivity.
  - cbn. destruct (heap s c) as [[g [[v l]|] h]|] eqn:Ec; cbn; auto.
  - cbn. destruct (heap s b) as [[g [[v l]|] h]|] eqn:Eb; cbn; auto.
  - rewrite !roots_setr_kid. split; [reflexivity|]. intros z. destruct (Nat.eq_dec b c) as [->|Nc].
    + rewrite Nat.eqb_refl in D. cbn [andb] in D. apply Nat.eqb_neq in D. cbn.
      destruct (heap s c) as [[g [[v l]|] h]|] eqn:Ec; cbn; rewrite ?Ec; cbn; rewrite ?Nat.eqb_refl; cbn; try rewrite ?Ec; auto.
      destruct (Nat.eqb_spec z c); [|reflexivity]. do 4 f_equal. clear -D. revert k m D.
      induction l as [|w l IH]; intros [|k] [|m] D; cbn; try congruence. rewrite IH by lia. reflexivity.
    + destruct (Nat.eq_dec z b) as [->|Nb].
      * rewrite (heap_setr_other (Kid c m)) by (cbn; intros [->|[]]; congruence).
        apply setr_ext_heap; cbn [ref_block]; [now left; left|]. intros w [<-|[]].
        apply heap_setr_other. cbn. intros [->|[]]; congruence.
      * rewrite (heap_setr_other (Kid b k)) by (cbn; intros [->|[]]; congruence).
        apply setr_ext_heap; cbn [ref_block].
        -- right. symmetry. apply heap_setr_other. cbn. intros [->|[]]; congruence.
        -- intros w [<-|[]]. symmetry. apply heap_setr_other. cbn. intros [->|[]]; congruence.
Qed.

Lemma nth_disjoint (ts : list at_) k j t u x :
  NoDup (flat_map ids ts) -> k <> j -> nth_error ts k = Some t -> nth_error ts j = Some u -> In x (ids t) -> ~ In x (ids u).
Proof.
  revert k j. induction ts as [|y ts IH]; intros k j ND D Ek Ej I; [destruct k; discriminate|].
  cbn in ND. apply NoDup_app_iff in ND. destruct ND as (N1 & N2 & Dis). destruct k as [|k], j as [|j]; cbn in *; try congruence.
  - injection Ek as ->. intros J. apply (Dis x I). apply in_flat_map. eexists. split; [eapply nth_error_In; exact Ej|exact J].
  - injection Ej as ->. intros J. apply (Dis x J). apply in_flat_map. eexists. split; [eapply nth_error_In; exact Ek|exact I].
  - apply (IH k j); auto.
Qed.
Lemma upd_comm {A} (l : list A) k j x y : k <> j -> upd (upd l k x) j y = upd (upd l j y) k x.
Proof.
  revert k j. induction l as [|z l IH]; intros [|k] [|j] D; cbn; try congruence. rewrite IH by lia. reflexivity.
Qed.
Lemma place_comm p : forall {A} (ts : list (tree A)) k j q x y, apart (k, p) (j, q) ->
  place (place ts k p x) j q y = place (place ts j q y) k p x.
Proof.
  induction p as [|k' p IH]; intros A ts k j q x y D;
    destruct (apart_inv _ _ _ _ D) as [Nk|(-> & k1 & p1 & j1 & q1 & E1 & -> & D1)]; try discriminate.
  - cbn. destruct q as [|j' q]; cbn; [now apply upd_comm|]. rewrite nth_upd_other by exact Nk.
    destruct (nth_error ts j) as [[|a ks]|]; auto. now apply upd_comm.
  - cbn. destruct q as [|j' q]; cbn.
    + rewrite nth_upd_other by congruence. destruct (nth_error ts k) as [[|a ks]|]; auto. now apply upd_comm.
    + destruct (nth_error ts k) as [[|a ks]|] eqn:Ek; destruct (nth_error ts j) as [[|a2 ks2]|] eqn:Ej; cbn;
        rewrite ?Ek, ?Ej, ?nth_upd_other, ?Ek, ?Ej by congruence; auto. now apply upd_comm.
  - injection E1 as <- <-. cbn. destruct (nth_error ts j) as [[|a ks]|] eqn:Ej; cbn; rewrite ?Ej; auto.
    erewrite !nth_upd_same by exact Ej. rewrite !upd_upd. now rewrite IH.
Qed.
Lemma refw_nth p ts k t r a ks k' : nth_error ts k = Some (N a ks) -> NoDup (flat_map ids ts) ->
  sub ks k' p = Some t -> refw ks (Kid (fst a)) k' p = Some r -> exists b j, r = Kid b j /\ In b (ids (N a ks)).
Proof.
  intros Ek ND H E. apply (refw_inside [] ts Root k (N a ks) r k' p).
  - cbn. now rewrite Ek.
  - cbn. now rewrite Ek.
Qed.
Lemma refw_inj p : forall ts mk k t r j q u o,
  (forall i i', mk i = mk i' -> i = i') -> (forall i x, In x (ref_block (mk i)) -> ~ In x (flat_map ids ts)) ->
  NoDup (flat_map ids ts) -> apart (k, p) (j, q) ->
  sub ts k p = Some t -> sub ts j q = Some u -> refw ts mk k p = Some r -> refw ts mk j q = Some o -> r <> o.
Proof.
  induction p as [|k' p IH]; intros ts mk k t r j q u o Inj Nmk ND D Ht Hu Er Eo;
    destruct (apart_inv _ _ _ _ D) as [Nk|(-> & k1 & p1 & j1 & q1 & E1 & -> & D1)]; try discriminate.
  - cbn in Er. injection Er as <-. pose proof (refw_block _ _ _ _ _ _ ND Hu Eo) as RB. destruct q.
    + subst. intros F. apply Nk. now apply Inj.
    + destruct RB as (b & i & -> & I1 & _). intros F. apply (Nmk k b); [rewrite F; now left|exact I1].
  - pose proof (refw_block _ _ _ _ _ _ ND Ht Er) as (b & i & -> & I1 & _). destruct q as [|j' q].
    + cbn in Eo. injection Eo as <-. intros F. apply (Nmk j b); [rewrite <- F; now left|exact I1].
    + cbn in Ht, Hu, Er, Eo.
      destruct (nth_error ts k) as [[|a ks]|] eqn:Ek; try discriminate.
      destruct (nth_error ts j) as [[|a2 ks2]|] eqn:Ej; try discriminate.
      destruct (refw_nth p ts k t _ a ks k' Ek ND Ht Er) as (b1 & i1 & F1 & J1). injection F1 as <- <-.
      destruct (refw_nth q ts j u _ a2 ks2 j' Ej ND Hu Eo) as (b2 & i2 & -> & J2).
      intros [= -> ->]. exact (nth_disjoint _ _ _ _ _ _ ND Nk Ek Ej J1 J2).
  - injection E1 as <- <-. cbn in *. destruct (nth_error ts j) as [[|[b v] ks]|] eqn:Ek; try discriminate. cbn [fst] in *.
    destruct (upd_perm ts j _ Ek) as (r1 & P1 & _). cbn [ids fst] in P1.
    assert (NoDup (b :: flat_map ids ks)) as ND1.
    { apply (Permutation_NoDup P1) in ND. apply NoDup_app_iff in ND. tauto. }
    apply NoDup_cons_iff in ND1. destruct ND1 as [Nb ND1].
    eapply (IH ks (Kid b)); eauto.
    + intros i i' [=]. assumption.
    + intros i x [<-|[]]. exact Nb.
Qed.

(** An any apart from another one is not inside of it. *)
Lemma apart_block s af l p q r u : holdsx s af l -> apart p q ->
  (exists t, at_path af p = Some t) -> at_path af q = Some u -> refw af Root (fst p) (snd p) = Some r ->
  forall x, In x (ref_block r) -> ~ In x (ids u).
Proof.
  intros (_ & _ & H3 & _) D (t & Et) Eu Er x I J. apply NoDup_app_iff in H3. destruct H3 as (H3 & _).
  destruct p as [k p], q as [j q]. unfold at_path in *. cbn [fst snd] in *.
  destruct (place_perm q af j u Eu) as (rest & P1 & P2). specialize (P2 E). cbn [ids app] in P2.
  assert (NoDup (ids u ++ rest)) as NDr by (eapply Permutation_NoDup; eauto).
  apply NoDup_app_iff in NDr. destruct NDr as (_ & NDr & Dis).
  assert (NoDup (flat_map ids (place af j q E))) as ND' by (eapply Permutation_NoDup; [apply Permutation_sym; exact P2|exact NDr]).
  pose proof (apart_sub q af j u E k p (apart_sym _ _ D) Eu) as S1. rewrite Et in S1.
  pose proof (apart_refw q af Root j u E k p (apart_sym _ _ D) Eu) as S2. rewrite Er in S2.
  pose proof (refw_block _ _ _ _ _ _ ND' S1 S2) as RB. destruct p; [subst; destruct I|].
  destruct RB as (b & i & -> & I1 & _). destruct I as [<-|[]].
  apply (Dis b J). exact (Permutation_in b P2 I1).
Qed.

Lemma holds_above s af l : holdsx s af l -> forall x, fresh s <= x -> heap s x = None.
Proof. intros (_ & _ & _ & H4 & H5) x L. apply H5. intros I. apply H4 in I. lia. Qed.

Lemma at_with {A} (ts : list (tree A)) p t t' : at_path ts p = Some t -> at_path (with_path ts p t') p = Some t'.
Proof. apply sub_place. Qed.
Lemma with_with {A} (ts : list (tree A)) p t t' t'' : at_path ts p = Some t ->
  with_path (with_path ts p t') p t'' = with_path ts p t''.
Proof. apply place_place. Qed.
Lemma at_apart {A} (ts : list (tree A)) p q t t' : apart p q -> at_path ts p = Some t ->
  at_path (with_path ts p t') q = at_path ts q.
Proof. destruct p, q. intros. eapply apart_sub; eauto. Qed.

(** copy_from, at two paths *)
Lemma copy_at n s af p q t u r o :
  holds s af -> at_path af p = Some t -> at_path af q = Some u -> apart p q -> tall af < n ->
  refw af Root (fst p) (snd p) = Some r -> refw af Root (fst q) (snd q) = Some o ->
  match dup (fresh s) (strip u) with
  | (c, None) => exists s' u', copy_from n r o s = Ok tt s' /\ fresh s' = c /\ strip u' = strip u /\ holds s' (with_path af p u')
  | (c, Some e) => exists s', copy_from n r o s = Throw e s' /\ fresh s' = c /\ holds s' (with_path af p E)
  end.
Proof.
  intros H Et Eu D Hn Er Eo. destruct n as [|n]; [lia|].
  destruct (reset_at (S n) s af p t r H Et Er Hn) as (s1 & E1 & F1 & H1 & _).
  set (af1 := with_path af p E) in *.
  assert (at_path af1 p = Some E) as Et1 by (eapply at_with; exact Et).
  assert (at_path af1 q = Some u) as Eu1 by (unfold af1; erewrite at_apart; eauto).
  assert (refw af1 Root (fst p) (snd p) = Some r) as Er1 by (rewrite <- Er; eapply refw_place; exact Et).
  assert (refw af1 Root (fst q) (snd q) = Some o) as Eo1.
  { rewrite <- Eo. destruct p, q. eapply apart_refw; eauto. }
  destruct (holds_find _ _ _ _ _ H1 Et1) as (r' & Er' & _ & Gr & _ & _ & _ & Lr). rewrite Er1 in Er'. injection Er' as <-.
  destruct (holds_find _ _ _ _ _ H1 Eu1) as (o' & Eo' & _ & Go & Ru & NDu & Lu & _). rewrite Eo1 in Eo'. injection Eo' as <-.
  assert (copy_from (S n) r o s = copy_from (S n) r o s1) as Ec.
  { rewrite !copy_from_S. unfold bind. rewrite E1. cbn [reset]. unfold slot_of at 1, bind. rewrite Gr. reflexivity. }
  rewrite Ec. rewrite <- F1.
  pose proof (copy_ok u (S n) r o s1) as CO.
  assert (height u < S n) as Hu by (pose proof (at_height _ _ _ Eu); lia).
  assert (forall x, In x (ref_block r) -> x < fresh s1 /\ ~ In x (ids u)) as Lr'.
  { intros x I. split; [now apply Lr|]. eapply apart_block; eauto. }
  specialize (CO Hu Gr Go Ru NDu Lu Lr' (holds_above _ _ _ H1)).
  destruct (dup (fresh s1) (strip u)) as [c [e|]].
  - destruct CO as (s' & E' & F' & L' & Q' & H'). exists s'. split; [exact E'|]. split; [exact F'|].
    destruct H1 as (A1 & A2 & A3 & A4 & A5). split; [congruence|].
    split; [eapply reps_frame; [exact A2|]; intros; apply H'|]. split; [exact A3|].
    split; [intros x I; apply A4 in I; lia|]. intros x I. rewrite H'. auto.
  - destruct CO as (s' & E' & u' & S' & F' & L' & I' & ND' & R' & Q' & H' & N').
    exists s', u'. split; [exact E'|]. split; [exact F'|]. split; [exact S'|].
    replace (with_path af p u') with (with_path af1 p u') by (eapply with_with; exact Et).
    eapply holds_update; [exact H1|exact Et1|exact Er1|lia|exact Q'| |exact R'| | | |].
    + intros x I _. apply H'. destruct H1 as (A1 & A2 & A3 & A4 & A5). apply A4, in_or_app. now left.
    + rewrite app_nil_r. exact ND'.
    + intros x I. rewrite app_nil_r in I. apply I' in I. lia.
    + intros x I J. rewrite app_nil_r in I. apply I' in I. destruct H1 as (A1 & A2 & A3 & A4 & A5).
      assert (x < fresh s1) by (apply A4, in_or_app; now left). lia.
    + intros x I J. rewrite app_nil_r in J. destruct (le_lt_dec (fresh s1) x) as [Lx|Lx]; [now apply N'|].
      rewrite H' by exact Lx. rewrite heap_setr_other.
      * destruct H1 as (A1 & A2 & A3 & A4 & A5). apply A5. rewrite app_nil_r. intros K. apply I. split; [exact K|intros []].
      * intros K. destruct H1 as (A1 & A2 & A3 & A4 & A5). apply NoDup_app_iff in A3. destruct A3 as (A3 & _).
        pose proof (refw_block _ _ _ _ _ _ A3 Et1 Er1) as RB. destruct (snd p); [subst; destruct K|].
        destruct RB as (b & i & -> & I1 & _). destruct K as [<-|[]]. apply I. split; [exact I1|intros []].
Qed.

(** Move assignment, at two paths *)
Lemma move_at n s af p q t u r o :
  holds s af -> at_path af p = Some t -> at_path af q = Some u -> apart p q -> tall af < n ->
  refw af Root (fst p) (snd p) = Some r -> refw af Root (fst q) (snd q) = Some o ->
  exists s', move_assign n r o s = Ok tt s' /\ fresh s' = fresh s /\ holds s' (with_path (with_path af p u) q E).
Proof.
  intros H Et Eu D Hn Er Eo.
  assert (same_ref o r = false) as Nro.
  { destruct (same_ref o r) eqn:Es; [|reflexivity]. apply same_ref_eq in Es. exfalso. destruct p as [k p], q as [j q].
    destruct H as (_ & _ & H3 & _). apply NoDup_app_iff in H3. destruct H3 as (H3 & _).
    eapply (refw_inj p af Root k t r j q u o); eauto. intros i i' [=]. assumption. }
  destruct (reset_at n s af p t r H Et Er Hn) as (s1 & E1 & F1 & H1 & _).
  set (af1 := with_path af p E) in *.
  assert (at_path af1 p = Some E) as Et1 by (eapply at_with; exact Et).
  assert (at_path af1 q = Some u) as Eu1 by (unfold af1; erewrite at_apart; eauto).
  assert (refw af1 Root (fst p) (snd p) = Some r) as Er1 by (rewrite <- Er; eapply refw_place; exact Et).
  assert (refw af1 Root (fst q) (snd q) = Some o) as Eo1.
  { rewrite <- Eo. destruct p, q. eapply apart_refw; eauto. }
  destruct (holds_find _ _ _ _ _ H1 Et1) as (r' & Er' & _ & Gr & _ & _ & _ & Lr). rewrite Er1 in Er'. injection Er' as <-.
  destruct (holds_find _ _ _ _ _ H1 Eu1) as (o' & Eo' & _ & Go & Ru & NDu & Lu & Lo). rewrite Eo1 in Eo'. injection Eo' as <-.
  unfold move_assign. rewrite Nro. unfold bind at 1. rewrite E1. unfold slot_of, bind at 1. rewrite Go.
  unfold put_slot at 1, bind at 1. rewrite Gr. unfold put_slot. rewrite getr_setr_other by exact Nro. rewrite Go.
  eexists. split; [reflexivity|]. split; [rewrite !fresh_setr; exact F1|].
  apply (holdsx_same (setr r (oid u) (setr o None s1))); [|apply setr_comm; destruct r, o; cbn in *; rewrite ?(Nat.eqb_sym i), ?(Nat.eqb_sym b), ?(Nat.eqb_sym k); auto].
  set (s2 := setr o None s1).
  pose proof H1 as (A1 & A2 & A3 & A4 & A5). pose proof A3 as A3'. apply NoDup_app_iff in A3'. destruct A3' as (A3' & _).
  assert (forall x, In x (ids u) -> In x (flat_map ids af1)) as Su.
  { destruct (place_perm (snd q) af1 (fst q) u Eu1) as (rest & P1 & _). intros x I.
    apply (Permutation_in x (Permutation_sym P1)), in_or_app. now left. }
  assert (forall x, In x (ref_block o) -> In x (flat_map ids af1) /\ ~ In x (ids u)) as Bo.
  { intros x K. pose proof (refw_block _ _ _ _ _ _ A3' Eu1 Eo1) as RB. destruct (snd q); [subst; destruct K|].
    destruct RB as (b & i & -> & I1 & I2). destruct K as [<-|[]]. auto. }
  assert (holdsx s2 (with_path af1 q E) (ids u)) as H2.
  { eapply holds_update; [exact H1|exact Eu1|exact Eo1| | | |exact I| | | |].
    - unfold s2. rewrite fresh_setr. lia.
    - reflexivity.
    - intros x _ _. reflexivity.
    - cbn. exact NDu.
    - intros x I. unfold s2. rewrite fresh_setr. apply Lu. exact I.
    - intros x I _. exact I.
    - intros x I J. cbn in J. unfold s2. rewrite heap_setr_other.
      + apply A5. rewrite app_nil_r. tauto.
      + intros K. apply Bo in K. tauto. }
  assert (with_path (with_path af p u) q E = with_path (with_path af1 q E) p u) as Ew.
  { replace (with_path af p u) with (with_path af1 p u) by (eapply with_with; exact Et).
    destruct p, q. apply place_comm. exact D. }
  rewrite Ew.
  assert (at_path (with_path af1 q E) p = Some E) as Et2 by (erewrite at_apart; [exact Et1|now apply apart_sym|exact Eu1]).
  assert (refw (with_path af1 q E) Root (fst p) (snd p) = Some r) as Er2.
  { rewrite <- Er1. destruct p, q. eapply apart_refw; [apply apart_sym; exact D|exact Eu1]. }
  pose proof H2 as (B1 & B2 & B3 & B4 & B5). pose proof B3 as B3'. apply NoDup_app_iff in B3'. destruct B3' as (B3' & _ & Bd).
  assert (forall x, In x (ref_block r) -> In x (flat_map ids (with_path af1 q E))) as Br.
  { intros x K. pose proof (refw_block _ _ _ _ _ _ B3' Et2 Er2) as RB. destruct (snd p); [subst; destruct K|].
    destruct RB as (b & i & -> & I1 & I2). destruct K as [<-|[]]. auto. }
  eapply holds_update; [exact H2|exact Et2|exact Er2| | | | | | | |].
  - rewrite fresh_setr. lia.
  - reflexivity.
  - intros x _ _. reflexivity.
  - eapply rep_frame; [exact Ru|]. intros x I.
    rewrite heap_setr_other by (intros K; apply Br in K; exact (Bd x K I)).
    unfold s2. apply heap_setr_other. intros K. apply Bo in K. tauto.
  - rewrite app_nil_r. exact NDu.
  - intros x I. rewrite app_nil_r in I. rewrite fresh_setr. apply B4, in_or_app. now right.
  - intros x I J. rewrite app_nil_r in I. exfalso. exact (Bd x J I).
  - intros x I J. rewrite app_nil_r in J. rewrite heap_setr_other.
    + apply B5. intros K. apply in_app_or in K. destruct K as [K|K]; [|tauto]. apply I. split; [exact K|intros []].
    + intros K. apply I. split; [now apply Br|intros []].
Qed.

(** emplace, at a path *)
Lemma emplace_at n s af p t r v k :
  holds s af -> at_path af p = Some t -> refw af Root (fst p) (snd p) = Some r -> tall af < n ->
  if avail (fresh s)
  then exists s' b, emplace lay avail n r v k s = Ok tt s' /\ fresh s' = S (fresh s) /\
         holds s' (with_path af p (N (b, v) (repeat E k)))
  else exists s', emplace lay avail n r v k s = Throw BadAlloc s' /\ fresh s' = S (fresh s) /\ holds s' (with_path af p E).
Proof.
  intros H Et Er Hn. destruct (reset_at n s af p t r H Et Er Hn) as (s1 & E1 & F1 & H1 & _).
  set (af1 := with_path af p E) in *.
  assert (at_path af1 p = Some E) as Et1 by (eapply at_with; exact Et).
  assert (refw af1 Root (fst p) (snd p) = Some r) as Er1 by (rewrite <- Er; eapply refw_place; exact Et).
  destruct (holds_find _ _ _ _ _ H1 Et1) as (r' & Er' & _ & Gr & _ & _ & _ & Lr). rewrite Er1 in Er'. injection Er' as <-.
  unfold emplace, bind at 1. rewrite E1. rewrite <- F1. set (b := fresh s1) in *.
  pose proof H1 as (A1 & A2 & A3 & A4 & A5).
  destruct (avail b) eqn:Ea.
  - exists (set_heap b (Some (mkB (lay v) (Some (v, repeat None k)) (Some (lay v))))
             (setr r (Some b) (mkSt (heap (set_heap b (Some (mkB (lay v) None None)) s1)) (S b) (roots s1)))), b.
    set (s2 := mkSt (heap (set_heap b (Some (mkB (lay v) None None)) s1)) (S b) (roots s1)).
    assert (forall x, x <> b -> heap s2 x = heap s1 x) as O2.
    { intros x Nx. cbn. destruct (Nat.eqb_spec x b); [congruence|reflexivity]. }
    assert (~ In b (ref_block r)) as Nb by (intros I; apply Lr in I; lia).
    assert (getr r s2 = Some None) as Gr2.
    { transitivity (getr r s1); [|exact Gr]. apply getr_ext; [reflexivity|]. intros x I. apply O2. intros ->. tauto. }
    assert (heap (setr r (Some b) s2) b = Some (mkB (lay v) None None)) as Hb.
    { rewrite heap_setr_other by exact Nb. cbn. now rewrite Nat.eqb_refl. }
    split.
    { unfold bind, allocate. fold b. rewrite Ea. fold s2. unfold put_slot. rewrite Gr2. unfold put_blk. rewrite Hb. reflexivity. }
    split; [cbn [fresh set_heap]; now rewrite fresh_setr|].
    set (s3 := set_heap _ _ _).
    assert (forall x, x <> b -> heap s3 x = heap (setr r (Some b) s1) x) as O3.
    { intros x Nx. unfold s3. cbn [heap set_heap]. destruct (Nat.eqb_spec x b); [congruence|].
      apply setr_ext_heap; [right; now apply O2|]. intros y I. apply O2. intros ->. tauto. }
    replace (with_path af p (N (b, v) (repeat E k))) with (with_path af1 p (N (b, v) (repeat E k))) by (eapply with_with; exact Et).
    assert (flat_map ids (repeat E k) = []) as Ef by (clear; induction k; cbn; auto).
    eapply holds_update; [exact H1|exact Et1|exact Er1| | | | | | | |].
    + cbn [fresh s3 set_heap]. rewrite fresh_setr. cbn. lia.
    + cbn [roots s3 set_heap]. apply setr_ext_roots. reflexivity.
    + intros x I _. cbn [oid fst]. apply O3. intros ->. assert (b < b) by (apply A4, in_or_app; now left). lia.
    + apply rep_N. cbn [fst snd]. split.
      * exists (lay v). unfold s3. cbn. rewrite Nat.eqb_refl.
        replace (map oid (repeat E k)) with (repeat (None : slot) k); [reflexivity|].
        clear. induction k; cbn; [reflexivity|]. now rewrite <- IHk.
      * apply Forall_forall. intros x I. apply repeat_spec in I. subst. exact Logic.I.
    + cbn [ids fst]. rewrite Ef. cbn. constructor; [intros []|constructor].
    + cbn [ids fst]. rewrite Ef. cbn. intros x [<-|[]]. rewrite fresh_setr. cbn. lia.
    + cbn [ids fst]. rewrite Ef. cbn. intros x [<-|[]] I. assert (b < b) by (apply A4, in_or_app; now left). lia.
    + cbn [ids fst]. rewrite Ef. cbn [app]. intros x I J. assert (x <> b) as Nx by (intros ->; apply J; now left).
      rewrite O3 by exact Nx. rewrite heap_setr_other.
      * apply A5. rewrite app_nil_r. intros K. apply I. split; [exact K|intros []].
      * intros K. apply NoDup_app_iff in A3. destruct A3 as (A3 & _).
        pose proof (refw_block _ _ _ _ _ _ A3 Et1 Er1) as RB. destruct (snd p); [subst; destruct K|].
        destruct RB as (c & i & -> & I1 & _). destruct K as [<-|[]]. apply I. split; [exact I1|intros []].
  - exists (mkSt (heap s1) (S b) (roots s1)). split; [unfold bind, allocate; rewrite E1; fold b; now rewrite Ea|]. split; [reflexivity|].
    split; [exact A1|]. split; [exact A2|]. split; [exact A3|]. split; [|exact A5].
    intros x I. apply A4 in I. cbn. lia.
Qed.

Notation step := (step copyable avail).
Notation steps := (steps copyable avail).
Notation call := (call copyable lay avail).
Notation run := (run copyable lay avail).

Definition called (n : nat) (o : op V) (s : st V) (a : ans V) (s' : st V) : Prop :=
  match a with
  | Raised e => call n o s = Throw e s'
  | _ => call n o s = Ok a s'
  end.
Lemma step_ok s af o c' ts' a n :
  holds s af -> step (fresh s) (map strip af) o c' ts' a -> tall af < n ->
  exists s' af', called n o s a s' /\ holds s' af' /\ map strip af' = ts' /\ fresh s' = c'.
Proof.
  intros H S Hn. inversion S as [p v k t0 E0 Ea|p v k t0 E0 Ea|p q t0 u0 c E0 E1 D Ed|p q t0 u0 c e E0 E1 D Ed|p q t0 u0 E0 E1 D|p t0 E0|p t0 E0|p t0 E0]; subst; clear S.
  all: destruct (at_strip _ _ _ E0) as (t & Et & <-); destruct (holds_find _ _ _ _ _ H Et) as (r & Er & Fr & Gr & Rt & _).
  all: unfold called; cbn [AnyNestModel.call]; unfold bind at 1; rewrite Fr.
  - pose proof (emplace_at n s af p t r v k H Et Er Hn) as X. rewrite Ea in X. destruct X as (s' & b & X1 & X2 & X3).
    eexists _, _. unfold bind. rewrite X1. split; [reflexivity|]. split; [exact X3|]. split; [|exact X2].
    rewrite with_strip. cbn. do 2 f_equal. clear. induction k; cbn; [reflexivity|]. now rewrite IHk.
  - pose proof (emplace_at n s af p t r v k H Et Er Hn) as X. rewrite Ea in X. destruct X as (s' & X1 & X2 & X3).
    eexists _, _. unfold bind. rewrite X1. split; [reflexivity|]. split; [exact X3|]. split; [|exact X2].
    apply with_strip.
  - destruct (at_strip _ _ _ E1) as (u & Eu & <-). destruct (holds_find _ _ _ _ _ H Eu) as (o & Eo & Fo & _).
    unfold bind at 1. rewrite Fo.
    pose proof (copy_at n s af p q t u r o H Et Eu D Hn Er Eo) as X. rewrite Ed in X. destruct X as (s' & u' & X1 & X2 & X3 & X4).
    eexists _, _. unfold bind. rewrite X1. split; [reflexivity|]. split; [exact X4|]. split; [|exact X2].
    rewrite with_strip. now rewrite X3.
  - destruct (at_strip _ _ _ E1) as (u & Eu & <-). destruct (holds_find _ _ _ _ _ H Eu) as (o & Eo & Fo & _).
    unfold bind at 1. rewrite Fo.
    pose proof (copy_at n s af p q t u r o H Et Eu D Hn Er Eo) as X. rewrite Ed in X. destruct X as (s' & X1 & X2 & X3).
    eexists _, _. unfold bind. rewrite X1. split; [reflexivity|]. split; [exact X3|]. split; [|exact X2].
    apply with_strip.
  - destruct (at_strip _ _ _ E1) as (u & Eu & <-). destruct (holds_find _ _ _ _ _ H Eu) as (o & Eo & Fo & _).
    unfold bind at 1. rewrite Fo.
    destruct (move_at n s af p q t u r o H Et Eu D Hn Er Eo) as (s' & X1 & X2 & X3).
    eexists _, _. unfold bind. rewrite X1. split; [reflexivity|]. split; [exact X3|]. split; [|exact X2].
    now rewrite !with_strip.
  - unfold bind at 1. rewrite Fr. unfold move_assign. rewrite same_ref_refl.
    exists s, af. split; [reflexivity|]. auto.
  - destruct (reset_at n s af p t r H Et Er Hn) as (s' & X1 & X2 & X3 & _).
    eexists _, _. unfold bind. rewrite X1. split; [reflexivity|]. split; [exact X3|]. split; [|exact X2].
    apply with_strip.
  - exists s, af. split; [|auto]. unfold peek, slot_of, bind. rewrite Gr. destruct t as [|[b v] ks]; cbn [oid]; [reflexivity|].
    apply rep_N in Rt. destruct Rt as ((ly & Hb) & _). unfold blk. cbn [fst] in *. rewrite Hb. reflexivity.
Qed.

Lemma steps_ok c ts os c' ts' l : steps c ts os c' ts' l ->
  exists n0, forall n s af, n0 <= n -> holds s af -> map strip af = ts -> fresh s = c ->
  exists s' af', run n os s = Ok l s' /\ holds s' af' /\ map strip af' = ts' /\ fresh s' = c'.
Proof.
  induction 1 as [c ts|c ts o os c1 ts1 a c2 ts2 l St SS IH].
  - exists 0. intros n s af _ H E F. exists s, af. auto.
  - destruct IH as (n0 & IH). exists (max n0 (S (list_max (map height ts)))). intros n s af Hn H E F. subst.
    destruct (step_ok s af o c1 ts1 a n H St) as (s1 & af1 & C1 & H1 & E1 & F1).
    { unfold tall. lia. }
    destruct (IH n s1 af1) as (s2 & af2 & R2 & H2 & E2 & F2); auto; [lia|].
    exists s2, af2. split; [|auto]. cbn [AnyNestModel.run]. unfold called in C1. destruct a; rewrite C1; unfold bind; now rewrite R2.
Qed.

Lemma holds_start m : holds (start m) (repeat E m).
Proof.
  assert (flat_map ids (repeat E m) = []) as Ef by (induction m; cbn; auto).
  split; [cbn; clear; induction m; cbn; [reflexivity|]; now rewrite IHm|].
  split; [apply Forall_forall; intros x I; apply repeat_spec in I; now subst|].
  rewrite Ef. split; [constructor|]. split; [intros x []|]. reflexivity.
Qed.
Lemma strip_start m : map strip (repeat E m) = repeat E m.
Proof. induction m; cbn; [reflexivity|]. now rewrite IHm. Qed.

Lemma leave_ok n c : forall s af, holds s af -> tall af < n -> c <= length af ->
  (forall j t, c <= j -> nth_error af j = Some t -> t = E) ->
  exists s', leave n c s = Ok tt s' /\ forall x, heap s' x = None.
Proof.
  induction c as [|c IH]; intros s af H Hn Hc He.
  - exists s. split; [reflexivity|]. destruct H as (_ & _ & _ & _ & H5). intros x. apply H5. rewrite app_nil_r.
    intros I. apply in_flat_map in I. destruct I as (t & It & Ix). apply In_nth_error in It. destruct It as (j & Ej).
    rewrite (He j t) in Ix; [exact Ix|lia|exact Ej].
  - destruct (nth_error af c) as [t|] eqn:Ec; [|apply nth_error_None in Ec; lia].
    assert (at_path af (c, []) = Some t) as Et by (unfold at_path; cbn; now rewrite Ec).
    destruct (reset_at n s af (c, []) t (Root c) H Et eq_refl Hn) as (s1 & E1 & _ & H1 & _).
    cbn [leave]. unfold bind. rewrite E1. apply (IH s1 (with_path af (c, []) E) H1).
    + eapply Nat.le_lt_trans; [|exact Hn]. unfold tall, with_path. cbn [fst snd place]. rewrite !map_upd. cbn.
      apply list_max_le. apply Forall_forall. intros x I. apply In_nth_error in I. destruct I as (j & Ej). rewrite nth_upd in Ej.
      destruct ((c =? j) && _); [injection Ej as <-; lia|]. apply list_max_in. eapply nth_error_In. exact Ej.
    + unfold with_path. cbn. rewrite upd_length. lia.
    + unfold with_path. cbn. intros j u Lj Ej. destruct (Nat.eq_dec c j) as [<-|D].
      * erewrite nth_upd_same in Ej by exact Ec. congruence.
      * rewrite nth_upd_other in Ej by exact D. apply (He j); [lia|exact Ej].
Qed.

Lemma run_app n os os' s l s' : run n os s = Ok l s' ->
  run n (os ++ os') s = match run n os' s' with Ok l' s'' => Ok (l ++ l') s'' | Throw e s'' => Throw e s'' | UB => UB | Diverge => Diverge end.
Proof.
  revert s l. induction os as [|o os IH]; intros s l H; cbn in *.
  - injection H as <- <-. now destruct (run n os' s).
  - destruct (call n o s) as [a s1|e s1| |] eqn:Ec; try discriminate; unfold bind in *;
      destruct (run n os s1) as [l1 s2|e2 s2| |] eqn:Er; try discriminate; injection H as <- <-;
      rewrite (IH _ _ Er); destruct (run n os' s2); reflexivity.
Qed.

(** Assignments from inside the any assigned to *)
Lemma inside_UB n s af p t r k q o u :
  holds s af -> at_path af p = Some t -> refw af Root (fst p) (snd p) = Some r -> tall af < n ->
  at_path af (fst p, snd p ++ k :: q) = Some u -> refw af Root (fst p) (snd p ++ k :: q) = Some o ->
  copy_from n r o s = UB /\ move_assign n r o s = UB.
Proof.
  intros H Et Er Hn Eu Eo. destruct (reset_at n s af p t r H Et Er Hn) as (s1 & E1 & _ & _ & N1).
  destruct (refw_inside _ _ _ _ _ _ _ _ Et Eo) as (b & j & -> & I).
  assert (slot_of (Kid b j) s1 = UB) as U.
  { unfold slot_of. cbn. now rewrite (N1 b I). }
  destruct n as [|n]; [lia|]. split.
  - rewrite copy_from_S. unfold bind. rewrite E1. unfold copy_rest, bind. now rewrite U.
  - unfold move_assign. destruct (same_ref (Kid b j) r) eqn:Es.
    + exfalso. apply same_ref_eq in Es. subst. destruct (holds_find _ _ _ _ _ H Et) as (r' & Er' & _ & _ & _ & _ & _ & Lr).
      rewrite Er in Er'. injection Er' as <-. destruct (Lr b (or_introl eq_refl)) as [_ Nb]. tauto.
    + unfold bind at 1. rewrite E1. unfold bind. now rewrite U.
Qed.
End Proofs.
