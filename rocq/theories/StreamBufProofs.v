(** Proofs about mem_ostreambuf over the vectors of this library. *)
From Coq Require Import List Arith NArith ZArith Bool Lia.
From Verif Require Import Base SeqSpec VecCommon StreamModel StreamSpec StreamBufModel StreamBufSpec.
From Verif Require StreamProofs.
Import ListNotations.
Open Scope nat_scope.

Lemma place_eqb_refl b : place_eqb b b = true.
Proof. unfold place_eqb. now rewrite !Nat.eqb_refl. Qed.

Lemma bind_bind {S A B D} (m : M S A) (k : A -> M S B) (h : B -> M S D) s :
  bind (bind m k) h s = bind m (fun a => bind (k a) h) s.
Proof. unfold bind. now destruct (m s). Qed.

Section Gen.
Context {C F : Type}.
Variable K : store C F.
Variable elem : C -> Prop.
Variable room : nat -> Prop.
Variable full : nat -> option exn.
Variable null0 : bool.
Variable rep : F -> list C -> Prop.
Variable released : F -> Prop.

Record store_ok : Prop := mkStoreOk {
  ok_size : forall f xs, rep f xs -> k_size K f = Ok (length xs) f;
  ok_cap : forall f xs, rep f xs -> exists c, k_cap K f = Ok c f /\ length xs <= c;
  ok_base : forall f xs, rep f xs -> k_base K f = None -> xs = [];
  ok_nonnull : forall f xs, rep f xs -> null0 = false -> k_base K f <> None;
  ok_get : forall f xs i x, rep f xs -> nth_error xs i = Some x -> k_get K i f = Ok x f;
  ok_put : forall f xs i x, rep f xs -> i < length xs -> elem x ->
    exists f', k_put K i x f = Ok tt f' /\ rep f' (upd xs i x) /\ k_base K f' = k_base K f;
  ok_room : forall n, room n -> (N.of_nat n < two64)%N;
  ok_resize : forall f xs n, rep f xs -> length xs <= n -> room n -> full n = None ->
    exists f' t, k_resize K (N.of_nat n) f = Ok tt f' /\ rep f' (xs ++ t) /\ length (xs ++ t) = n;
  ok_fill : forall f xs c, rep f xs -> k_cap K f = Ok c f ->
    exists f' t, k_resize K (N.of_nat c) f = Ok tt f' /\ rep f' (xs ++ t) /\ length (xs ++ t) = c;
  ok_full : forall f xs n e, rep f xs -> full n = Some e ->
    length xs < n /\ (N.of_nat (length xs) < two63)%N /\ k_resize K (N.of_nat n) f = Throw e f;
  ok_clear : forall f xs, rep f xs -> exists f', k_clear K f = Ok tt f' /\ rep f' [];
  ok_take : forall take f xs n, k_take K = Some take -> rep f xs -> n <= length xs ->
    exists f', take (N.of_nat n) f = Ok (firstn n xs) f' /\ rep f' [] /\
      (if null0 then k_base K f' = None else k_base K f' <> None);
  ok_destroy : forall f xs, rep f xs -> exists f', k_destroy K f = Ok tt f' /\ released f'
}.
Hypothesis O : store_ok.

Notation step := (kstep full null0).
Definition has_swap : bool := match k_take K with Some _ => true | None => false end.
Notation kok := (kok elem room full null0 has_swap).
Notation along := (kalong elem room full null0 has_swap).
Notation mb := (mb F).

(** The buffer holds the file: the container holds the data and then something more, and the
    put area reaches from the position to the end of it. *)
Definition kptrs (b : option place) (pos len : nat) (p e : kptr) : Prop :=
  match b with
  | None => p = KNull /\ e = KNull
  | Some b => p = KAt b pos /\ e = KAt b len
  end.
Definition kholds (s : mb) (f : file C) : Prop :=
  match f with
  | Held l pos =>
      exists t, rep (held s) (l ++ t) /\ pos <= length l /\
        kptrs (k_base K (held s)) pos (length (l ++ t)) (kpptr s) (kepptr s)
  | Taken => rep (held s) [] /\ k_base K (held s) <> None /\ kpptr s = KNull /\ kepptr s = KNull
  end.

Lemma in_held_ok {R} (m : M F R) f p e (r : R) f' : m f = Ok r f' -> in_held m (mkMb f p e) = Ok r (mkMb f' p e).
Proof. intros H. unfold in_held. cbn [held]. now rewrite H. Qed.

Lemma kpoff_ok f p e l t pos : rep f (l ++ t) -> pos <= length l -> kptrs (k_base K f) pos (length (l ++ t)) p e ->
  kpoff K (mkMb f p e) = Ok pos (mkMb f p e).
Proof.
  intros H Hp P. unfold kpoff, kdiff. cbn [held kpptr]. unfold kptrs in P.
  destruct (k_base K f) as [b|] eqn:E.
  - destruct P as (-> & _). now rewrite place_eqb_refl.
  - destruct P as (-> & _). pose proof (ok_base O _ _ H E) as X.
    destruct l; [cbn in Hp; f_equal; lia|discriminate].
Qed.

(** setp(data() + pos, data() + size()) *)
Lemma ksetp_ok f p e xs pos : rep f xs -> pos <= length xs ->
  exists p' e', ksetp K (Z.of_nat pos) (length xs) (mkMb f p e) = Ok tt (mkMb f p' e') /\
    kptrs (k_base K f) pos (length xs) p' e'.
Proof.
  intros H Hp. unfold ksetp. erewrite bind_ok by (apply in_held_ok; eapply (ok_size O); eauto).
  cbn [held]. unfold kaddr, kptrs. destruct (k_base K f) as [b|] eqn:E.
  - replace (0 <=? Z.of_nat pos)%Z with true by (symmetry; apply Z.leb_le; lia).
    replace (Z.of_nat pos <=? Z.of_nat (length xs))%Z with true by (symmetry; apply Z.leb_le; lia).
    replace (0 <=? Z.of_nat (length xs))%Z with true by (symmetry; apply Z.leb_le; lia).
    rewrite Z.leb_refl. cbn [andb]. rewrite !Nat2Z.id. eauto.
  - pose proof (ok_base O _ _ H E) as X. subst xs. cbn in *. replace pos with 0 by lia. cbn. eauto.
Qed.

(** cap_resize_by, when [n] elements are asked for in all *)
Lemma kcap_ok f p e l t pos by_ n : kholds (mkMb f p e) (Held l pos) -> rep f (l ++ t) ->
  n = length (l ++ t) + N.to_nat by_ -> room n -> full n = None ->
  exists f' t' p' e', kcap_resize_by K by_ (mkMb f p e) = Ok tt (mkMb f' p' e') /\
    rep f' (l ++ t') /\ n <= length (l ++ t') /\ kptrs (k_base K f') pos (length (l ++ t')) p' e'.
Proof.
  intros (t0 & H0 & Hp & P) H En Hr Hf. cbn [held kpptr kepptr] in *.
  unfold kcap_resize_by. erewrite bind_ok by exact (kpoff_ok _ _ _ _ _ _ H0 Hp P).
  erewrite bind_ok by (apply in_held_ok; eapply (ok_size O); eauto).
  pose proof (ok_room O n Hr) as R.
  replace ((N.of_nat (length (l ++ t)) + by_) mod two64)%N with (N.of_nat n)
    by (rewrite N.mod_small; lia).
  destruct (ok_resize O f (l ++ t) n H ltac:(lia) Hr Hf) as (f1 & t1 & E1 & H1 & L1).
  erewrite bind_ok by (apply in_held_ok; exact E1).
  destruct (ok_cap O _ _ H1) as (c & Ec & Lc).
  erewrite bind_ok by (apply in_held_ok; exact Ec).
  destruct (ok_fill O _ _ _ H1 Ec) as (f2 & t2 & E2 & H2 & L2).
  erewrite bind_ok by (apply in_held_ok; exact E2).
  rewrite <- L2. assert (pos <= length (((l ++ t) ++ t1) ++ t2)) as Lp by (rewrite !app_length in *; lia).
  destruct (ksetp_ok f2 p e _ pos H2 Lp) as (p' & e' & E3 & P3).
  rewrite <- !app_assoc in E3, P3, H2, L2 |- *.
  exists f2, (t ++ t1 ++ t2), p', e'. split; [exact E3|]. split; [exact H2|]. split; [|exact P3].
  rewrite <- !app_assoc in L1. rewrite !app_length in *. lia.
Qed.

Lemma kcap_throw f p e l t pos by_ n x : kholds (mkMb f p e) (Held l pos) -> rep f (l ++ t) ->
  n = length (l ++ t) + N.to_nat by_ -> (N.of_nat n < two64)%N -> full n = Some x ->
  kcap_resize_by K by_ (mkMb f p e) = Throw x (mkMb f p e).
Proof.
  intros (t0 & H0 & Hp & P) H En Hn Hf. cbn [held kpptr kepptr] in *.
  unfold kcap_resize_by. erewrite bind_ok by exact (kpoff_ok _ _ _ _ _ _ H0 Hp P).
  erewrite bind_ok by (apply in_held_ok; eapply (ok_size O); eauto).
  replace ((N.of_nat (length (l ++ t)) + by_) mod two64)%N with (N.of_nat n)
    by (rewrite N.mod_small; lia).
  destruct (ok_full O _ _ _ _ H Hf) as (_ & _ & E).
  apply bind_throw. unfold in_held. cbn [held]. now rewrite E.
Qed.

(** What is written one element after the other *)
Lemma kcopy_ok str : forall f e b n i xs, rep f xs -> k_base K f = Some b -> n + i + length str <= length xs ->
  Forall elem str ->
  exists f', kcopy K i str (mkMb f (KAt b n) e) = Ok tt (mkMb f' (KAt b n) e) /\ k_base K f' = Some b /\
    rep f' (overwrite xs (n + i) str).
Proof.
  induction str as [|c str IH]; intros f e b n i xs H B L E; cbn [kcopy length] in *.
  - exists f. split; [reflexivity|]. split; [exact B|].
    unfold overwrite. cbn [length app]. now rewrite Nat.add_0_r, firstn_skipn.
  - inversion E as [|? ? Ec Es]; subst.
    destruct (ok_put O f xs (n + i) c H ltac:(lia) Ec) as (f1 & E1 & H1 & B1).
    erewrite bind_ok.
    2:{ unfold kpoke. cbn [kpptr held]. rewrite B, place_eqb_refl. apply in_held_ok. exact E1. }
    destruct (IH f1 e b n (S i) (upd xs (n + i) c) H1 ltac:(congruence)) as (f2 & E2 & B2 & H2); auto.
    { rewrite upd_length. lia. }
    exists f2. split; [exact E2|]. split; [exact B2|].
    replace (overwrite xs (n + i) (c :: str)) with (overwrite (upd xs (n + i) c) (n + S i) str); [exact H2|].
    assert (n + i < length xs) as Hlt by lia. clear -Hlt. revert Hlt. replace (n + S i) with (S (n + i)) by lia.
    generalize (n + i) as k. intros k Hk. unfold overwrite. cbn [length].
    replace (S k + length str) with (k + S (length str)) by lia.
    revert xs Hk. induction k as [|k IHk]; intros [|x xs] Hk; cbn in *; try lia; auto.
    f_equal. apply IHk. lia.
Qed.

Lemma kptrs_pos b pos len p e : kptrs (Some b) pos len p e -> p = KAt b pos /\ e = KAt b len.
Proof. auto. Qed.

Lemma kpbump_ok f e b pos n xs : rep f xs -> pos + n <= length xs ->
  kpbump K (Z.of_nat n) (mkMb f (KAt b pos) e) = Ok tt (mkMb f (KAt b (pos + n)) e).
Proof.
  intros H L. unfold kpbump. erewrite bind_ok by (apply in_held_ok; eapply (ok_size O); eauto).
  cbn [kpptr]. replace (Z.of_nat pos + Z.of_nat n)%Z with (Z.of_nat (pos + n)) by lia.
  replace (0 <=? Z.of_nat (pos + n))%Z with true by (symmetry; apply Z.leb_le; lia).
  replace (Z.of_nat (pos + n) <=? Z.of_nat (length xs))%Z with true by (symmetry; apply Z.leb_le; lia).
  cbn [andb held kepptr]. now rewrite Nat2Z.id.
Qed.

Lemma kremaining_ok f p e pos len : kptrs (k_base K f) pos len p e -> (k_base K f = None -> pos = 0 /\ len = 0) ->
  kremaining (mkMb f p e) = Some (Z.of_nat len - Z.of_nat pos)%Z.
Proof.
  unfold kptrs, kremaining. cbn [kpptr kepptr]. intros P N0. destruct (k_base K f) as [b|]; destruct P as (-> & ->).
  - now rewrite place_eqb_refl.
  - destruct (N0 eq_refl) as (-> & ->). reflexivity.
Qed.

Lemma null_zero f l t pos : rep f (l ++ t) -> pos <= length l -> k_base K f = None -> pos = 0 /\ length (l ++ t) = 0.
Proof. intros H Hp B. pose proof (ok_base O _ _ H B) as E. rewrite E. apply app_eq_nil in E. destruct E as (-> & _). cbn in *. split; lia. Qed.

Lemma overwrite_app (l t : list C) pos str : pos <= length l ->
  pos + length str <= length (l ++ t) ->
  exists t', overwrite (l ++ t) pos str = overwrite l pos str ++ t'.
Proof.
  intros Hp Hl. unfold overwrite. rewrite firstn_app, skipn_app.
  replace (pos - length l) with 0 by lia. cbn [firstn]. rewrite app_nil_r.
  eexists. rewrite <- !app_assoc. reflexivity.
Qed.

(** The block is written where there is memory for it. *)
Lemma kblock_ok f b l t pos str : rep f (l ++ t) -> pos <= length l -> k_base K f = Some b ->
  pos + length str <= length (l ++ t) -> Forall elem str ->
  exists f', kcopy K 0 str (mkMb f (KAt b pos) (KAt b (length (l ++ t)))) =
      Ok tt (mkMb f' (KAt b pos) (KAt b (length (l ++ t)))) /\
    exists xs, rep f' xs /\ length xs = length (l ++ t) /\
    kholds (mkMb f' (KAt b (pos + length str)) (KAt b (length (l ++ t)))) (Held (overwrite l pos str) (pos + length str)).
Proof.
  intros H Hp B L E. destruct (kcopy_ok str f (KAt b (length (l ++ t))) b pos 0 (l ++ t) H B ltac:(lia) E) as (f' & E' & B' & H').
  rewrite Nat.add_0_r in H'. destruct (overwrite_app l t pos str Hp L) as (t' & Et).
  assert (length (overwrite (l ++ t) pos str) = length (l ++ t)) as Lo.
  { unfold overwrite. rewrite !app_length, firstn_length, skipn_length. rewrite !app_length in *. lia. }
  exists f'. split; [exact E'|]. eexists. split; [exact H'|]. split; [exact Lo|].
  rewrite Et in H', Lo. exists t'. cbn [held kpptr kepptr]. rewrite B'. split; [exact H'|]. split; [|now rewrite Lo].
  unfold overwrite. rewrite !app_length, firstn_length. lia.
Qed.

Lemma memory f xs : rep f xs -> 0 < length xs -> exists b, k_base K f = Some b.
Proof. intros H L. destruct (k_base K f) as [b|] eqn:E; [eauto|]. pose proof (ok_base O _ _ H E). subst. cbn in L. lia. Qed.


(** The part of xsputn and of sputc behind the check for room *)
Lemma write_there f b l t pos str : rep f (l ++ t) -> pos <= length l -> k_base K f = Some b ->
  pos + length str <= length (l ++ t) -> Forall elem str -> (Z.of_nat (length str) < int_max1)%Z ->
  exists s', (kmemcpy K str ;;; kpbump K (to_int (Z.of_nat (length str)))) (mkMb f (KAt b pos) (KAt b (length (l ++ t)))) = Ok tt s' /\
    kholds s' (Held (overwrite l pos str) (pos + length str)).
Proof.
  intros H Hp B L E S. destruct (kblock_ok f b l t pos str H Hp B L E) as (f' & E' & xs & H' & L' & G).
  rewrite StreamProofs.to_int_small by lia.
  eexists. split; [|exact G]. unfold kmemcpy. rewrite bind_bind, bind_get. cbn [kpptr].
  erewrite bind_ok by exact E'. apply (kpbump_ok f' _ b pos (length str) xs H'). lia.
Qed.

Lemma kxsputn_ok f p e l pos str : kholds (mkMb f p e) (Held l pos) -> kok (Held l pos) (OWrite str) ->
  match full (pos + length str) with
  | Some x => kxsputn K str (mkMb f p e) = Throw x (mkMb f p e)
  | None => exists s', kxsputn K str (mkMb f p e) = Ok tt s' /\ kholds s' (Held (overwrite l pos str) (pos + length str))
  end.
Proof.
  intros G (S & NE & E & R). pose proof G as (t & H & Hp & P). cbn [held kpptr kepptr] in *.
  unfold kxsputn. rewrite bind_get.
  rewrite (kremaining_ok f p e pos (length (l ++ t)) P) by (intros B; eapply null_zero; eauto).
  destruct (full (pos + length str)) as [x|] eqn:Ef.
  - destruct (ok_full O _ _ _ _ H Ef) as (L & L63 & _).
    destruct (Z.ltb_spec (Z.of_nat (length (l ++ t)) - Z.of_nat pos) (Z.of_nat (length str))) as [Q|Q]; [|lia].
    apply bind_throw. eapply (kcap_throw f p e l t pos _ (pos + length str) x); eauto.
    + rewrite app_length in *. lia.
    + unfold int_max1, two63, two64 in *. rewrite app_length in *. lia.
  - destruct (Z.ltb_spec (Z.of_nat (length (l ++ t)) - Z.of_nat pos) (Z.of_nat (length str))) as [Q|Q].
    + destruct (kcap_ok f p e l t pos (Z.to_N (Z.of_nat (length str) - (Z.of_nat (length (l ++ t)) - Z.of_nat pos))) (pos + length str) G H) as (f' & t' & p' & e' & E1 & H1 & L1 & P1); auto.
      { rewrite app_length in *. lia. }
      erewrite bind_ok by exact E1.
      assert (exists b, k_base K f' = Some b) as (b & B).
      { destruct (Nat.eq_dec (length (l ++ t')) 0); [|eapply memory; [eauto|lia]].
        rewrite app_length in *. lia. }
      unfold kptrs in P1. rewrite B in P1. destruct P1 as (-> & ->).
      eapply write_there; eauto.
    + unfold bind at 1. unfold ret at 1.
      assert (exists b, k_base K f = Some b) as (b & B).
      { destruct null0 eqn:En.
        - eapply memory; [eauto|]. destruct str; [now destruct NE|]. cbn [length] in *. rewrite app_length in *. lia.
        - pose proof (ok_nonnull O _ _ H En) as X. destruct (k_base K f); [eauto|congruence]. }
      unfold kptrs in P. rewrite B in P. destruct P as (-> & ->).
      eapply write_there; eauto. lia.
Qed.

Lemma poke_there f b l t pos c : rep f (l ++ t) -> pos <= length l -> k_base K f = Some b ->
  pos + 1 <= length (l ++ t) -> elem c ->
  exists s', (kpoke K 0 c ;;; kpbump K 1) (mkMb f (KAt b pos) (KAt b (length (l ++ t)))) = Ok tt s' /\
    kholds s' (Held (overwrite l pos [c]) (pos + 1)).
Proof.
  intros H Hp B L E. destruct (kblock_ok f b l t pos [c] H Hp B L ltac:(auto)) as (f' & E' & xs & H' & L' & G).
  cbn [kcopy] in E'. eexists. split; [|exact G]. unfold bind in E' |- *.
  destruct (kpoke K 0 c _) as [[] s1| | |]; try discriminate. unfold ret in E'. injection E' as ->.
  apply (kpbump_ok f' _ b pos 1 xs H'). lia.
Qed.

Lemma ksputc_ok f p e l pos c : kholds (mkMb f p e) (Held l pos) -> kok (Held l pos) (OPut c) ->
  match full (pos + 1) with
  | Some x => ksputc K c (mkMb f p e) = Throw x (mkMb f p e)
  | None => exists s', ksputc K c (mkMb f p e) = Ok tt s' /\ kholds s' (Held (overwrite l pos [c]) (pos + 1))
  end.
Proof.
  intros G (E & R). pose proof G as (t & H & Hp & P). cbn [held kpptr kepptr] in *.
  unfold ksputc. rewrite bind_get.
  rewrite (kremaining_ok f p e pos (length (l ++ t)) P) by (intros B; eapply null_zero; eauto).
  destruct (full (pos + 1)) as [x|] eqn:Ef.
  - destruct (ok_full O _ _ _ _ H Ef) as (L & L63 & _).
    destruct (Z.ltb_spec 0 (Z.of_nat (length (l ++ t)) - Z.of_nat pos)) as [Q|Q]; [lia|].
    apply bind_throw. eapply (kcap_throw f p e l t pos _ (pos + 1) x); eauto.
    + rewrite app_length in *. lia.
    + unfold two63, two64 in *. rewrite app_length in *. lia.
  - destruct (Z.ltb_spec 0 (Z.of_nat (length (l ++ t)) - Z.of_nat pos)) as [Q|Q].
    + destruct (memory _ _ H ltac:(lia)) as (b & B).
      unfold kptrs in P. rewrite B in P. destruct P as (-> & ->). eapply poke_there; eauto. lia.
    + unfold koverflow.
      destruct (kcap_ok f p e l t pos 1%N (pos + 1) G H) as (f' & t' & p' & e' & E1 & H1 & L1 & P1); auto.
      { rewrite app_length in *. lia. }
      erewrite bind_ok by exact E1.
      destruct (memory _ _ H1 ltac:(lia)) as (b & B).
      unfold kptrs in P1. rewrite B in P1. destruct P1 as (-> & ->). eapply poke_there; eauto.
Qed.

Lemma kseekpos_ok f p e l t pos : rep f (l ++ t) -> pos <= length l -> (Z.of_nat pos < int_max1)%Z ->
  exists s', kseekpos K (Z.of_nat pos) (mkMb f p e) = Ok (Z.of_nat pos) s' /\ kholds s' (Held l pos).
Proof.
  intros H Hp S. unfold kseekpos. erewrite bind_ok by (apply in_held_ok; eapply (ok_size O); eauto).
  rewrite StreamProofs.to_int_small by lia.
  destruct (ksetp_ok f p e (l ++ t) pos H) as (p' & e' & E1 & P1); [rewrite app_length; lia|].
  erewrite bind_ok by exact E1. eexists. split; [reflexivity|]. exists t. auto.
Qed.

Lemma kread_ok f p e xs : rep f xs -> forall n i, i + n <= length xs ->
  kread K i n (mkMb f p e) = Ok (firstn n (skipn i xs)) (mkMb f p e).
Proof.
  intros H. induction n as [|n IH]; intros i L; [reflexivity|]. cbn [kread].
  destruct (nth_error xs i) as [x|] eqn:Ex; [|apply nth_error_None in Ex; lia].
  erewrite bind_ok by (apply in_held_ok; eapply (ok_get O); eauto).
  erewrite bind_ok by (apply IH; lia). unfold ret. f_equal.
  clear -Ex. revert i Ex. induction xs as [|y xs IHx]; intros [|i] Ex; cbn in *; try discriminate.
  - injection Ex as ->. reflexivity.
  - rewrite IHx by exact Ex. reflexivity.
Qed.

Lemma kclear_ok f p e xs : rep f xs -> exists s', kclear K (mkMb f p e) = Ok tt s' /\ kholds s' (Held [] 0).
Proof.
  intros H. destruct (ok_clear O _ _ H) as (f' & E1 & H1). unfold kclear.
  erewrite bind_ok by (apply in_held_ok; exact E1).
  destruct (ksetp_ok f' p e [] 0 H1 ltac:(cbn; lia)) as (p' & e' & E2 & P2). cbn [length] in *.
  eexists. split; [exact E2|]. exists []. auto.
Qed.

Lemma kcall_ok s fl o : kholds s fl -> kok fl o ->
  exists s', kholds s' (fst (step fl o)) /\
    (kcall K o s = Ok (snd (step fl o)) s' \/ exists x, snd (step fl o) = OaThrow x /\ kcall K o s = Throw x s').
Proof.
  intros G Ho. destruct s as [f p e]. destruct fl as [l pos|].
  2:{ cbn [StreamBufSpec.kok] in Ho. subst o. destruct G as (H & _). cbn [held] in H.
      destruct (kclear_ok f p e _ H) as (s' & E1 & G1). exists s'. split; [exact G1|]. left.
      cbn [kcall kstep snd]. erewrite bind_ok by exact E1. reflexivity. }
  pose proof G as (t & H & Hp & P). cbn [held kpptr kepptr] in H, Hp, P.
  destruct o as [c|str|off|off| | | |]; cbn [kcall kstep fst snd StreamBufSpec.kok] in *.
  - pose proof (ksputc_ok f p e l pos c G Ho) as Q. cbn [length] in *.
    destruct (full (pos + 1)) as [x|].
    + exists (mkMb f p e). split; [exact G|]. right. exists x. split; [reflexivity|]. now apply bind_throw.
    + destruct Q as (s' & E1 & G1). exists s'. split; [exact G1|]. left. erewrite bind_ok by exact E1. reflexivity.
  - pose proof (kxsputn_ok f p e l pos str G Ho) as Q.
    destruct (full (pos + length str)) as [x|].
    + exists (mkMb f p e). split; [exact G|]. right. exists x. split; [reflexivity|]. now apply bind_throw.
    + destruct Q as (s' & E1 & G1). exists s'. split; [exact G1|]. left. erewrite bind_ok by exact E1. reflexivity.
  - destruct (kseekpos_ok f p e l t (Z.to_nat off) H ltac:(lia) ltac:(lia)) as (s' & E1 & G1).
    rewrite Z2Nat.id in E1 by lia.
    exists s'. split; [exact G1|]. left. cbn [kseekoff]. erewrite bind_ok by exact E1. reflexivity.
  - destruct (kseekpos_ok f p e l t (Z.to_nat (Z.of_nat pos + off)) H ltac:(lia) ltac:(lia)) as (s' & E1 & G1).
    rewrite Z2Nat.id in E1 by lia.
    exists s'. split; [exact G1|]. left. cbn [kseekoff].
    erewrite bind_ok. 2:{ erewrite bind_ok by (eapply kpoff_ok; eauto). exact E1. } reflexivity.
  - exists (mkMb f p e). split; [exact G|]. left. erewrite bind_ok by (eapply kpoff_ok; eauto). reflexivity.
  - exists (mkMb f p e). split; [exact G|]. left. erewrite bind_ok by (eapply kpoff_ok; eauto).
    erewrite bind_ok by (apply (kread_ok f p e _ H pos 0); rewrite app_length; lia).
    unfold ret. cbn [skipn]. rewrite firstn_app. replace (pos - length l) with 0 by lia. cbn [firstn]. now rewrite app_nil_r.
  - destruct (kclear_ok f p e _ H) as (s' & E1 & G1). exists s'. split; [exact G1|]. left.
    erewrite bind_ok by exact E1. reflexivity.
  - unfold has_swap in Ho. destruct (k_take K) as [take|] eqn:Et; [|discriminate].
    destruct (ok_take O take f (l ++ t) pos Et H) as (f' & E1 & H1 & B1); [rewrite app_length; lia|].
    exists (mkMb f' KNull KNull). split.
    + destruct null0.
      * exists []. cbn [held kpptr kepptr app]. rewrite B1. cbn. auto.
      * cbn. auto.
    + left. unfold kget_container. rewrite bind_bind. erewrite bind_ok by (eapply kpoff_ok; eauto).
      rewrite bind_bind. erewrite bind_ok by (apply in_held_ok; exact E1).
      rewrite firstn_app. replace (pos - length l) with 0 by lia. cbn [firstn]. rewrite app_nil_r.
      reflexivity.
Qed.

Lemma krun_ok os : forall s fl, kholds s fl -> along fl os ->
  exists s', krun K s os = Some (s', snd (kruns full null0 fl os)) /\ kholds s' (fst (kruns full null0 fl os)).
Proof.
  induction os as [|o os IH]; intros s fl G A; [now exists s|]. destruct A as (Ho & A).
  destruct (kcall_ok s fl o G Ho) as (s1 & G1 & E1). cbn [krun kruns].
  destruct (IH s1 _ G1 A) as (s2 & E2 & G2).
  destruct (step fl o) as (f1 & a1) eqn:Es. cbn [fst snd] in *.
  destruct (kruns full null0 f1 os) as (f2 & rs). cbn [fst snd] in *.
  exists s2. split; [|exact G2]. destruct E1 as [E1|(x & -> & E1)]; rewrite E1, E2; reflexivity.
Qed.

Lemma kheld_rep s fl : kholds s fl -> exists xs, rep (held s) xs.
Proof. destruct fl as [l pos|]; intros G; [destruct G as (t & H & _)|destruct G as (H & _)]; eauto. Qed.

(** The constructor *)
Lemma kconstruct_ok f n : rep f [] -> (n < two64)%N ->
  match full (N.to_nat n) with
  | Some x => exists s, kconstruct K n f = Throw x s /\ kholds s (Held [] 0)
  | None => room (N.to_nat n) -> exists s, kconstruct K n f = Ok tt s /\ kholds s (Held [] 0)
  end.
Proof.
  intros H Hn. unfold kconstruct.
  destruct (ksetp_ok f KNull KNull [] 0 H ltac:(cbn; lia)) as (p & e & E1 & P1). cbn [length] in *.
  change (Z.of_nat 0) with 0%Z in E1.
  assert (kholds (mkMb f p e) (Held [] 0)) as G by (exists []; auto).
  destruct (full (N.to_nat n)) as [x|] eqn:Ef; [|intros R].
  - exists (mkMb f p e). split; [|exact G]. erewrite bind_ok by exact E1.
    eapply (kcap_throw f p e [] [] 0 n (N.to_nat n) x); eauto. lia.
  - destruct (kcap_ok f p e [] [] 0 n (N.to_nat n) G H) as (f' & t' & p' & e' & E2 & H2 & _ & P2); auto.
    exists (mkMb f' p' e'). split; [now erewrite bind_ok by exact E1|]. exists t'. cbn. auto with arith.
Qed.

(** A whole life *)
Lemma klife f n os : rep f [] -> (n < two64)%N -> room (N.to_nat n) -> full (N.to_nat n) = None ->
  along (Held [] 0) os ->
  exists s0 s rs f', kconstruct K n f = Ok tt s0 /\ krun K s0 os = Some (s, rs) /\
    rs = snd (kruns full null0 (Held [] 0) os) /\
    k_destroy K (held s) = Ok tt f' /\ released f'.
Proof.
  intros H Hn R Ef A. pose proof (kconstruct_ok f n H Hn) as Q. rewrite Ef in Q. destruct (Q R) as (s0 & E0 & G0).
  destruct (krun_ok os s0 _ G0 A) as (s & E1 & G1). destruct (kheld_rep _ _ G1) as (xs & Hx).
  destruct (ok_destroy O _ _ Hx) as (f' & E2 & H2). exists s0, s, (snd (kruns full null0 (Held [] 0) os)), f'. auto 6.
Qed.

(** A constructor which throws has made the container before; it is destroyed. *)
Lemma klife_throw f n x : rep f [] -> (n < two64)%N -> full (N.to_nat n) = Some x ->
  exists s f', kconstruct K n f = Throw x s /\ k_destroy K (held s) = Ok tt f' /\ released f'.
Proof.
  intros H Hn Ef. pose proof (kconstruct_ok f n H Hn) as Q. rewrite Ef in Q. destruct Q as (s & E & G).
  destruct (kheld_rep _ _ G) as (xs & Hx). destruct (ok_destroy O _ _ Hx) as (f' & E2 & H2). eauto.
Qed.

Lemma krun_app a : forall s b, krun K s (a ++ b) =
  match krun K s a with
  | Some (s', rs) => match krun K s' b with Some (s'', rs') => Some (s'', rs ++ rs') | None => None end
  | None => None
  end.
Proof.
  induction a as [|o a IH]; intros s b; cbn [app krun]; [now destruct (krun K s b) as [[]|]|].
  destruct (kcall K o s) as [x s'|x s'| |]; auto; rewrite IH;
    (destruct (krun K s' a) as [[s1 r1]|]; auto; destruct (krun K s1 b) as [[]|]; auto).
Qed.

Lemma taken_last os : forall fl, null0 = false -> along fl (os ++ [OGet]) ->
  fst (kruns full null0 fl (os ++ [OGet])) = Taken.
Proof.
  induction os as [|o os IH]; intros fl Hn A; cbn [app kruns kalong] in *.
  - destruct A as (Ho & _). rewrite Hn. destruct fl; reflexivity.
  - destruct A as (_ & A). specialize (IH _ Hn A). destruct (step fl o) as (f1 & a1). cbn [fst] in *.
    destruct (kruns full null0 f1 (os ++ [OGet])). exact IH.
Qed.

Lemma taken_put s c : kholds s Taken -> krun K s [OPut c] = None.
Proof.
  destruct s as [f p e]. cbn [kholds held kpptr kepptr]. intros (H & B & -> & ->).
  cbn [krun kcall]. unfold ksputc. unfold bind at 1. rewrite bind_get. cbn [kremaining kpptr kepptr Z.ltb Z.compare].
  unfold koverflow, kcap_resize_by, kpoff. unfold bind at 1 2 3. cbn [kpptr held].
  destruct (k_base K f); [reflexivity|congruence].
Qed.

Lemma after_get s fl os c : null0 = false -> kholds s fl -> along fl (os ++ [OGet]) ->
  krun K s (os ++ [OGet]) <> None /\ krun K s (os ++ [OGet; OPut c]) = None.
Proof.
  intros Hn G A. destruct (krun_ok _ s fl G A) as (s' & E & G'). rewrite (taken_last os fl Hn A) in G'.
  split; [congruence|]. change (os ++ [OGet; OPut c]) with (os ++ [OGet] ++ [OPut c]). rewrite app_assoc, krun_app, E.
  now rewrite taken_put.
Qed.

(** A seek from the end, at any time of a life: what follows is as if everything in the container were written. *)
Lemma kseekend f n os l pos : rep f [] -> (n < two64)%N -> room (N.to_nat n) -> full (N.to_nat n) = None ->
  along (Held [] 0) os -> fst (kruns full null0 (Held [] 0) os) = Held l pos ->
  exists s0 s t, kconstruct K n f = Ok tt s0 /\
    krun K s0 os = Some (s, snd (kruns full null0 (Held [] 0) os)) /\
    k_size K (held s) = Ok (length (l ++ t)) (held s) /\
    forall off os', (0 <= Z.of_nat (length (l ++ t)) + off)%Z -> (off <= 0)%Z ->
      (Z.of_nat (length (l ++ t)) + off < int_max1)%Z ->
      let f' := Held (l ++ t) (Z.to_nat (Z.of_nat (length (l ++ t)) + off)) in
      along f' os' ->
      exists s1 s2, kseekoff K off End s = Ok (Z.of_nat (length (l ++ t)) + off)%Z s1 /\
        krun K s1 os' = Some (s2, snd (kruns full null0 f' os')).
Proof.
  intros H Hn R Ef A El. pose proof (kconstruct_ok f n H Hn) as Q. rewrite Ef in Q. destruct (Q R) as (s0 & E0 & G0).
  destruct (krun_ok os s0 _ G0 A) as (s & E1 & G1). rewrite El in G1. destruct G1 as (t & H1 & _ & _).
  exists s0, s, t. split; [exact E0|]. split; [exact E1|]. split; [exact (ok_size O _ _ H1)|].
  intros off os' L1 L2 L3 f' A'. destruct s as [h p e]. cbn [held] in *.
  set (k := Z.to_nat (Z.of_nat (length (l ++ t)) + off)).
  assert (Ek : (Z.of_nat (length (l ++ t)) + off)%Z = Z.of_nat k) by (unfold k; lia).
  destruct (kseekpos_ok h p e (l ++ t) [] k) as (s1 & E2 & G2); [now rewrite app_nil_r|lia|lia|].
  destruct (krun_ok os' s1 f' G2 A') as (s2 & E3 & _). exists s1, s2. split; [|exact E3].
  unfold kseekoff. erewrite bind_ok by (apply in_held_ok; eapply (ok_size O); eauto). rewrite Ek. exact E2.
Qed.
End Gen.
