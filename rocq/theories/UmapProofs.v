(** The overloads of transparent_umap do what the specification says. *)
From Coq Require Import List Arith Bool Lia.
From Verif Require Import Base UmapModel UmapSpec.
Import ListNotations.

Section Proofs.
Context {K T H : Type}.
Variable keq : K -> K -> bool.
Variable heq : H -> K -> bool.
Variable make : H -> K.
Variable dflt : T.
Hypothesis keq_eq : forall k k', keq k k' = true <-> k = k'.
Hypothesis heq_eq : forall h k, heq h k = keq (make h) k.
Notation map := (@map K T).

Definition rep (m : map) (f : fmap) : Prop :=
  NoDup (List.map fst m) /\ forall k t, f k = Some t <-> In (k, t) m.

Lemma find_find h (m : map) : find heq h m = find_key keq (make h) m.
Proof. induction m as [|[k t] m IH]; cbn; [reflexivity|]. now rewrite heq_eq, IH. Qed.

Lemma find_key_some k (m : map) i : find_key keq k m = Some i -> exists t, nth_error m i = Some (k, t).
Proof.
  revert i. induction m as [|[k' t] m IH]; intros i; cbn; [discriminate|].
  destruct (keq k k') eqn:E.
  - apply keq_eq in E as <-. intros E. injection E as <-. cbn. eauto.
  - destruct (find_key keq k m) as [j|]; cbn; [|discriminate]. intros E'. injection E' as <-. cbn. now apply IH.
Qed.
Lemma find_key_none k (m : map) : find_key keq k m = None -> forall t, ~ In (k, t) m.
Proof.
  induction m as [|[k' t] m IH]; cbn; [tauto|]. destruct (keq k k') eqn:E; [discriminate|].
  destruct (find_key keq k m); cbn; [discriminate|]. intros _ t' [E'|Hin]; [|now apply (IH eq_refl t')].
  injection E' as -> _. enough (keq k k = true) by congruence. now apply keq_eq.
Qed.

Lemma rep_some m f k t i : rep m f -> f k = Some t -> find_key keq k m = Some i -> nth_error m i = Some (k, t).
Proof.
  intros [ND R] E F. destruct (find_key_some k m i F) as [t' E']. rewrite E'. f_equal. f_equal.
  apply nth_error_In in E'. apply R in E'. congruence.
Qed.
Lemma rep_found m f k t : rep m f -> f k = Some t -> exists i, find_key keq k m = Some i.
Proof.
  intros [ND R] E. destruct (find_key keq k m) as [i|] eqn:F; [eauto|]. apply R in E.
  now apply (find_key_none k m F) in E.
Qed.
Lemma rep_not_found m f k : rep m f -> f k = None -> find_key keq k m = None.
Proof.
  intros [ND R] E. destruct (find_key keq k m) as [i|] eqn:F; [|reflexivity].
  destruct (find_key_some k m i F) as [t E']. apply nth_error_In, R in E'. congruence.
Qed.
Lemma rep_add m f f' k t : rep m f -> f k = None -> ext f k t f' -> rep (m ++ [(k, t)]) f'.
Proof.
  intros [ND R] N [E1 E2]. split.
  - rewrite map_app. cbn. apply (NoDup_Add (a := k) (l := List.map fst m)).
    + replace (List.map fst m) with (List.map fst m ++ []) at 1 by apply app_nil_r. apply Add_app.
    + split; [exact ND|]. intros Hin. apply in_map_iff in Hin as ([k' t'] & <- & Hin).
      apply R in Hin. cbn in N. congruence.
  - intros k' t'. rewrite in_app_iff. cbn. split.
    + intros E. destruct (keq k k') eqn:Q.
      * apply keq_eq in Q as <-. rewrite E1 in E. injection E as <-. auto.
      * left. apply R. rewrite <- E2; [exact E|]. intros ->. enough (keq k k = true) by congruence. now apply keq_eq.
    + intros [Hin|[E|[]]].
      * apply R in Hin. rewrite E2; [exact Hin|]. congruence.
      * injection E as <- <-. exact E1.
Qed.
Lemma nodup_fst (m : map) i j k t t' : NoDup (List.map fst m) ->
  nth_error m i = Some (k, t) -> nth_error m j = Some (k, t') -> i = j.
Proof.
  intros ND Ei Ej. assert (Li : i < length (List.map fst m)).
  { rewrite map_length. apply nth_error_Some. congruence. }
  apply (proj1 (NoDup_nth_error _) ND i j Li). erewrite !map_nth_error by eassumption. reflexivity.
Qed.
Lemma rep_set m f f' k t t' i : rep m f -> nth_error m i = Some (k, t') -> ext f k t f' ->
  rep (upd m i (k, t)) f'.
Proof.
  intros [ND R] E [E1 E2]. assert (Li : i < length m) by (apply nth_error_Some; congruence). split.
  - replace (List.map fst (upd m i (k, t))) with (List.map fst m); [exact ND|].
    clear - E. revert i E. induction m as [|x m IH]; intros [|i] E; cbn in *; try discriminate.
    + now injection E as ->.
    + f_equal. now apply IH.
  - intros q w. split.
    + intros Eq. destruct (keq k q) eqn:Q.
      * apply keq_eq in Q as <-. rewrite E1 in Eq. injection Eq as <-.
        eapply nth_error_In. now apply nth_error_upd_eq.
      * assert (q <> k) by (intros ->; enough (keq k k = true) by congruence; now apply keq_eq).
        rewrite E2 in Eq by assumption. apply R in Eq. apply In_nth_error in Eq as [j Ej].
        eapply nth_error_In. rewrite nth_error_upd_neq; [exact Ej|]. intros ->. congruence.
    + intros Hin. apply In_nth_error in Hin as [j Ej]. destruct (Nat.eq_dec i j) as [->|ne].
      * rewrite nth_error_upd_eq in Ej by assumption. injection Ej as <- <-. exact E1.
      * rewrite nth_error_upd_neq in Ej by assumption. rewrite E2; [apply R; eapply nth_error_In; eauto|].
        intros ->. apply ne. eapply nodup_fst; eauto.
Qed.

Notation call := (call keq heq make dflt).
Lemma at_end (m : map) (k : K) (t : T) : nth_error (m ++ [(k, t)]) (length m) = Some (k, t).
Proof. now apply nth_error_app_mid. Qed.

Lemma call_sim m f o x f' : rep m f -> sstep make dflt f o x f' ->
  exists m', rep m' f' /\
    match x with
    | Thrown e => call o m = Throw e m' /\ m' = m
    | _ => call o m = Ok x m'
    end.
Proof.
  intros R Hs. destruct Hs as [f h t E|f h E|f h t a b E|f h f' E X|f h a b E D|f h t t' a b f' E X|
    f h t f' E X|f h t a b E D|f h t t' a b E|f h t f' E X|f h t a b E D];
    cbn [UmapModel.call]; unfold at_, subscript, try_emplace, bind; rewrite find_find;
    try (destruct (rep_found m f (make h) _ R E) as [i F];
         pose proof (rep_some _ _ _ _ _ R E F) as Ei; rewrite F, ?Ei; cbn; unfold deref, assign;
         rewrite ?Ei);
    try (rewrite (rep_not_found m f (make h) R E)).
  - exists m. auto.
  - exists m. auto.
  - exists m. auto.
  - exists (m ++ [(make h, dflt)]). split; [eapply rep_add; eauto|]. cbn. unfold emplace.
    rewrite (rep_not_found m f (make h) R E). cbn. unfold deref. now rewrite at_end.
  - exists m. split; [exact R|]. split; [|reflexivity]. destruct D as [->| ->]; [reflexivity|].
    destruct a; reflexivity.
  - exists (upd m i (make h, t)). split; [eapply rep_set; eauto|reflexivity].
  - exists (upd (m ++ [(make h, dflt)]) (length m) (make h, t)). split.
    + rewrite upd_app_mid by reflexivity. eapply rep_add; eauto.
    + cbn. unfold emplace. rewrite (rep_not_found m f (make h) R E). cbn. unfold assign. now rewrite at_end.
  - exists m. split; [exact R|]. split; [|reflexivity]. destruct D as [->| ->]; [reflexivity|].
    destruct a; reflexivity.
  - exists m. auto.
  - exists (m ++ [(make h, t)]). split; [eapply rep_add; eauto|]. cbn. unfold emplace.
    rewrite (rep_not_found m f (make h) R E). cbn. unfold deref. now rewrite at_end.
  - exists m. split; [exact R|]. split; [|reflexivity]. destruct D as [->| ->]; [reflexivity|].
    destruct a; reflexivity.
Qed.

Lemma calls_sim m f os xs f' : rep m f -> ssteps make dflt f os xs f' ->
  exists m', calls keq heq make dflt os m = Ok xs m' /\ rep m' f'.
Proof.
  intros R Hs. revert m R. induction Hs as [f|f o x f1 os xs f2 Hs _ IH]; intros m R.
  - exists m. auto.
  - destruct (call_sim m f o x f1 R Hs) as (m1 & R1 & E). destruct (IH m1 R1) as (m2 & E2 & R2).
    exists m2. split; [|exact R2]. cbn. destruct x; try (rewrite E, E2; reflexivity).
    destruct E as [E ->]. now rewrite E, E2.
Qed.
Lemma rep_init : rep [] (fun _ => None).
Proof. split; [constructor|]. cbn. intros. split; [discriminate|tauto]. Qed.
End Proofs.
