(** Proofs for PodAllocSpec. *)
From Coq Require Import List Arith NArith ZArith Bool Lia.
From Verif Require Import Base SeqSpec VecCommon SmallVectorModel SmallVectorSpec SmallVectorProofs PodVectorModel PodVectorSpec PodVectorProofs PodBlockProofs PodAllocModel PodAllocSpec.
Import ListNotations.
Open Scope nat_scope.

Lemma nth_app_none {B} (l : list (option B)) i x : nth_error l i = Some x -> nth_error (l ++ [None]) i = Some x.
Proof. intros H. rewrite nth_error_app1; [exact H|]. eapply nth_lt; eauto. Qed.
Lemma upd_app {B} (l m : list B) i x : i < length l -> upd (l ++ m) i x = upd l i x ++ m.
Proof.
  revert i. induction l as [|y l IH]; intros [|i] H; cbn in *; try lia; [reflexivity|]. rewrite IH by lia. reflexivity.
Qed.
Lemma upd_last {B} (l : list B) x y : upd (l ++ [x]) (length l) y = l ++ [y].
Proof. induction l; cbn; [reflexivity|]. now rewrite IHl. Qed.
Lemma map_upd {B C} (f : B -> C) l i x : map f (upd l i x) = upd (map f l) i (f x).
Proof. revert i. induction l as [|y l IH]; intros [|i]; cbn; [reflexivity..|]. now rewrite IH. Qed.

Section Proofs.
Variable A : alc.
Variable T : ety.
Hypothesis HT : ety_ok T.
Hypothesis HA : alc_ok A.
Variable early : bool.
Variable left_of : nat -> nat.
Notation holds := (pod_holds A T).
Notation fam := (fam A T).

Definition vec_in (a : option avec) : pv := match a with Some a => av_v a | None => init_pv end.
Definition cont_in (c : option (nat * list (list N))) : list (list N) := match c with Some (_, xs) => xs | None => [] end.
Definition agree (a : option avec) (c : option (nat * list (list N))) : Prop :=
  match a, c with Some a, Some (al, _) => av_al a = al | None, None => True | _, _ => False end.
(** Every vector's block is of its allocator. *)
Definition right_owner (own : list nat) (a : option avec) : Prop :=
  forall b, owner (vec_in a) = Some b -> match a with Some a => nth_error own b = Some (av_al a) | None => False end.
Record ainv (s : avs) (cs : owned) : Prop := mkInv {
  i_len : length (av_own s) = length (blks (av_mem s));
  i_agree : Forall2 agree (av_slots s) cs;
  i_fam : fam (blks (av_mem s)) (map vec_in (av_slots s)) (map cont_in cs);
  i_own : forall i a, nth_error (av_slots s) i = Some a -> right_owner (av_own s) a;
  i_small : sizables (av_mem s)
}.

Lemma inv_at s cs i p : ainv s cs -> nth_error cs i = Some (Some p) ->
  exists v, nth_error (av_slots s) i = Some (Some (mkAv (fst p) v)) /\ holds (blks (av_mem s)) v (snd p) /\
    forall b, owner v = Some b -> nth_error (av_own s) b = Some (fst p).
Proof.
  intros I E. destruct I as [IL IA IF IO IS]. pose proof (Forall2_len _ _ _ IA) as L.
  assert (i < length (av_slots s)) as Hi by (apply nth_lt in E; lia).
  destruct (nth_in _ _ Hi) as (a & Ea). pose proof (Forall2_get _ _ _ _ _ _ IA Ea E) as G. destruct p as [al xs].
  destruct a as [[al' v]|]; cbn in G; [|contradiction]. subst al'. exists v. cbn [fst snd].
  split; [exact Ea|]. split.
  - destruct IF as (HH & _). apply (Forall2_get _ _ _ i v xs HH).
    + apply (map_nth_error vec_in) in Ea. exact Ea.
    + apply (map_nth_error cont_in) in E. exact E.
  - apply (IO i (Some (mkAv al v)) Ea).
Qed.
Lemma inv_none s cs i : ainv s cs -> nth_error cs i = Some None -> nth_error (av_slots s) i = Some None.
Proof.
  intros I E. pose proof (i_agree _ _ I) as IA. pose proof (Forall2_len _ _ _ IA) as L.
  assert (i < length (av_slots s)) as Hi by (apply nth_lt in E; lia).
  destruct (nth_in _ _ Hi) as (a & Ea). pose proof (Forall2_get _ _ _ _ _ _ IA Ea E) as G.
  destruct a; cbn in G; [contradiction|exact Ea].
Qed.

Lemma altered_own_ok al : forall own bs bs', (forall j x y, nth_error bs j = Some x -> nth_error bs' j = Some y ->
    altered x y = true -> nth_error own j = Some al) -> altered_own al own bs bs' = true.
Proof.
  induction own as [|o own IH]; intros [|x bs] [|y bs'] H; try reflexivity. cbn [altered_own].
  rewrite IH.
  - rewrite andb_true_r. destruct (altered x y) eqn:E; [|reflexivity]. cbn. specialize (H 0 x y eq_refl eq_refl E).
    injection H as ->. apply Nat.eqb_refl.
  - intros j x' y' H1 H2. apply (H (S j) x' y' H1 H2).
Qed.
Lemma altered_same x : altered x x = false.
Proof. destruct x; [cbn; now rewrite Nat.eqb_refl|reflexivity]. Qed.

Definition after (s : avs) (i al : nat) (m : mem) (v : pv) : avs :=
  mkAvs m (av_own s ++ repeat al (length (blks m) - length (av_own s))) (upd (av_slots s) i (Some (mkAv al v))).

(** A call which changes only its vector's block asks the right allocator. *)
Lemma on_vec_ok {R} (f : M pst R) s i al v r m' v' w :
  nth_error (av_slots s) i = Some (Some (mkAv al v)) ->
  (forall b, owner v = Some b -> nth_error (av_own s) b = Some al) ->
  f (av_mem s, v) = Ok r (m', v') -> frame (blks (av_mem s)) v (blks m') w ->
  on_vec i f s = Ok r (after s i al m' v').
Proof.
  intros E O Ef (HL & HK & _). unfold on_vec. rewrite E. cbn [av_v av_al]. rewrite Ef.
  rewrite altered_own_ok; [reflexivity|]. intros j x y Hx Hy Al.
  assert (forall o : option nat, {o = Some j} + {o <> Some j}) as D by (intros; decide equality; apply Nat.eq_dec).
  destruct (D (owner v)) as [e|ne]; [now apply O|].
  destruct (HK j (nth_lt _ _ _ Hx) ne) as (E' & _). rewrite E', Hx in Hy. injection Hy as <-. rewrite altered_same in Al. discriminate.
Qed.
Lemma on_vec_read {R} (f : M pst R) s cs i al v r :
  ainv s cs -> nth_error (av_slots s) i = Some (Some (mkAv al v)) ->
  f (av_mem s, v) = Ok r (av_mem s, v) -> on_vec i f s = Ok r s.
Proof.
  intros I E Ef. unfold on_vec. rewrite E. cbn [av_v av_al]. rewrite Ef.
  rewrite altered_own_ok.
  - rewrite (i_len _ _ I), Nat.sub_diag. cbn [repeat]. rewrite app_nil_r, (upd_id _ _ _ E). now destruct s.
  - intros j x y Hx Hy Al. rewrite Hx in Hy. injection Hy as <-. rewrite altered_same in Al. discriminate.
Qed.

Lemma own_grow (own : list nat) al n b c : nth_error own b = Some c -> nth_error (own ++ repeat al n) b = Some c.
Proof. intros H. rewrite nth_error_app1; [exact H|]. eapply nth_lt; eauto. Qed.
Lemma own_new (own : list nat) al n b : length own <= b -> b < length own + n -> nth_error (own ++ repeat al n) b = Some al.
Proof.
  intros H1 H2. rewrite nth_error_app2 by exact H1.
  assert (forall k m, k < m -> nth_error (repeat al m) k = Some al) as G.
  { induction k; intros [|m] Hm; cbn; try lia; [reflexivity|]. apply IHk. lia. }
  apply G. lia.
Qed.

(** The invariant after such a call. *)
Lemma inv_after s cs i al v xs m' v' ys :
  ainv s cs -> nth_error (av_slots s) i = Some (Some (mkAv al v)) -> nth_error cs i = Some (Some (al, xs)) ->
  frame (blks (av_mem s)) v (blks m') v' -> holds (blks m') v' ys -> sizables m' ->
  ainv (after s i al m' v') (upd cs i (Some (al, ys))).
Proof.
  intros I E Ec F H Sm. pose proof I as [IL IA IF IO IS]. pose proof F as (HL & HK & HF).
  split; cbn [after av_mem av_own av_slots].
  - rewrite app_length, repeat_length. lia.
  - apply Forall2_intro; [rewrite !upd_length; eapply Forall2_len; eauto|]. intros j a c Ha Hc.
    apply nth_upd_cases in Ha. apply nth_upd_cases in Hc.
    destruct Ha as [(-> & -> & _)|(N & Ha)]; destruct Hc as [(? & -> & _)|(N' & Hc)]; try congruence; [reflexivity|].
    eapply Forall2_get; eauto.
  - rewrite !map_upd. cbn [vec_in cont_in av_v]. eapply fam_one; [exact IF| | |exact F|exact H].
    + apply (map_nth_error vec_in) in E. exact E.
    + apply (map_nth_error cont_in) in Ec. exact Ec.
  - intros j a Ha. apply nth_upd_cases in Ha. destruct Ha as [(-> & -> & _)|(N & Ha)].
    + intros b Hb. cbn [vec_in av_v av_al] in *.
      pose proof (fam_owner_lt _ _ _ _ _ _ H Hb) as Lb.
      destruct (Nat.lt_ge_cases b (length (av_own s))) as [Lt|Ge].
      * apply own_grow. apply (IO i _ E b). cbn [vec_in av_v].
        assert (forall o : option nat, {o = Some b} + {o <> Some b}) as D by (intros; decide equality; apply Nat.eq_dec).
        destruct (D (owner v)) as [e|ne]; [exact e|]. destruct (HK b ltac:(lia) ne) as (_ & O). now destruct O.
      * apply own_new; lia.
    + intros b Hb. specialize (IO j a Ha b Hb). destruct a; [now apply own_grow|contradiction].
  - exact Sm.
Qed.

Local Hint Resolve sz_assign_copy sz_assign_fill sz_resize sz_clear sz_call : core.
(** One call on one vector. *)
Lemma on_vec_spec {R} (f : M pst R) s cs i al v xs r m' v' ys :
  ainv s cs -> nth_error (av_slots s) i = Some (Some (mkAv al v)) -> nth_error cs i = Some (Some (al, xs)) ->
  sizing f -> f (av_mem s, v) = Ok r (m', v') -> frame (blks (av_mem s)) v (blks m') v' -> holds (blks m') v' ys ->
  exists s', on_vec i f s = Ok r s' /\ ainv s' (upd cs i (Some (al, ys))) /\ s' = after s i al m' v'.
Proof.
  intros I E Ec Sz Ef F H. assert (sizables m') as Sm.
  { specialize (Sz _ (i_small _ _ I : sizables (fst (av_mem s, v)))). now rewrite Ef in Sz. }
  exists (after s i al m' v'). split; [|split; [eapply inv_after; eauto|reflexivity]].
  eapply on_vec_ok; eauto. intros b Hb. apply (i_own _ _ I i _ E b Hb).
Qed.

Lemma put_new s cs i al : ainv s cs -> nth_error cs i = Some None ->
  exists s', v_new i al s = Ok tt s' /\ ainv s' (upd cs i (Some (al, []))) /\
    s' = mkAvs (av_mem s) (av_own s) (upd (av_slots s) i (Some (mkAv al init_pv))).
Proof.
  intros I E. pose proof (inv_none _ _ _ I E) as Ea. eexists. unfold v_new. rewrite Ea. split; [reflexivity|]. split; [|reflexivity].
  destruct I as [IL IA IF IO IS]. split; cbn [av_mem av_own av_slots]; [exact IL| | | |exact IS].
  - apply Forall2_intro; [rewrite !upd_length; eapply Forall2_len; eauto|]. intros j a c Ha Hc.
    apply nth_upd_cases in Ha. apply nth_upd_cases in Hc.
    destruct Ha as [(-> & -> & _)|(N & Ha)]; destruct Hc as [(? & -> & _)|(N' & Hc)]; try congruence; [reflexivity|].
    eapply Forall2_get; eauto.
  - rewrite !map_upd. cbn [vec_in cont_in av_v].
    rewrite (upd_id (map vec_in (av_slots s))) by (apply (map_nth_error vec_in) in Ea; exact Ea).
    rewrite (upd_id (map cont_in cs)) by (apply (map_nth_error cont_in) in E; exact E). exact IF.
  - intros j a Ha. apply nth_upd_cases in Ha. destruct Ha as [(-> & -> & _)|(N & Ha)]; [intros b Hb; discriminate|eauto].
Qed.

Lemma read_spec s cs j al ys : ainv s cs -> nth_error cs j = Some (Some (al, ys)) -> on_vec j (pread_all T) s = Ok ys s.
Proof.
  intros I E. destruct (inv_at _ _ _ _ I E) as (v & Ev & Hv & _). cbn [fst snd] in *.
  eapply on_vec_read; eauto. destruct (av_mem s) as [bs k]. now apply (pread_all_spec A T HT).
Qed.
Lemma the_vec_spec s cs j al ys : ainv s cs -> nth_error cs j = Some (Some (al, ys)) ->
  exists v, the_vec j s = Ok (mkAv al v) s /\ nth_error (av_slots s) j = Some (Some (mkAv al v)).
Proof. intros I E. destruct (inv_at _ _ _ _ I E) as (v & Ev & _). exists v. unfold the_vec. now rewrite Ev. Qed.

Lemma assign_spec s cs i al xs l : ainv s cs -> nth_error cs i = Some (Some (al, xs)) ->
  Forall (is_elem T) l -> room T (length l) ->
  exists s', on_vec i (passign_copy A T l) s = Ok tt s' /\ ainv s' (upd cs i (Some (al, l))).
Proof.
  intros I E Hl Hr. destruct (inv_at _ _ _ _ I E) as (v & Ev & Hv & _). cbn [fst snd] in *.
  destruct (av_mem s) as [bs k] eqn:Em. cbn [blks] in *.
  destruct (passign_copy_spec A T HT HA bs k v xs l Hv Hl Hr) as (bs' & k' & v' & Ef & H & F).
  destruct (on_vec_spec (passign_copy A T l) s cs i al v xs tt (mkMem bs' k') v' l) as (s' & E' & I' & _); auto; rewrite ?Em; auto.
  eauto.
Qed.
Lemma elems_of s cs i al xs : ainv s cs -> nth_error cs i = Some (Some (al, xs)) -> Forall (is_elem T) xs.
Proof. intros I E. destruct (inv_at _ _ _ _ I E) as (v & Ev & Hv & _). apply Hv. Qed.

Lemma nth_upd_same {B} (l : list B) i x y : nth_error l i = Some y -> nth_error (upd l i x) i = Some x.
Proof. intros H. apply nth_error_upd_eq. eapply nth_lt; eauto. Qed.

Lemma new_fill_spec s cs i al n x : ainv s cs -> nth_error cs i = Some None -> is_elem T x -> room T n ->
  exists s', v_new_fill A T i al n x s = Ok tt s' /\ ainv s' (upd cs i (Some (al, repeat x n))).
Proof.
  intros I E Hx Hr. destruct (put_new s cs i al I E) as (s1 & E1 & I1 & _).
  unfold v_new_fill. erewrite bind_ok by exact E1. clear E1.
  pose proof (nth_upd_same cs i (Some (al, [])) _ E) as E1.
  destruct (inv_at _ _ _ _ I1 E1) as (v & Ev & Hv & _). cbn [fst snd] in *.
  destruct (av_mem s1) as [bs k] eqn:Em. cbn [blks] in *.
  destruct (passign_fill_spec A T HT HA bs k v [] n x Hv Hx Hr) as (bs' & k' & v' & Ef & H & F).
  destruct (on_vec_spec (passign_fill A T (N.of_nat n) (Val x)) s1 _ i al v [] tt (mkMem bs' k') v' (repeat x n) I1 Ev E1) as (s' & E' & I' & _); rewrite ?Em; auto.
  rewrite upd_upd_same in I'. eauto.
Qed.
Lemma new_count_spec s cs i al n : ainv s cs -> nth_error cs i = Some None -> room T n ->
  exists s' xs, v_new_count A T i al n s = Ok tt s' /\ ainv s' (upd cs i (Some (al, xs))) /\
    pod_step A T [] (PSeq (Resize n)) xs RNone.
Proof.
  intros I E Hr. destruct (put_new s cs i al I E) as (s1 & E1 & I1 & _).
  unfold v_new_count. erewrite bind_ok by exact E1. clear E1.
  pose proof (nth_upd_same cs i (Some (al, [])) _ E) as E1.
  destruct (inv_at _ _ _ _ I1 E1) as (v & Ev & Hv & _). cbn [fst snd] in *.
  destruct (av_mem s1) as [bs k] eqn:Em. cbn [blks] in *.
  destruct (presize_spec A T HT HA bs k v [] n Hv Hr) as (r & bs' & k' & v' & new & Ef & N1 & N2 & N3 & H & F & _).
  destruct (on_vec_spec (presize A T (N.of_nat n)) s1 _ i al v [] r (mkMem bs' k') v' (firstn n [] ++ new) I1 Ev E1) as (s' & E' & I' & _); rewrite ?Em; auto.
  rewrite upd_upd_same in I'. exists s', (firstn n [] ++ new). erewrite bind_ok by exact E'.
  split; [reflexivity|]. split; [exact I'|]. now constructor.
Qed.
Lemma new_range_spec s cs i al l : ainv s cs -> nth_error cs i = Some None -> Forall (is_elem T) l -> room T (length l) ->
  exists s', v_new_range A T i al l s = Ok tt s' /\ ainv s' (upd cs i (Some (al, l))).
Proof.
  intros I E Hl Hr. destruct (put_new s cs i al I E) as (s1 & E1 & I1 & _).
  unfold v_new_range. erewrite bind_ok by exact E1. clear E1.
  pose proof (nth_upd_same cs i (Some (al, [])) _ E) as E1.
  destruct (assign_spec s1 _ i al [] l I1 E1 Hl Hr) as (s' & E' & I'). rewrite upd_upd_same in I'. eauto.
Qed.
Lemma copy_new_with_spec s cs i j al al' ys : ainv s cs -> nth_error cs i = Some None ->
  nth_error cs j = Some (Some (al', ys)) -> room T (length ys) ->
  exists s', v_copy_new_with A T i j al s = Ok tt s' /\ ainv s' (upd cs i (Some (al, ys))).
Proof.
  intros I E Ej Hr. assert (i <> j) as N by congruence. destruct (put_new s cs i al I E) as (s1 & E1 & I1 & _).
  unfold v_copy_new_with. erewrite bind_ok by exact E1. clear E1.
  assert (nth_error (upd cs i (Some (al, []))) j = Some (Some (al', ys))) as Ej1 by (rewrite nth_error_upd_neq; auto).
  erewrite bind_ok by (eapply read_spec; eauto).
  pose proof (nth_upd_same cs i (Some (al, [])) _ E) as E1.
  destruct (assign_spec s1 _ i al [] ys I1 E1 (elems_of _ _ _ _ _ I Ej) Hr) as (s' & E' & I'). rewrite upd_upd_same in I'. eauto.
Qed.
Lemma copy_assign_spec s cs i j al al' xs ys : ainv s cs -> nth_error cs i = Some (Some (al, xs)) ->
  nth_error cs j = Some (Some (al', ys)) -> room T (length ys) ->
  exists s', v_copy_assign A T i j s = Ok tt s' /\ ainv s' (upd cs i (Some (al, ys))).
Proof.
  intros I E Ej Hr. unfold v_copy_assign. destruct (Nat.eqb_spec i j) as [<-|N].
  - rewrite E in Ej. injection Ej as <- <-. destruct (the_vec_spec _ _ _ _ _ I E) as (v & Ev & _).
    exists s. erewrite bind_ok by exact Ev. rewrite (upd_id _ _ _ E). auto.
  - destruct (inv_at _ _ _ _ I E) as (v & Ev & Hv & _). cbn [fst snd] in *.
    destruct (av_mem s) as [bs k] eqn:Em. cbn [blks] in *.
    destruct (pclear_spec A T HT bs k v xs Hv) as (v' & Ef & H & F & _).
    destruct (on_vec_spec pclear s cs i al v xs tt (mkMem bs k) v' [] I Ev E) as (s1 & E1 & I1 & _); rewrite ?Em; auto.
    erewrite bind_ok by exact E1. clear E1.
    assert (nth_error (upd cs i (Some (al, []))) j = Some (Some (al', ys))) as Ej1 by (rewrite nth_error_upd_neq; auto).
    erewrite bind_ok by (eapply read_spec; eauto).
    pose proof (nth_upd_same cs i (Some (al, [])) _ E) as E1.
    destruct (assign_spec s1 _ i al [] ys I1 E1 (elems_of _ _ _ _ _ I Ej) Hr) as (s' & E' & I'). rewrite upd_upd_same in I'. eauto.
Qed.

(** A vector without memory may be overwritten by another, which is left without. *)
Lemma inv_take s cs i j al0 al v ys :
  ainv s cs -> i <> j ->
  nth_error (av_slots s) i = Some (Some (mkAv al0 init_pv)) -> nth_error cs i = Some (Some (al0, [])) ->
  nth_error (av_slots s) j = Some (Some (mkAv al v)) -> nth_error cs j = Some (Some (al, ys)) ->
  ainv (mkAvs (av_mem s) (av_own s) (upd (upd (av_slots s) i (Some (mkAv al v))) j (Some (mkAv (left_of al) init_pv))))
       (upd (upd cs i (Some (al, ys))) j (Some (left_of al, []))).
Proof.
  intros [IL IA IF IO IS] N Ei Ci Ej Cj. split; cbn [av_mem av_own av_slots]; [exact IL| | | |exact IS].
  - apply Forall2_intro; [rewrite !upd_length; eapply Forall2_len; eauto|]. intros k a c Ha Hc.
    apply nth_upd_cases in Ha. apply nth_upd_cases in Hc.
    destruct Ha as [(-> & -> & _)|(N1 & Ha)]; destruct Hc as [(? & -> & _)|(N1' & Hc)]; try congruence; [reflexivity|].
    apply nth_upd_cases in Ha. apply nth_upd_cases in Hc.
    destruct Ha as [(-> & -> & _)|(N2 & Ha)]; destruct Hc as [(? & -> & _)|(N2' & Hc)]; try congruence; [reflexivity|].
    eapply Forall2_get; eauto.
  - rewrite !map_upd. cbn [vec_in cont_in av_v]. eapply (fam_swapped A T _ _ _ i j init_pv v [] ys IF).
    + apply (map_nth_error vec_in) in Ei. exact Ei.
    + apply (map_nth_error vec_in) in Ej. exact Ej.
    + apply (map_nth_error cont_in) in Ci. exact Ci.
    + apply (map_nth_error cont_in) in Cj. exact Cj.
  - intros k a Ha. apply nth_upd_cases in Ha. destruct Ha as [(-> & -> & _)|(N1 & Ha)]; [intros b Hb; discriminate|].
    apply nth_upd_cases in Ha. destruct Ha as [(-> & -> & _)|(N2 & Ha)]; [|eauto]. exact (IO j _ Ej).
Qed.
Lemma inv_drop s cs i al : ainv s cs ->
  nth_error (av_slots s) i = Some (Some (mkAv al init_pv)) -> nth_error cs i = Some (Some (al, [])) ->
  ainv (mkAvs (av_mem s) (av_own s) (upd (av_slots s) i None)) (upd cs i None).
Proof.
  intros [IL IA IF IO IS] Ei Ci. split; cbn [av_mem av_own av_slots]; [exact IL| | | |exact IS].
  - apply Forall2_intro; [rewrite !upd_length; eapply Forall2_len; eauto|]. intros k a c Ha Hc.
    apply nth_upd_cases in Ha. apply nth_upd_cases in Hc.
    destruct Ha as [(-> & -> & _)|(N1 & Ha)]; destruct Hc as [(? & -> & _)|(N1' & Hc)]; try congruence; [exact Logic.I|].
    eapply Forall2_get; eauto.
  - rewrite !map_upd. cbn [vec_in cont_in av_v].
    rewrite (upd_id (map vec_in (av_slots s))) by (apply (map_nth_error vec_in) in Ei; exact Ei).
    rewrite (upd_id (map cont_in cs)) by (apply (map_nth_error cont_in) in Ci; exact Ci). exact IF.
  - intros k a Ha. apply nth_upd_cases in Ha. destruct Ha as [(-> & -> & _)|(N1 & Ha)]; [intros b Hb; discriminate|eauto].
Qed.
(** Memory given back: as if the vector were null from then on. *)
Lemma free_spec s cs i al xs : ainv s cs -> nth_error cs i = Some (Some (al, xs)) ->
  exists m v, on_vec i (a_free_begin A T) s = Ok tt (after s i al m v) /\
    ainv (after s i al m init_pv) (upd cs i (Some (al, []))).
Proof.
  intros I E. destruct (inv_at _ _ _ _ I E) as (v & Ev & Hv & O). cbn [fst snd] in *.
  destruct (av_mem s) as [bs k] eqn:Em. cbn [blks] in *. pose proof Hv as (_ & rest & Hb & _).
  destruct (a_free_spec A T bs k v _ Hb) as (bs' & Ef & HL & HK & HF).
  assert (frame bs v bs' init_pv) as F by (eapply freed_frame; eauto).
  assert (sizables (mkMem bs' k)) as Sm.
  { pose proof (sz_a_free A T (mkMem bs k, v)) as Sz. rewrite Ef in Sz. apply Sz. cbn [fst]. rewrite <- Em. apply (i_small _ _ I). }
  exists (mkMem bs' k), v. split.
  - eapply on_vec_ok; eauto; rewrite Em; eauto.
  - eapply inv_after; eauto; rewrite ?Em; auto. apply holds_init.
Qed.
Lemma move_new_spec s cs i j al ys : ainv s cs -> nth_error cs i = Some None -> nth_error cs j = Some (Some (al, ys)) ->
  exists s', v_move_new left_of i j s = Ok tt s' /\ ainv s' (upd (upd cs i (Some (al, ys))) j (Some (left_of al, []))).
Proof.
  intros I E Ej. assert (i <> j) as N by congruence.
  destruct (the_vec_spec _ _ _ _ _ I Ej) as (v & Ev & Hv).
  destruct (put_new s cs i al I E) as (s1 & E1 & I1 & ->).
  unfold v_move_new. erewrite bind_ok by exact Ev. cbn [av_al av_v]. erewrite bind_ok by exact E1.
  eexists. split; [reflexivity|]. cbn [av_mem av_own av_slots]. rewrite upd_upd_same.
  pose proof (inv_take _ _ i j al al v ys I1 N) as K. cbn [av_mem av_own av_slots] in K. rewrite !upd_upd_same in K.
  apply K.
  - eapply nth_upd_same. eapply inv_none; eauto.
  - eapply nth_upd_same; eauto.
  - rewrite nth_error_upd_neq by auto. exact Hv.
  - rewrite nth_error_upd_neq by auto. exact Ej.
Qed.
Lemma destroy_spec s cs i al xs : ainv s cs -> nth_error cs i = Some (Some (al, xs)) ->
  exists s', v_destroy A T i s = Ok tt s' /\ ainv s' (upd cs i None).
Proof.
  intros I E. destruct (free_spec s cs i al xs I E) as (m & v & Ef & I1). destruct (inv_at _ _ _ _ I E) as (v0 & Ev & _).
  unfold v_destroy. erewrite bind_ok by exact Ef. eexists. split; [reflexivity|]. cbn [after av_mem av_own av_slots]. rewrite upd_upd_same.
  pose proof (inv_drop _ _ i al I1) as K. cbn [after av_mem av_own av_slots] in K. rewrite !upd_upd_same in K.
  apply K; eapply nth_upd_same; eauto.
Qed.
Lemma move_assign_spec s cs i j al0 xs al ys : ainv s cs -> i <> j -> nth_error cs i = Some (Some (al0, xs)) ->
  nth_error cs j = Some (Some (al, ys)) ->
  exists s', v_move_assign A T left_of i j s = Ok tt s' /\ ainv s' (upd (upd cs i (Some (al, ys))) j (Some (left_of al, []))).
Proof.
  intros I N E Ej. unfold v_move_assign. destruct (Nat.eqb_spec i j) as [|_]; [contradiction|].
  destruct (free_spec s cs i al0 xs I E) as (m & v & Ef & I1). destruct (inv_at _ _ _ _ I E) as (v0 & Ev & _).
  destruct (the_vec_spec _ _ _ _ _ I Ej) as (w & _ & Hw).
  erewrite bind_ok by exact Ef. unfold the_vec at 1. unfold bind at 1. cbn [after av_slots].
  rewrite nth_error_upd_neq by auto. rewrite Hw. eexists. split; [reflexivity|]. cbn [after av_mem av_own av_slots av_al av_v].
  rewrite upd_upd_same.
  pose proof (inv_take _ _ i j al0 al w ys I1 N) as K. cbn [after av_mem av_own av_slots] in K. rewrite !upd_upd_same in K.
  apply K; try (eapply nth_upd_same; eauto; fail); rewrite nth_error_upd_neq by auto; assumption.
Qed.
Lemma move_self_spec s cs i p : ainv s cs -> nth_error cs i = Some (Some p) -> v_move_assign A T left_of i i s = Ok tt s.
Proof.
  intros I E. unfold v_move_assign. rewrite Nat.eqb_refl. destruct p as [al xs]. destruct (the_vec_spec _ _ _ _ _ I E) as (v & Ev & _).
  erewrite bind_ok by exact Ev. reflexivity.
Qed.

Lemma inv_more s cs : ainv s cs -> ainv (mkAvs (av_mem s) (av_own s) (av_slots s ++ [None])) (cs ++ [None]).
Proof.
  intros [IL IA IF IO IS]. split; cbn [av_mem av_own av_slots]; [exact IL| | | |exact IS].
  - apply Forall2_app; [exact IA|]. constructor; [exact Logic.I|constructor].
  - rewrite !map_app. cbn [map vec_in cont_in]. destruct IF as (HH & H1 & H2). split; [|split].
    + apply Forall2_app; [exact HH|]. constructor; [apply holds_init|constructor].
    + intros i j v w b Hv Hw Ov Ow.
      assert (forall k u, nth_error (map vec_in (av_slots s) ++ [init_pv]) k = Some u -> owner u = Some b -> nth_error (map vec_in (av_slots s)) k = Some u) as G.
      { intros k u Hk Ok. destruct (Nat.lt_ge_cases k (length (map vec_in (av_slots s)))) as [L|L].
        - now rewrite nth_error_app1 in Hk by exact L.
        - rewrite nth_error_app2 in Hk by exact L. destruct (k - length (map vec_in (av_slots s))) as [|[|]]; cbn in Hk; try discriminate.
          injection Hk as <-. discriminate. }
      eapply H1; eauto.
    + intros b Hb Hno. apply H2; [exact Hb|]. intros v Hv. apply Hno. apply in_or_app. now left.
  - intros i a Ha. destruct (Nat.lt_ge_cases i (length (av_slots s))) as [L|L].
    + rewrite nth_error_app1 in Ha by exact L. eauto.
    + rewrite nth_error_app2 in Ha by exact L. destruct (i - length (av_slots s)) as [|[|]]; cbn in Ha; try discriminate.
      injection Ha as <-. intros b Hb. discriminate.
Qed.
Lemma inv_less m own l cs : ainv (mkAvs m own (l ++ [None])) (cs ++ [None]) -> ainv (mkAvs m own l) cs.
Proof.
  intros [IL IA IF IO IS]. cbn [av_mem av_own av_slots] in *.
  assert (length l = length cs) as L by (pose proof (Forall2_len _ _ _ IA) as K; rewrite !app_length in K; cbn in K; lia).
  split; cbn [av_mem av_own av_slots]; [exact IL| | | |exact IS].
  - apply Forall2_intro; [exact L|]. intros i a c Ha Hc. eapply Forall2_get; [exact IA| |]; apply nth_app_none; eauto.
  - rewrite !map_app in IF. cbn [map vec_in cont_in] in IF. destruct IF as (HH & H1 & H2). split; [|split].
    + apply Forall2_intro; [now rewrite !map_length|]. intros i a c Ha Hc. eapply Forall2_get; [exact HH| |].
      * rewrite nth_error_app1; [exact Ha|]. eapply nth_lt; eauto.
      * rewrite nth_error_app1; [exact Hc|]. eapply nth_lt; eauto.
    + intros i j v w b Hv Hw Ov Ow. eapply (H1 i j v w b); eauto; (rewrite nth_error_app1; [assumption|]; eapply nth_lt; eauto).
    + intros b Hb Hno. apply H2; [exact Hb|]. intros v Hv. apply in_app_or in Hv. destruct Hv as [Hv|[<-|[]]]; [auto|discriminate].
  - intros i a Ha. apply (IO i a). now apply nth_app_none.
Qed.

Lemma nth_upd {B} (l : list B) i x k : nth_error (upd l i x) k = if k =? i then (if i <? length l then Some x else None) else nth_error l k.
Proof.
  destruct (Nat.eqb_spec k i) as [->|N]; [|now rewrite nth_error_upd_neq by auto].
  destruct (Nat.ltb_spec i (length l)) as [L|L]; [now apply nth_error_upd_eq|]. apply nth_error_None. rewrite upd_length. lia.
Qed.
Lemma list_ext {B} (l l' : list B) : (forall k, nth_error l k = nth_error l' k) -> l = l'.
Proof.
  revert l'. induction l as [|x l IH]; intros [|y l'] H; [reflexivity|discriminate (H 0)|discriminate (H 0)|].
  f_equal; [now injection (H 0)|]. apply IH. intros k. apply (H (S k)).
Qed.

Lemma swap_spec s cs i j x y : ainv s cs -> nth_error cs i = Some (Some x) -> nth_error cs j = Some (Some y) ->
  exists s', v_swap A T left_of i j s = Ok tt s' /\ ainv s' (upd (upd cs i (Some y)) j (Some x)).
Proof.
  intros I Ei Ej. destruct x as [ali xs], y as [alj ys].
  pose proof (Forall2_len _ _ _ (i_agree _ _ I)) as L. pose proof (nth_lt _ _ _ Ei) as Li. pose proof (nth_lt _ _ _ Ej) as Lj.
  pose proof (inv_more _ _ I) as I0. set (s0 := mkAvs _ _ (_ ++ _)) in I0. set (t := length (av_slots s)).
  assert (nth_error (cs ++ [None]) t = Some None) as Et.
  { unfold t. rewrite nth_error_app2 by lia. now rewrite L, Nat.sub_diag. }
  pose proof (nth_app_none _ _ _ Ei) as Ei0. pose proof (nth_app_none _ _ _ Ej) as Ej0.
  destruct (move_new_spec s0 _ t j alj ys I0 Et Ej0) as (s1 & E1 & I1).
  assert (length (cs ++ [None]) = S t) as Lc by (rewrite app_length; cbn; unfold t; lia).
  assert (exists s2 cs2, v_move_assign A T left_of j i s1 = Ok tt s2 /\ ainv s2 cs2 /\ length cs2 = S t /\
    (exists al0 xs0, nth_error cs2 i = Some (Some (al0, xs0))) /\ nth_error cs2 t = Some (Some (alj, ys)) /\
    (i <> j -> nth_error cs2 j = Some (Some (ali, xs))) /\
    (forall k, k <> i -> k <> j -> k <> t -> nth_error cs2 k = nth_error (cs ++ [None]) k)) as (s2 & cs2 & E2 & I2 & L2 & (al0 & xs0 & C2) & T2 & J2 & K2).
  { destruct (Nat.eq_dec j i) as [e|ne].
    - subst j. eexists s1, _. split; [eapply move_self_spec; eauto|].
      { rewrite nth_upd, Nat.eqb_refl, !upd_length, Lc. destruct (Nat.ltb_spec i (S t)); [reflexivity|unfold t in *; lia]. }
      split; [exact I1|]. split; [now rewrite !upd_length|]. split; [|split; [|split]].
      + do 2 eexists. rewrite nth_upd, Nat.eqb_refl, !upd_length, Lc. destruct (Nat.ltb_spec i (S t)); [reflexivity|unfold t in *; lia].
      + rewrite !nth_upd, Nat.eqb_refl, !upd_length, Lc. destruct (Nat.eqb_spec t i); [unfold t in *; lia|].
        destruct (Nat.ltb_spec t (S t)); [reflexivity|lia].
      + congruence.
      + intros k K1 K2 K3. rewrite !nth_upd. destruct (Nat.eqb_spec k i); [lia|]. destruct (Nat.eqb_spec k t); [lia|]. reflexivity.
    - destruct (move_assign_spec s1 _ j i (left_of alj) [] ali xs I1 ne) as (s2 & E2 & I2).
      { rewrite nth_upd, Nat.eqb_refl, !upd_length, Lc. destruct (Nat.ltb_spec j (S t)); [reflexivity|unfold t in *; lia]. }
      { rewrite !nth_upd. destruct (Nat.eqb_spec i j); [lia|]. destruct (Nat.eqb_spec i t); [unfold t in *; lia|]. exact Ei0. }
      eexists s2, _. split; [exact E2|]. split; [exact I2|]. split; [now rewrite !upd_length|]. split; [|split; [|split]].
      + do 2 eexists. rewrite nth_upd, Nat.eqb_refl, !upd_length, Lc. destruct (Nat.ltb_spec i (S t)); [reflexivity|unfold t in *; lia].
      + rewrite !nth_upd, Nat.eqb_refl, !upd_length, Lc. destruct (Nat.eqb_spec t i); [unfold t in *; lia|].
        destruct (Nat.eqb_spec t j); [unfold t in *; lia|]. destruct (Nat.ltb_spec t (S t)); [reflexivity|lia].
      + intros _. rewrite !nth_upd, Nat.eqb_refl, !upd_length, Lc. destruct (Nat.eqb_spec j i); [lia|].
        destruct (Nat.ltb_spec j (S t)); [reflexivity|unfold t in *; lia].
      + intros k K1 K2 K3. rewrite !nth_upd. destruct (Nat.eqb_spec k i); [lia|]. destruct (Nat.eqb_spec k j); [lia|].
        destruct (Nat.eqb_spec k t); [lia|]. reflexivity. }
  destruct (move_assign_spec s2 cs2 i t al0 xs0 alj ys I2 ltac:(unfold t; lia) C2 T2) as (s3 & E3 & I3).
  destruct (destroy_spec s3 _ t (left_of alj) [] I3) as (s4 & E4 & I4).
  { rewrite nth_upd, Nat.eqb_refl, !upd_length, L2. destruct (Nat.ltb_spec t (S t)); [reflexivity|lia]. }
  rewrite upd_upd_same in I4.
  assert (upd (upd cs2 i (Some (alj, ys))) t None = upd (upd cs i (Some (alj, ys))) j (Some (ali, xs)) ++ [None]) as Ecs.
  { apply list_ext. intros k. rewrite !nth_upd, !upd_length, L2.
    destruct (Nat.eqb_spec k t) as [->|Nt].
    - destruct (Nat.ltb_spec t (S t)); [|lia]. rewrite nth_error_app2 by (rewrite !upd_length; unfold t; lia).
      rewrite !upd_length. unfold t. now rewrite L, Nat.sub_diag.
    - destruct (Nat.lt_ge_cases k t) as [Lt|Ge].
      + rewrite nth_error_app1 by (rewrite !upd_length; unfold t in *; lia). rewrite !nth_upd, !upd_length.
        destruct (Nat.ltb_spec i (S t)); [|unfold t in *; lia]. destruct (Nat.ltb_spec i (length cs)); [|lia]. destruct (Nat.ltb_spec j (length cs)); [|lia].
        destruct (Nat.eqb_spec k i) as [->|Ni].
        * destruct (Nat.eqb_spec i j) as [e|]; [|reflexivity]. subst j. congruence.
        * destruct (Nat.eqb_spec k j) as [->|Nj]; [apply J2; lia|]. rewrite K2 by auto. apply nth_error_app1. unfold t in *. lia.
      + destruct (Nat.eqb_spec k i) as [->|Ni]; [unfold t in *; lia|].
        assert (nth_error cs2 k = None) as -> by (apply nth_error_None; lia).
        symmetry. apply nth_error_None. rewrite app_length, !upd_length. cbn. unfold t in *. lia. }
  rewrite Ecs in I4.
  assert (av_slots s4 = firstn t (av_slots s4) ++ [None]) as Es4.
  { pose proof (Forall2_len _ _ _ (i_agree _ _ I4)) as L4. rewrite app_length, !upd_length in L4. cbn [length] in L4.
    rewrite <- (firstn_skipn t (av_slots s4)) at 1. f_equal.
    assert (nth_error (av_slots s4) t = Some None) as N4.
    { eapply inv_none; [exact I4|]. rewrite nth_error_app2 by (rewrite !upd_length; unfold t; lia).
      rewrite !upd_length. unfold t. now rewrite L, Nat.sub_diag. }
    assert (length (skipn t (av_slots s4)) = 1) as L5 by (rewrite skipn_length; unfold t in *; lia).
    destruct (skipn t (av_slots s4)) as [|z [|]] eqn:Ez; try discriminate. f_equal.
    assert (nth_error (skipn t (av_slots s4)) 0 = Some None) as Hz.
    { rewrite <- (firstn_skipn t (av_slots s4)) in N4. rewrite nth_error_app2 in N4 by (rewrite firstn_length; lia).
      rewrite firstn_length in N4. replace (t - Nat.min t (length (av_slots s4))) with 0 in N4 by (unfold t in *; lia). exact N4. }
    rewrite Ez in Hz. now injection Hz. }
  exists (mkAvs (av_mem s4) (av_own s4) (firstn t (av_slots s4))). split.
  - unfold v_swap, with_tmp. fold t. fold s0. erewrite bind_ok by exact E1. erewrite bind_ok by exact E2. erewrite bind_ok by exact E3. now rewrite E4.
  - destruct s4 as [m4 o4 l4]. cbn [av_mem av_own av_slots] in *. rewrite Es4 in I4. now apply inv_less in I4.
Qed.

Lemma on_vec_same {R} (f : M pst R) s i al v r v' :
  length (av_own s) = length (blks (av_mem s)) -> nth_error (av_slots s) i = Some (Some (mkAv al v)) ->
  f (av_mem s, v) = Ok r (av_mem s, v') -> on_vec i f s = Ok r (mkAvs (av_mem s) (av_own s) (upd (av_slots s) i (Some (mkAv al v')))).
Proof.
  intros L E Ef. unfold on_vec. rewrite E. cbn [av_v av_al]. rewrite Ef. rewrite altered_own_ok.
  - rewrite L, Nat.sub_diag. cbn [repeat]. now rewrite app_nil_r.
  - intros j x y Hx Hy Al. rewrite Hx in Hy. injection Hy as <-. rewrite altered_same in Al. discriminate.
Qed.
Lemma on_vec_look {R} (f : M pst R) s i al v r :
  length (av_own s) = length (blks (av_mem s)) -> nth_error (av_slots s) i = Some (Some (mkAv al v)) ->
  f (av_mem s, v) = Ok r (av_mem s, v) -> on_vec i f s = Ok r s.
Proof. intros L E Ef. erewrite on_vec_same by eauto. rewrite (upd_id _ _ _ E). now destruct s. Qed.

(** recast_copy_from and recast_take_from from another vector. *)
Lemma same_count n : (N.of_nat n * N.of_nat (esz T) < two64)%N -> (e2b T (N.of_nat n) / N.of_nat (esz T))%N = N.of_nat n.
Proof.
  intros H. destruct HT as (Hs & _). unfold e2b. rewrite N.mod_small by exact H. apply N.div_mul. lia.
Qed.
Lemma recast_copy_ok s cs i j al al' xs ys : ainv s cs -> i <> j -> nth_error cs i = Some (Some (al, xs)) ->
  nth_error cs j = Some (Some (al', ys)) -> room T (length ys) ->
  exists s', v_recast_copy A T i j s = Ok tt s' /\ ainv s' (upd cs i (Some (al, ys))).
Proof.
  intros I N E Ej Hr. destruct (inv_at _ _ _ _ I E) as (v & Ev & Hv & _). cbn [fst snd] in *.
  destruct (av_mem s) as [bs k] eqn:Em. cbn [blks] in *.
  destruct (pclear_spec A T HT bs k v xs Hv) as (v' & Ef & H & F & _).
  destruct (on_vec_spec pclear s cs i al v xs tt (mkMem bs k) v' [] I Ev E) as (s1 & E1 & I1 & _); rewrite ?Em; auto.
  unfold v_recast_copy. erewrite bind_ok by exact E1. clear E1.
  assert (nth_error (upd cs i (Some (al, []))) j = Some (Some (al', ys))) as Ej1 by (rewrite nth_error_upd_neq; auto).
  pose proof (nth_upd_same cs i (Some (al, [])) _ E) as C1.
  destruct (inv_at _ _ _ _ I1 Ej1) as (w & Ew & Hw & _). cbn [fst snd] in *.
  destruct (holds_parts A T HT _ _ _ Hw) as (rest & Hy & Hb & He & _ & _ & Hlen & Hn0 & _).
  assert (psize T (av_mem s1, w) = Ok (length ys) (av_mem s1, w)) as Ps by (destruct (av_mem s1); now apply (psize_spec T HT _ _ (length ys))).
  erewrite bind_ok by (eapply on_vec_read; eauto).
  erewrite bind_ok by (eapply (on_vec_read mbegin); eauto; reflexivity). cbn [snd].
  rewrite same_count, Nat2N.id by (pose proof (room_self T _ Hr) as RS; unfold two63, two64 in *; lia).
  destruct (assign_spec s1 _ i al [] ys I1 C1 Hy Hr) as (s' & E' & I'). rewrite upd_upd_same in I'.
  exists s'. split; [|exact I']. cbv zeta. destruct (Nat.eqb_spec (length ys) 0) as [E0|E0].
  - apply length_zero_iff_nil in E0. subst ys. unfold bind at 1, ret at 1. exact E'.
  - erewrite bind_ok; [exact E'|]. erewrite bind_ok.
    2:{ eapply (on_vec_read (read_bytes _ _)); eauto. destruct (av_mem s1) as [bs1 k1]. cbn [blks] in *. rewrite (begin_raw w).
        eapply (read_raw A T bs1 k1 w w [] (concat ys) rest); auto.
        now apply concat_length_elems. }
    unfold ret. rewrite chunks_concat by exact Hy. reflexivity.
Qed.
Lemma cap_sizable s cs j al ys v : ainv s cs -> nth_error cs j = Some (Some (al, ys)) -> nth_error (av_slots s) j = Some (Some (mkAv al v)) ->
  (N.of_nat (pcap v) * N.of_nat (esz T) < two64)%N.
Proof.
  intros I E Ev. destruct (inv_at _ _ _ _ I E) as (w & Ew & Hw & _). rewrite Ev in Ew. injection Ew as <-. cbn [fst snd] in Hw.
  destruct (holds_parts A T HT _ _ _ Hw) as (rest & Hy & Hb & He & _ & Hcl & Hlen & Hn0 & Hc0).
  destruct (pb v) as [[b o]|] eqn:Pb; [|rewrite Hc0 by reflexivity; reflexivity].
  unfold PodVectorSpec.buf in Hb. rewrite Pb in Hb. destruct Hb as (ad & pre & Hn & _).
  pose proof (nth_sizable _ _ _ (i_small _ _ I) Hn) as S. cbn in S. rewrite app_length in S. nia.
Qed.
Lemma recast_take_ok s cs i j al0 xs al ys : ainv s cs -> i <> j -> nth_error cs i = Some (Some (al0, xs)) ->
  nth_error cs j = Some (Some (al, ys)) ->
  exists s', v_recast_take A T left_of i j s = Ok tt s' /\ ainv s' (upd (upd cs i (Some (al, ys))) j (Some (left_of al, []))).
Proof.
  intros I N E Ej. unfold v_recast_take.
  destruct (free_spec s cs i al0 xs I E) as (m & v & Ef & I1). destruct (inv_at _ _ _ _ I E) as (v0 & Ev & _).
  destruct (the_vec_spec _ _ _ _ _ I Ej) as (w & _ & Hw).
  assert (nth_error (upd cs i (Some (al0, []))) j = Some (Some (al, ys))) as Ej1 by (rewrite nth_error_upd_neq; auto).
  assert (forall u, nth_error (av_slots (after s i al0 m u)) j = Some (Some (mkAv al w))) as Hj
    by (intros u; cbn [after av_slots]; rewrite nth_error_upd_neq; auto).
  assert (forall u, nth_error (av_slots (after s i al0 m u)) i = Some (Some (mkAv al0 u))) as Hi
    by (intros u; cbn [after av_slots]; eapply nth_upd_same; eauto).
  assert (forall u, length (av_own (after s i al0 m u)) = length (blks (av_mem (after s i al0 m u)))) as HL by (intros u; apply (i_len _ _ I1)).
  assert (forall u u', mkAvs (av_mem (after s i al0 m u)) (av_own (after s i al0 m u)) (upd (av_slots (after s i al0 m u)) i (Some (mkAv al0 u'))) = after s i al0 m u') as Hu
    by (intros u u'; cbn [after av_mem av_own av_slots]; now rewrite upd_upd_same).
  destruct (inv_at _ _ _ _ I1 Ej1) as (w' & Ew & Hold & _). cbn [fst snd] in *. rewrite Hj in Ew. injection Ew as <-.
  pose proof (cap_sizable _ _ _ _ _ _ I1 Ej1 (Hj init_pv)) as Sc.
  destruct (holds_parts A T HT _ _ _ Hold) as (rest & Hy & Hb & He & Hlc & Hcl & Hlen & Hn0 & Hc0).
  change (av_mem (after s i al0 m init_pv)) with m in Hold, Hb.
  assert (N.of_nat (length ys) * N.of_nat (esz T) < two64)%N as Sl by nia.
  erewrite bind_ok by exact Ef. cbn [after av_mem] in *.
  erewrite bind_ok by (eapply (on_vec_look (psize T)); eauto; apply (psize_spec T HT _ _ (length ys)); auto).
  erewrite bind_ok by (eapply (on_vec_look mbegin); eauto; reflexivity). cbn [snd].
  erewrite bind_ok by (eapply (on_vec_same (set_begin _)); eauto; reflexivity). rewrite Hu. cbn [snd fst].
  rewrite same_count by exact Sl.
  erewrite bind_ok.
  2:{ eapply (on_vec_same (end_at _ _)); eauto. unfold end_at, mbegin. unfold bind at 1. cbn [snd pb].
      destruct m as [bs k]. cbn [blks after av_mem] in *. rewrite (begin_raw w). erewrite bind_ok.
      2:{ eapply (padd_raw A T bs k w _ _ 0); [exact Hb|]. rewrite Hlen. lia. }
      reflexivity. }
  rewrite Hu. cbn [snd fst pb pe pcap].
  erewrite bind_ok by (eapply (on_vec_look mcap); eauto; reflexivity). cbn [snd].
  erewrite bind_ok by (eapply (on_vec_same (set_cap _)); eauto; reflexivity). rewrite Hu. cbn [snd fst pb pe pcap].
  assert (((N.of_nat (esz T) * N.of_nat (pcap w)) mod two64 / N.of_nat (esz T))%N = N.of_nat (pcap w)) as ->.
  { rewrite (N.mul_comm (N.of_nat (esz T))). now apply same_count. }
  rewrite Nat2N.id. replace (0 + N.to_nat (N.of_nat (length ys) * N.of_nat (esz T))) with (length ys * esz T) by lia.
  rewrite <- He, <- (begin_raw w).
  assert (mkPv (pb w) (pe w) (pcap w) = w) as -> by now destruct w.
  unfold the_vec at 1. unfold bind at 1. rewrite Hi. unfold the_vec at 1. unfold bind at 1. rewrite Hj.
  unfold put_vec at 1. unfold bind at 1. unfold the_vec at 1. unfold bind at 1. cbn [av_slots av_al av_v av_mem av_own].
  rewrite nth_error_upd_neq by auto. rewrite Hj. destruct (Nat.eqb_spec i j) as [|_]; [contradiction|].
  eexists. split; [reflexivity|]. cbn [after av_mem av_own av_slots av_al av_v].
  rewrite upd_upd_same.
  pose proof (inv_take _ _ i j al0 al w ys I1 N) as K. cbn [after av_mem av_own av_slots] in K. rewrite !upd_upd_same in K.
  apply K; try (eapply nth_upd_same; eauto; fail); rewrite nth_error_upd_neq by auto; assumption.
Qed.

Lemma a_call_spec s cs o : ainv s cs -> a_ok T cs o ->
  exists r s' cs', a_call A T early left_of o s = Ok r s' /\ a_step A T left_of cs o cs' (answer r) /\ ainv s' cs'.
Proof.
  intros I Ho.
  assert (forall (f : M avs unit) s' cs', f s = Ok tt s' -> ainv s' cs' -> a_step A T left_of cs o cs' RNone -> a_call A T early left_of o = no_answer f ->
    exists r s' cs', a_call A T early left_of o s = Ok r s' /\ a_step A T left_of cs o cs' (answer r) /\ ainv s' cs') as Go.
  { intros f s' cs' E I' S ->. exists None, s', cs'. unfold no_answer. erewrite bind_ok by exact E. auto. }
  destruct o as [i al|i al n|i al n x|i al l|i j|i j al|i j|i|i o|i j|i j|i j|i j|i j]; cbn [a_ok] in Ho.
  - destruct (put_new s cs i al I Ho) as (s' & E & I' & _). eapply Go; eauto. constructor.
  - destruct Ho as (V & R). destruct (new_count_spec s cs i al n I V R) as (s' & xs & E & I' & S). eapply Go; eauto. now constructor.
  - destruct Ho as (V & X & R). destruct (new_fill_spec s cs i al n x I V X R) as (s' & E & I'). eapply Go; eauto. constructor.
  - destruct Ho as (V & X & R). destruct (new_range_spec s cs i al l I V X R) as (s' & E & I'). eapply Go; eauto. constructor.
  - destruct Ho as (V & al & ys & Ej & R). destruct (copy_new_with_spec s cs i j al al ys I V Ej R) as (s' & E & I').
    eapply Go; [|exact I'|now constructor|reflexivity]. unfold v_copy_new.
    destruct (the_vec_spec _ _ _ _ _ I Ej) as (v & Ev & _). erewrite bind_ok by exact Ev. exact E.
  - destruct Ho as (V & al' & ys & Ej & R). destruct (copy_new_with_spec s cs i j al al' ys I V Ej R) as (s' & E & I'). eapply Go; eauto. econstructor; eauto.
  - destruct Ho as (V & [al ys] & Ej). destruct (move_new_spec s cs i j al ys I V Ej) as (s' & E & I'). eapply Go; eauto. now constructor.
  - destruct Ho as ([al xs] & Ei). destruct (destroy_spec s cs i al xs I Ei) as (s' & E & I'). eapply Go; eauto. constructor.
  - destruct Ho as (al & xs & Ei & Hok). destruct (inv_at _ _ _ _ I Ei) as (v & Ev & Hv & _). cbn [fst snd] in *.
    destruct (av_mem s) as [bs k] eqn:Em. cbn [blks] in *.
    destruct (pcall_spec A T HT HA early o bs k v xs Hv Hok) as (r & bs' & k' & v' & xs' & Ef & S & H & F).
    destruct (on_vec_spec (pcall A T early o) s cs i al v xs r (mkMem bs' k') v' xs' I Ev Ei) as (s' & E' & I' & _); rewrite ?Em; auto.
    exists r, s', (upd cs i (Some (al, xs'))). cbn [a_call]. split; [exact E'|]. split; [econstructor; eauto|exact I'].
  - destruct Ho as (([al xs] & Ei) & al' & ys & Ej & R). destruct (copy_assign_spec s cs i j al al' xs ys I Ei Ej R) as (s' & E & I'). eapply Go; eauto. econstructor; eauto.
  - destruct Ho as (([al xs] & Ei) & [al' ys] & Ej). destruct (Nat.eq_dec i j) as [<-|N].
    + eapply Go; [eapply move_self_spec; eauto|exact I|constructor|reflexivity].
    + destruct (move_assign_spec s cs i j al xs al' ys I N Ei Ej) as (s' & E & I'). eapply Go; eauto. now constructor.
  - destruct Ho as ((x & Ei) & y & Ej). destruct (swap_spec s cs i j x y I Ei Ej) as (s' & E & I'). eapply Go; eauto. now constructor.
  - destruct Ho as (N & ([al xs] & Ei) & al' & ys & Ej & R). destruct (recast_copy_ok s cs i j al al' xs ys I N Ei Ej R) as (s' & E & I').
    eapply Go; eauto. econstructor; eauto.
  - destruct Ho as (N & ([al xs] & Ei) & [al' ys] & Ej). destruct (recast_take_ok s cs i j al xs al' ys I N Ei Ej) as (s' & E & I').
    eapply Go; eauto. now constructor.
Qed.

Lemma a_history_spec os : forall s cs, ainv s cs -> a_along A T left_of cs os ->
  exists s' cs' rs, run_calls (a_call A T early left_of) s os = Some (s', rs) /\ a_history A T left_of cs os cs' rs /\ ainv s' cs'.
Proof.
  induction os as [|o os IH]; intros s cs I Al; [exists s, cs, []; split; [reflexivity|]; split; [constructor|exact I]|].
  destruct Al as (Ok & Al). destruct (a_call_spec s cs o I Ok) as (r & s1 & cs1 & E & S & I1).
  destruct (IH s1 cs1 I1 (Al _ _ S)) as (s' & cs' & rs & E' & H & I').
  exists s', cs', (answer r :: rs). cbn [run_calls]. rewrite E. split; [destruct r; cbn; now rewrite E'|]. split; [econstructor; eauto|exact I'].
Qed.
Lemma a_step_length cs o cs' r : a_step A T left_of cs o cs' r -> length cs' = length cs.
Proof. intros H. inversion H; subst; rewrite ?upd_length; reflexivity. Qed.
Lemma a_history_length cs os cs' rs : a_history A T left_of cs os cs' rs -> length cs' = length cs.
Proof. induction 1 as [|? ? ? ? ? ? ? S _ IH]; [reflexivity|]. apply a_step_length in S. congruence. Qed.

Lemma allocators_spec s cs : ainv s cs -> allocators s = allocators_of cs.
Proof.
  intros I. pose proof (i_agree _ _ I) as H. unfold allocators, allocators_of.
  clear I. revert H. generalize (av_slots s). intros l H. induction H as [|a c l l' G _ IH]; cbn [map]; [reflexivity|]. rewrite IH. f_equal.
  destruct a as [a|], c as [[al xs]|]; cbn in G; [now rewrite G|contradiction|contradiction|reflexivity].
Qed.
Lemma reads_spec s cs i al xs : ainv s cs -> nth_error cs i = Some (Some (al, xs)) -> reads A T s i xs.
Proof.
  intros I E. destruct (inv_at _ _ _ _ I E) as (v & Ev & Hv & _). cbn [fst snd] in *.
  exists (mkAv al v). split; [exact Ev|]. cbn [av_v]. destruct (av_mem s) as [bs k]. cbn [blks] in Hv.
  destruct (holds_parts A T HT _ _ _ Hv) as (rest & _ & _ & He & _ & _ & _ & Hn0 & _). split.
  - now apply psize_spec.
  - intros j x Hj. eapply (pat_spec A T HT); eauto.
Qed.
Lemma memory_spec s cs : ainv s cs -> forall i a b off, nth_error (av_slots s) i = Some (Some a) -> pb (av_v a) = Some (b, off) ->
  exists o, nth_error (av_own s) b = Some (av_al a) /\ nth_error (blks (av_mem s)) b = Some o /\ forall x, o <> MFreed x.
Proof.
  intros I i a b off Ea Hb. pose proof (i_own _ _ I i _ Ea b) as O. unfold owner in O. cbn [vec_in] in O. rewrite Hb in O.
  specialize (O eq_refl). pose proof (Forall2_len _ _ _ (i_agree _ _ I)) as L. pose proof (nth_lt _ _ _ Ea) as Li.
  destruct (nth_in cs i ltac:(lia)) as (c & Ec). pose proof (Forall2_get _ _ _ _ _ _ (i_agree _ _ I) Ea Ec) as G.
  destruct c as [[al xs]|]; cbn in G; [|contradiction].
  destruct (inv_at _ _ _ _ I Ec) as (v & Ev & Hv & _). rewrite Ea in Ev. injection Ev as ->. cbn [fst snd av_v av_al] in *.
  destruct Hv as (_ & rest & Hbuf & _). unfold buf in Hbuf. rewrite Hb in Hbuf. destruct Hbuf as (ad & pre & Hn & _).
  eexists. split; [exact O|]. split; [exact Hn|]. discriminate.
Qed.
Lemma all_freed_spec s cs : ainv s cs -> (forall i, i < length cs -> nth_error cs i = Some None) ->
  Forall (fun b => exists a, b = MFreed a) (blks (av_mem s)).
Proof.
  intros I H. pose proof (i_fam _ _ I) as (_ & _ & HF). pose proof (Forall2_len _ _ _ (i_agree _ _ I)) as L.
  apply Forall_forall. intros x Hx. apply In_nth_error in Hx. destruct Hx as (b & Hb).
  destruct (HF b (nth_lt _ _ _ Hb)) as (a & Ha); [|exists a; congruence].
  intros v Hv. apply in_map_iff in Hv. destruct Hv as (a & <- & Ha). apply In_nth_error in Ha. destruct Ha as (i & Ha).
  pose proof (nth_lt _ _ _ Ha) as Li. assert (nth_error (av_slots s) i = Some None) as E by (eapply inv_none; [exact I|]; apply H; lia).
  rewrite E in Ha. injection Ha as <-. discriminate.
Qed.

(** ** A vector and itself *)
Lemma self_assign s cs i al xs : ainv s cs -> nth_error cs i = Some (Some (al, xs)) ->
  v_copy_assign A T i i s = Ok tt s /\ v_move_assign A T left_of i i s = Ok tt s.
Proof.
  intros I E. unfold v_copy_assign, v_move_assign. rewrite Nat.eqb_refl.
  destruct (the_vec_spec _ _ _ _ _ I E) as (v & Ev & _). split; (erewrite bind_ok by exact Ev; reflexivity).
Qed.
Lemma self_swap s cs i al xs : ainv s cs -> nth_error cs i = Some (Some (al, xs)) ->
  exists s', v_swap A T left_of i i s = Ok tt s' /\ ainv s' cs.
Proof.
  intros I E. destruct (swap_spec s cs i i _ _ I E E) as (s' & E' & I'). exists s'. split; [exact E'|].
  rewrite upd_upd_same, (upd_id _ _ _ E) in I'. exact I'.
Qed.
Lemma self_recast_copy s cs i al xs : ainv s cs -> nth_error cs i = Some (Some (al, xs)) -> room T 0 ->
  exists s', v_recast_copy A T i i s = Ok tt s' /\ ainv s' (upd cs i (Some (al, []))).
Proof.
  intros I E R. destruct (inv_at _ _ _ _ I E) as (v & Ev & Hv & _). cbn [fst snd] in *.
  destruct (av_mem s) as [bs k] eqn:Em. cbn [blks] in *.
  destruct (pclear_spec A T HT bs k v xs Hv) as (v' & Ef & H & F & _).
  destruct (on_vec_spec pclear s cs i al v xs tt (mkMem bs k) v' [] I Ev E) as (s1 & E1 & I1 & _); rewrite ?Em; auto.
  unfold v_recast_copy. erewrite bind_ok by exact E1. clear E1.
  pose proof (nth_upd_same cs i (Some (al, [])) _ E) as C1.
  destruct (inv_at _ _ _ _ I1 C1) as (w & Ew & Hw & _). cbn [fst snd] in *.
  destruct (holds_parts A T HT _ _ _ Hw) as (rest & _ & _ & He & _ & _ & _ & Hn0 & _).
  assert (psize T (av_mem s1, w) = Ok 0 (av_mem s1, w)) as Ps by (destruct (av_mem s1); now apply (psize_spec T HT _ _ 0)).
  erewrite bind_ok by (eapply on_vec_read; eauto).
  erewrite bind_ok by (eapply (on_vec_read mbegin); eauto; reflexivity).
  assert (N.to_nat (e2b T (N.of_nat 0) / N.of_nat (esz T)) = 0) as ->.
  { unfold e2b. cbn [N.of_nat]. rewrite N.mul_0_l. reflexivity. }
  cbn [Nat.eqb]. unfold bind at 1, ret at 1.
  destruct (assign_spec s1 _ i al [] [] I1 C1 ltac:(constructor) R) as (s' & E' & I'). rewrite upd_upd_same in I'. eauto.
Qed.
Lemma self_recast_take s cs i al xs : ainv s cs -> nth_error cs i = Some (Some (al, xs)) -> xs <> [] ->
  v_recast_take A T left_of i i s = UB.
Proof.
  intros I E Hx. destruct (inv_at _ _ _ _ I E) as (v & Ev & Hv & O). cbn [fst snd] in *.
  destruct (av_mem s) as [bs k] eqn:Em. cbn [blks] in *.
  destruct (holds_parts A T HT _ _ _ Hv) as (rest & _ & Hb & He & _ & _ & _ & Hn0 & _).
  destruct (pb v) as [[b o]|] eqn:Pb; [|destruct xs; [congruence|discriminate (Hn0 eq_refl)]].
  destruct (a_free_spec A T bs k v _ Hb) as (bs' & Ef & HL & HK & HF).
  unfold v_recast_take.
  assert (on_vec i (a_free_begin A T) s = Ok tt (after s i al (mkMem bs' k) v)) as E1.
  { eapply on_vec_ok; eauto; rewrite Em; eauto. eapply freed_frame; eauto. }
  erewrite bind_ok by exact E1. clear E1.
  destruct (HF b) as (ad & Hfr); [unfold owner; now rewrite Pb|].
  set (s1 := after s i al (mkMem bs' k) v).
  assert (length (av_own s1) = length (blks (av_mem s1))) as L1.
  { cbn [s1 after av_own av_mem blks]. rewrite app_length, repeat_length, (i_len _ _ I), Em. cbn [blks]. lia. }
  assert (nth_error (av_slots s1) i = Some (Some (mkAv al v))) as V1 by (eapply nth_upd_same; eauto).
  assert (forall u, mkAvs (av_mem s1) (av_own s1) (upd (av_slots s1) i (Some (mkAv al u))) = after s i al (mkMem bs' k) u) as N1.
  { intros u. cbn [s1 after av_mem av_own av_slots]. now rewrite upd_upd_same. }
  erewrite bind_ok by (eapply (on_vec_same (psize T)); eauto; apply (psize_spec T HT _ _ (length xs)); congruence).
  rewrite N1. fold s1.
  erewrite bind_ok by (eapply (on_vec_same mbegin); eauto; reflexivity). rewrite N1. fold s1. cbn [snd]. rewrite Pb.
  erewrite bind_ok by (eapply (on_vec_same (set_begin _)); eauto; reflexivity). rewrite N1. cbn [snd].
  assert (mkPv (Some (b, o)) (pe v) (pcap v) = v) as -> by (destruct v; cbn in *; congruence). fold s1.
  unfold bind at 1. unfold on_vec at 1. rewrite V1. cbn [av_v av_al].
  unfold end_at, mbegin. unfold bind at 1 2. cbn [snd fst]. rewrite Pb. cbn [padd fst s1 after av_mem blks]. now rewrite Hfr.
Qed.

Lemma a_start n k : ainv (mkAvs (mkMem [] k) [] (repeat None n)) (repeat None n).
Proof.
  split; cbn [av_mem av_own av_slots blks]; [reflexivity| | | |].
  - induction n; constructor; [exact Logic.I|assumption].
  - pose proof (fam_start A T n) as F. assert (forall B C (f : B -> C) x, map f (repeat x n) = repeat (f x) n) as G.
    { intros B C f x. clear F. induction n; cbn; congruence. }
    rewrite !G. exact F.
  - intros i a Ha. apply nth_error_In, repeat_spec in Ha. subst. intros b Hb. discriminate.
  - constructor.
Qed.
End Proofs.
