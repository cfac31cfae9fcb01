(** The rule by which the concurrent components are proved: an invariant kept by each action
    of each method, with a ghost state per thread and the calls which have taken effect. *)
From Coq Require Import List Arith Lia Bool Permutation ZArith.
From Verif Require Import Base ConcModel ConcSpec.
Import ListNotations.

Lemma setm_same {A} (f : nat -> A) t x : f t = x -> forall k, setm f t x k = f k.
Proof.
  intros H k. unfold setm. destruct (k =? t) eqn:E; [|reflexivity].
  apply Nat.eqb_eq in E. subst. reflexivity.
Qed.

Section Hist.
Context {VC VR : Type}.
Notation xev := (xevent VC VR).

Lemma erase_app (x y : list xev) : erase (x ++ y) = erase x ++ erase y.
Proof. induction x as [|[] x IH]; simpl; [reflexivity|..]; now rewrite IH. Qed.
Lemma lins_app (x y : list xev) : lins (x ++ y) = lins x ++ lins y.
Proof. induction x as [|[] x IH]; simpl; [reflexivity|..]; now rewrite IH. Qed.

(** The entries of one thread. *)
Definition of_thread {A} (t : nat) (l : list (nat * A)) : list A :=
  map snd (filter (fun p => fst p =? t) l).
Lemma of_thread_app {A} t (l m : list (nat * A)) :
  of_thread t (l ++ m) = of_thread t l ++ of_thread t m.
Proof. unfold of_thread. now rewrite filter_app, map_app. Qed.
Lemma of_thread_one {A} t (a : A) : of_thread t [(t, a)] = [a].
Proof. unfold of_thread; simpl. now rewrite Nat.eqb_refl. Qed.
Lemma of_thread_other {A} t t' (a : A) : t' <> t -> of_thread t [(t', a)] = [].
Proof. intros H. unfold of_thread; simpl. now rewrite (proj2 (Nat.eqb_neq _ _)). Qed.

Fixpoint invs (h : list (event VC VR)) : list (nat * VC) :=
  match h with
  | [] => []
  | EInv t c :: h' => (t, c) :: invs h'
  | ERes _ _ :: h' => invs h'
  end.
Fixpoint ress (h : list (event VC VR)) : list (nat * VR) :=
  match h with
  | [] => []
  | EInv _ _ :: h' => ress h'
  | ERes t r :: h' => (t, r) :: ress h'
  end.
Lemma invs_app h k : invs (h ++ k) = invs h ++ invs k.
Proof. induction h as [|[] h IH]; simpl; [reflexivity|..]; now rewrite IH. Qed.
Lemma ress_app h k : ress (h ++ k) = ress h ++ ress k.
Proof. induction h as [|[] h IH]; simpl; [reflexivity|..]; now rewrite IH. Qed.

Definition lin3 (l : list (nat * VC * VR)) : list (nat * (VC * VR)) :=
  map (fun p => (fst (fst p), (snd (fst p), snd p))) l.
Definition lins_of (t : nat) (x : list xev) : list (VC * VR) := of_thread t (lin3 (lins x)).

Lemma lins_of_app t x y : lins_of t (x ++ y) = lins_of t x ++ lins_of t y.
Proof. unfold lins_of, lin3. now rewrite lins_app, map_app, of_thread_app. Qed.
Lemma lins_of_lin t c r : lins_of t [XLin t c r] = [(c, r)].
Proof. unfold lins_of; simpl. apply of_thread_one. Qed.
Lemma lins_of_other t t' c r : t' <> t -> lins_of t [XLin t' c r] = [].
Proof. intros H. unfold lins_of; simpl. now apply of_thread_other. Qed.

(** The pending call left by a history, for [completed]. *)
Fixpoint cur_from (t : nat) (cur : option VC) (h : list (event VC VR)) : option VC :=
  match h with
  | [] => cur
  | EInv t' c :: h' => cur_from t (if t' =? t then Some c else cur) h'
  | ERes t' r :: h' => cur_from t (if t' =? t then None else cur) h'
  end.
Lemma completed_from_app t cur h k :
  completed_from t cur (h ++ k) =
  completed_from t cur h ++ completed_from t (cur_from t cur h) k.
Proof.
  revert cur; induction h as [|[t' c|t' r] h IH]; intros cur; simpl; [reflexivity|apply IH|].
  destruct (t' =? t); [|apply IH]. destruct cur; simpl; now rewrite IH.
Qed.
Lemma cur_from_app t cur h k : cur_from t cur (h ++ k) = cur_from t (cur_from t cur h) k.
Proof. revert cur; induction h as [|[t' c|t' r] h IH]; intros cur; simpl; auto. Qed.

(** What the history of a thread says, by where it is. *)
Definition tells (t : nat) (x : list xev) (l : lst VC VR) : Prop :=
  let i := of_thread t (invs (erase x)) in
  let o := of_thread t (ress (erase x)) in
  let L := lins_of t x in
  let C := completed t (erase x) in
  let u := cur_from t None (erase x) in
  match l with
  | LFree => i = map fst L /\ o = map snd L /\ C = L /\ u = None
  | LPend c => i = map fst L ++ [c] /\ o = map snd L /\ C = L /\ u = Some c
  | LDone c r => exists L', L = L' ++ [(c, r)] /\ i = map fst L /\ o = map snd L' /\
                            C = L' /\ u = Some c
  end.

Lemma tells_same t x y l :
  invs (erase y) = [] \/ (exists t' c, invs (erase y) = [(t', c)] /\ t' <> t) ->
  ress (erase y) = [] \/ (exists t' c, ress (erase y) = [(t', c)] /\ t' <> t) ->
  lins_of t y = [] -> (forall u, completed_from t u (erase y) = []) ->
  (forall u, cur_from t u (erase y) = u) ->
  tells t x l -> tells t (x ++ y) l.
Proof.
  intros Hi Ho HL HC Hu H.
  assert (of_thread t (invs (erase y)) = []) as Ei.
  { destruct Hi as [->|(t' & c & -> & Hn)]; [reflexivity|now apply of_thread_other]. }
  assert (of_thread t (ress (erase y)) = []) as Eo.
  { destruct Ho as [->|(t' & c & -> & Hn)]; [reflexivity|now apply of_thread_other]. }
  unfold tells, completed in *.
  rewrite erase_app, invs_app, ress_app, !of_thread_app, lins_of_app, completed_from_app,
    cur_from_app, Ei, Eo, HL, HC, Hu, !app_nil_r. exact H.
Qed.

Lemma runs_tells t x l : runs t x l -> tells t x l.
Proof.
  induction 1.
  - simpl; auto.
  - destruct IHruns as (A & B & C & D). unfold tells, completed in *.
    rewrite erase_app, invs_app, ress_app, !of_thread_app, lins_of_app, completed_from_app,
      cur_from_app. simpl. rewrite of_thread_one, Nat.eqb_refl, !app_nil_r, A, B, C.
    now repeat split.
  - destruct IHruns as (A & B & C & D). unfold tells, completed in *.
    rewrite erase_app. simpl. rewrite !app_nil_r, lins_of_app, lins_of_lin.
    exists (lins_of t x). rewrite A, B, C, D, map_app. now repeat split.
  - destruct IHruns as (L' & E & A & B & C & D). unfold tells, completed in *.
    rewrite erase_app, invs_app, ress_app, !of_thread_app, lins_of_app, completed_from_app,
      cur_from_app. cbn [erase invs ress]. rewrite of_thread_one, D.
    change (lins_of t [XRes t r]) with (@nil (VC * VR)).
    cbn [completed_from cur_from]. rewrite Nat.eqb_refl, A, B, C, E, !map_app.
    change (of_thread t (@nil (nat * VC))) with (@nil VC). rewrite !app_nil_r.
    cbn [map app fst snd]. now repeat split.
  - apply tells_same; auto; cbn [erase invs ress completed_from cur_from]; eauto 6; intros;
      try rewrite (proj2 (Nat.eqb_neq _ _)) by auto; auto.
  - apply tells_same; auto; cbn [erase invs ress completed_from cur_from]; eauto 6; intros;
      try now apply lins_of_other.
  - apply tells_same; auto; cbn [erase invs ress completed_from cur_from]; eauto 6; intros;
      try rewrite (proj2 (Nat.eqb_neq _ _)) by auto; auto.
Qed.

(** Lists which agree thread by thread are permutations of each other. *)
Lemma of_thread_perm {A} (l m : list (nat * A)) :
  (forall t, of_thread t l = of_thread t m) -> Permutation l m.
Proof.
  revert m; induction l as [|[t a] l IH]; intros m H.
  - destruct m as [|[t b] m]; [constructor|]. specialize (H t).
    unfold of_thread in H; simpl in H. rewrite Nat.eqb_refl in H. discriminate.
  - assert (exists m1 m2, m = m1 ++ (t, a) :: m2 /\ of_thread t m1 = []) as (m1 & m2 & -> & Hn).
    { specialize (H t). unfold of_thread in H; simpl in H. rewrite Nat.eqb_refl in H.
      simpl in H. clear IH. revert H. generalize (map snd (filter (fun p => fst p =? t) l)).
      intros k. induction m as [|[t' b] m IHm]; simpl; [discriminate|].
      destruct (t' =? t) eqn:E; simpl.
      - intros [= -> _]. apply Nat.eqb_eq in E. subst. exists [], m. now split.
      - intros Hk. destruct (IHm Hk) as (m1 & m2 & -> & Hn). exists ((t', b) :: m1), m2.
        split; [reflexivity|]. unfold of_thread in *; simpl. now rewrite E. }
    rewrite <- Permutation_middle. constructor. apply IH. intros u. specialize (H u).
    change ((t, a) :: l) with ([(t, a)] ++ l) in H.
    change ((t, a) :: m2) with ([(t, a)] ++ m2) in H.
    rewrite !of_thread_app in H. rewrite of_thread_app. destruct (Nat.eq_dec t u) as [->|Hu].
    + rewrite Hn, of_thread_one in H. simpl in H. injection H as ->. now rewrite Hn.
    + now rewrite !(of_thread_other u t) in H by auto.
Qed.

(** When no call is under way, the calls begun, the results returned and the calls that took
    effect are the same ones. *)
Lemma quiet_perm (x : list xev) :
  (forall t, runs t x LFree) ->
  Permutation (invs (erase x)) (map fst (lins x)) /\
  Permutation (ress (erase x)) (map (fun p => (fst (fst p), snd p)) (lins x)).
Proof.
  intros H. split; apply of_thread_perm; intros t; destruct (runs_tells _ _ _ (H t)) as (A & B & _).
  - rewrite A. unfold lins_of, lin3, of_thread. clear.
    induction (lins x) as [|[[u c] r] l IH]; simpl; [reflexivity|].
    destruct (u =? t); simpl; now rewrite IH.
  - rewrite B. unfold lins_of, lin3, of_thread. clear.
    induction (lins x) as [|[[u c] r] l IH]; simpl; [reflexivity|].
    destruct (u =? t); simpl; now rewrite IH.
Qed.

Lemma runs_prefix t (x : list xev) e l : runs t (x ++ [e]) l -> exists l', runs t x l'.
Proof.
  intros H. remember (x ++ [e]) as y eqn:E. destruct H;
    try (apply app_inj_tail in E; destruct E as [-> _]; eauto).
  now destruct x.
Qed.

(** The calls begun are those that took effect and those that did not yet. *)
Lemma invs_lins (x : list xev) :
  (forall t, exists l, runs t x l) ->
  exists P, Permutation (invs (erase x)) (map fst (lins x) ++ P).
Proof.
  induction x as [|e x IH] using rev_ind; intros H; [exists []; constructor|].
  destruct IH as [P HP].
  { intros t. destruct (H t) as [l Hl]. now apply runs_prefix in Hl. }
  rewrite erase_app, invs_app, lins_app, map_app. destruct e as [t c|t c r|t r]; cbn [erase invs lins map].
  - exists ((t, c) :: P). rewrite HP, app_nil_r, <- app_assoc.
    apply Permutation_app_head. symmetry. apply Permutation_cons_append.
  - destruct (H t) as [l Hl]. remember (x ++ [XLin t c r]) as y eqn:E.
    destruct Hl; try (now destruct x); apply app_inj_tail in E; destruct E as [-> E];
      try discriminate; injection E as; subst; try congruence.
    destruct (runs_tells _ _ _ Hl) as (A & _).
    assert (Permutation (of_thread t (invs (erase x))) (of_thread t (map fst (lins x)) ++ of_thread t P)) as HQ.
    { rewrite <- of_thread_app. unfold of_thread. apply Permutation_map.
      clear - HP. induction HP; simpl; repeat (destruct (fst _ =? t)); eauto using Permutation. }
    assert (of_thread t (map fst (lins x)) = map fst (lins_of t x)) as EL.
    { unfold lins_of, lin3, of_thread. clear.
      induction (lins x) as [|[[u c] r] l IH]; simpl; [reflexivity|].
      destruct (u =? t); simpl; now rewrite IH. }
    rewrite A, EL in HQ. apply Permutation_app_inv_l, Permutation_length_1_inv in HQ.
    assert (In (t, c) P) as HIn.
    { assert (In c (of_thread t P)) as Hc by (rewrite HQ; now left).
      unfold of_thread in Hc. apply in_map_iff in Hc as ([u c'] & <- & Hf).
      apply filter_In in Hf as [Hf Hu]. simpl in Hu. apply Nat.eqb_eq in Hu. now subst. }
    apply in_split in HIn as (P1 & P2 & ->). exists (P1 ++ P2).
    rewrite app_nil_r, HP, <- app_assoc. apply Permutation_app_head. simpl.
    symmetry. apply Permutation_middle.
  - exists P. now rewrite !app_nil_r.
Qed.

(** The calls of different places among the threads took effect at different places. *)
Lemma of_thread_place {A} t (l : list (nat * A)) i a :
  nth_error (of_thread t l) i = Some a ->
  exists k, nth_error l k = Some (t, a) /\ length (of_thread t (firstn k l)) = i.
Proof.
  revert i; induction l as [|[u b] l IH]; intros i; unfold of_thread in *; simpl.
  - now destruct i.
  - destruct (u =? t) eqn:E; simpl.
    + destruct i as [|i]; simpl.
      * intros [= ->]. apply Nat.eqb_eq in E. subst. exists 0. now split.
      * intros H. destruct (IH i H) as (k & Hk & Hl). exists (S k). simpl. rewrite E. simpl.
        rewrite Hl. now split.
    + intros H. destruct (IH i H) as (k & Hk & Hl). exists (S k). simpl. rewrite E. now split.
Qed.
End Hist.

Section Rule.
Context {Sh Call Rs VC VR : Type}.
Variable impl : nat -> Call -> code Sh Rs.
Variable cview : Sh -> Call -> VC.
Variable rview : Sh -> Rs -> VR.
Variable allowed : list (event VC VR) -> Sh -> nat -> Call -> Prop.
Variable Gh : Type.
Variable stat : Gh -> lst VC VR.
Variable I : Sh -> (nat -> Gh) -> list (nat * VC * VR) -> Prop.

(** When undefined behaviour is accepted ([fun _ => False]: never). *)
Variable badok : list (nat * VC * VR) -> Prop.

(** The status of a thread after an action, and the calls that took effect: nothing new, or
    the pending call of the thread. *)
Inductive effect (t : nat) (l : lst VC VR) (L : list (nat * VC * VR)) :
  lst VC VR -> list (nat * VC * VR) -> Prop :=
| ef_none : effect t l L l L
| ef_lin c r : l = LPend c -> effect t l L (LDone c r) (L ++ [(t, c, r)]).

(** The code of a thread is in order when each action keeps the invariant. *)
Fixpoint safeP {A} (t : nat) (g : Gh) (c : code Sh A) (Q : A -> Gh -> Prop) : Prop :=
  match c with
  | Ret r => Q r g
  | Act a => forall n s G L, I s G L -> G t = g ->
      match a n s with
      | Next s' c' => exists g' L', effect t (stat g) L (stat g') L' /\
          I s' (setm G t g') L' /\ safeP t g' c' Q
      | Wait => True
      | Bad => badok L
      end
  end.

(** A call may return when it has taken effect with the result it returns. *)
Definition returns (t : nat) (r : Rs) (g : Gh) : Prop :=
  forall s G L, I s G L -> G t = g ->
    (exists vc, stat g = LDone vc (rview s r)) /\
    exists g', stat g' = LFree /\ I s (setm G t g') L.
Definition safe (t : nat) (g : Gh) (c : code Sh Rs) : Prop := safeP t g c (returns t).

Fixpoint safeP_bind {A B} t g (c : code Sh A) (f : A -> code Sh B) (Q : B -> Gh -> Prop) {struct c} :
  safeP t g c (fun r g' => safeP t g' (f r) Q) -> safeP t g (cbind c f) Q.
Proof.
  destruct c as [r|a]; [exact (fun H => H)|]. cbn [safeP cbind].
  intros H n s G L HI Hg. specialize (H n s G L HI Hg).
  destruct (a n s) as [s' c'| |]; [|exact H|exact H].
  destruct H as (g' & L' & H1 & H2 & H3). exists g', L'. split; [exact H1|]. split; [exact H2|].
  apply (safeP_bind A B t g' c' f Q H3).
Qed.

Fixpoint safeP_weaken {A} t g (c : code Sh A) (Q Q' : A -> Gh -> Prop) (HQ : forall r g', Q r g' -> Q' r g')
  {struct c} : safeP t g c Q -> safeP t g c Q'.
Proof.
  destruct c as [r|a]; [apply HQ|]. cbn [safeP].
  intros H n s G L HI Hg. specialize (H n s G L HI Hg).
  destruct (a n s) as [s' c'| |]; [|exact H|exact H].
  destruct H as (g' & L' & H1 & H2 & H3). exists g', L'. split; [exact H1|]. split; [exact H2|].
  exact (safeP_weaken A t g' c' Q Q' HQ H3).
Qed.

Hypothesis begin_call : forall s G L h t c, I s G L -> stat (G t) = LFree ->
  completed t h = of_thread t (lin3 L) ->
  allowed h s t c ->
  exists g', stat g' = LPend (cview s c) /\ I s (setm G t g') L /\ safe t g' (impl t c).

Variable s0 : Sh.
Variable G0 : nat -> Gh.
Hypothesis I0 : I s0 G0 [].
Hypothesis stat0 : forall t, stat (G0 t) = LFree.

Definition good_for (c : cfg Sh Rs VC VR) x G : Prop :=
  erase x = hist c /\ (forall t, runs t x (stat (G t))) /\ I (sh c) G (lins x) /\
    forall t, match th c t with
              | None => stat (G t) = LFree
              | Some k => safe t (G t) k
              end.
Definition good (c : cfg Sh Rs VC VR) : Prop := exists x G, good_for c x G.

Lemma good_start : good (start s0).
Proof.
  exists [], G0. simpl. repeat split; auto. intros t. rewrite stat0. constructor.
Qed.

Lemma runs_setm (x : list (xevent VC VR)) (G : nat -> Gh) t g y :
  (forall u, runs u x (stat (G u))) -> runs t (x ++ y) (stat g) ->
  (forall u, u <> t -> runs u x (stat (G u)) -> runs u (x ++ y) (stat (G u))) ->
  forall u, runs u (x ++ y) (stat (setm G t g u)).
Proof.
  intros H Ht Ho u. destruct (Nat.eq_dec u t) as [->|Hn].
  - now rewrite setm_eq.
  - rewrite setm_neq by auto. auto.
Qed.

(** One step is a step of one thread, which can make it; the others keep what is known of them. *)
Definition can_step (c : cfg Sh Rs VC VR) (t : nat) : Prop :=
  match th c t with
  | Some (Act a) => exists n s' k, a n (sh c) = Next s' k
  | _ => True
  end.
Lemma good_step_at c c' x G : good_for c x G -> step impl cview rview allowed c c' ->
  exists t x' G', good_for c' x' G' /\ can_step c t /\
    forall u, u <> t -> G' u = G u /\ th c' u = th c u.
Proof.
  unfold good_for, can_step. intros (Ex & Hr & HI & Ht) Hs. destruct Hs as [s T h t k HT Ha|s T h t a n s' k HT Hk|s T h t r HT];
    cbn [sh th hist] in *.
  - pose proof (Ht t) as Hf. rewrite HT in Hf.
    pose proof (runs_tells _ _ _ (Hr t)) as Htl. rewrite Hf in Htl. destruct Htl as (_ & _ & HC & _).
    rewrite Ex in HC.
    destruct (begin_call s G (lins x) h t k HI Hf HC Ha) as (g' & Hg & HI' & Hsafe).
    exists t, (x ++ [XInv t (cview s k)]), (setm G t g'). cbn [sh th hist].
    rewrite erase_app, Ex, lins_app; cbn [erase lins]. rewrite app_nil_r.
    split; [|(split; [rewrite HT; eauto|]; intros u Hu; rewrite !setm_neq by auto; now split)]. repeat split; auto.
    + apply runs_setm; auto.
      * rewrite Hg. apply run_inv. rewrite <- Hf. apply Hr.
      * intros u Hu H. apply run_other_inv; auto.
    + intros u. destruct (Nat.eq_dec u t) as [->|Hn].
      * now rewrite !setm_eq.
      * rewrite !setm_neq by auto. apply Ht.
  - pose proof (Ht t) as Hc. rewrite HT in Hc. unfold safe in Hc; cbn [safeP] in Hc.
    specialize (Hc n s G (lins x) HI eq_refl). rewrite Hk in Hc.
    destruct Hc as (g' & L' & Hef & HI' & Hsafe).
    assert (forall u, match setm T t (Some k) u with
                      | None => stat (setm G t g' u) = LFree
                      | Some k0 => safe u (setm G t g' u) k0 end) as Hth.
    { intros u. destruct (Nat.eq_dec u t) as [->|Hn].
      - now rewrite !setm_eq.
      - rewrite !setm_neq by auto. apply Ht. }
    inversion Hef as [E1 E2|vc vr Ep E1 E2]; subst.
    + exists t, x, (setm G t g'). cbn [sh th hist]. split; [|(split; [rewrite HT; eauto|]; intros u Hu; rewrite !setm_neq by auto; now split)]. repeat split; auto.
      intros u. destruct (Nat.eq_dec u t) as [->|Hn].
      * rewrite setm_eq, <- E1. apply Hr.
      * rewrite setm_neq by auto. apply Hr.
    + exists t, (x ++ [XLin t vc vr]), (setm G t g'). cbn [sh th hist].
      rewrite erase_app, lins_app; cbn [erase lins]. rewrite app_nil_r.
      split; [|(split; [rewrite HT; eauto|]; intros u Hu; rewrite !setm_neq by auto; now split)]. repeat split; auto.
      apply runs_setm; auto.
      * rewrite <- E1. apply run_lin. rewrite <- Ep. apply Hr.
      * intros u Hu H. apply run_other_lin; auto.
  - pose proof (Ht t) as Hc. rewrite HT in Hc. unfold safe in Hc; cbn [safeP] in Hc.
    destruct (Hc s G (lins x) HI eq_refl) as ((vc & Hv) & g' & Hg & HI').
    exists t, (x ++ [XRes t (rview s r)]), (setm G t g'). cbn [sh th hist].
    rewrite erase_app, Ex, lins_app; cbn [erase lins]. rewrite app_nil_r.
    split; [|(split; [rewrite HT; eauto|]; intros u Hu; rewrite !setm_neq by auto; now split)]. repeat split; auto.
    + apply runs_setm; auto.
      * rewrite Hg. apply (run_res t x vc). rewrite <- Hv. apply Hr.
      * intros u Hu H. apply run_other_res; auto.
    + intros u. destruct (Nat.eq_dec u t) as [->|Hn].
      * now rewrite !setm_eq.
      * rewrite !setm_neq by auto. apply Ht.
Qed.

Lemma good_step c c' : good c -> step impl cview rview allowed c c' -> good c'.
Proof.
  intros (x & G & H) Hs. destruct (good_step_at c c' x G H Hs) as (_ & x' & G' & H' & _). now exists x', G'.
Qed.
(** A thread which can only wait stays where it is, and so does what is known of it. *)
Lemma good_stuck c c' x G u : good_for c x G -> step impl cview rview allowed c c' -> ~ can_step c u ->
  exists x' G', good_for c' x' G' /\ G' u = G u /\ th c' u = th c u.
Proof.
  intros H Hs Hn. destruct (good_step_at c c' x G H Hs) as (t & x' & G' & H' & Hc & Ho).
  exists x', G'. split; [exact H'|]. apply Ho. intros ->. now apply Hn.
Qed.

Theorem reach_good c : reach impl cview rview allowed (start s0) c -> good c.
Proof. induction 1; [apply good_start|eapply good_step; eauto]. Qed.

Lemma good_bad c : good c -> bad c ->
  exists x, erase x = hist c /\ (forall t, exists l, runs t x l) /\ badok (lins x).
Proof.
  intros (x & G & Ex & Hr & HI & Ht) (t & a & n & E & Hb). specialize (Ht t). rewrite E in Ht.
  unfold safe in Ht; cbn [safeP] in Ht. specialize (Ht n _ G _ HI eq_refl). rewrite Hb in Ht.
  exists x. repeat split; eauto.
Qed.
End Rule.

(** A call which a thread makes while no other thread runs: for the examples. *)
Fixpoint crun {S R} (c : code S R) (s : S) : option (S * R) :=
  match c with
  | Ret r => Some (s, r)
  | Act a => match a 0 s with Next s' c' => crun c' s' | _ => None end
  end.

(** The first actions of a call, with nobody else, and with these choices. *)
Fixpoint csteps {S R} (l : list nat) (c : code S R) (s : S) : option (S * code S R) :=
  match l, c with
  | [], _ => Some (s, c)
  | m :: l', Act a => match a m s with Next s' c' => csteps l' c' s' | _ => None end
  | _, Ret _ => None
  end.

Section Alone.
Context {Sh Call Rs VC VR : Type}.
Variable impl : nat -> Call -> code Sh Rs.
Variable cview : Sh -> Call -> VC.
Variable rview : Sh -> Rs -> VR.
Variable allowed : list (event VC VR) -> Sh -> nat -> Call -> Prop.
Notation reach := (reach impl cview rview allowed).

Lemma reach_trans c0 c1 c2 : reach c0 c1 -> reach c1 c2 -> reach c0 c2.
Proof. intros H K. induction K; [exact H|econstructor; eauto]. Qed.

Fixpoint run_code t (k : code Sh Rs) s T h s' r {struct k} :
  T t = Some k -> crun k s = Some (s', r) ->
  exists T', T' t = Some (Ret r) /\ (forall u, u <> t -> T' u = T u) /\
    reach (Cfg s T h) (Cfg s' T' h).
Proof.
  destruct k as [q|a]; cbn [crun]; intros HT E.
  - injection E as <- <-. exists T. repeat split; auto. apply r_refl.
  - destruct (a 0 s) as [s1 k1| |] eqn:Ea; try discriminate.
    destruct (run_code t k1 s1 (setm T t (Some k1)) h s' r (setm_eq _ _ _) E) as (T' & H1 & H2 & H3).
    exists T'. split; [exact H1|]. split.
    + intros u Hu. rewrite (H2 u Hu). now apply setm_neq.
    + eapply reach_trans; [|exact H3]. eapply r_step; [apply r_refl|]. eapply s_act; eauto.
Qed.

Lemma run_csteps t l : forall k s T h s' k',
  T t = Some k -> csteps l k s = Some (s', k') ->
  exists T', T' t = Some k' /\ (forall u, u <> t -> T' u = T u) /\ reach (Cfg s T h) (Cfg s' T' h).
Proof.
  induction l as [|m l IH]; intros k s T h s' k' HT E; cbn [csteps] in E.
  - injection E as <- <-. exists T. split; [exact HT|]. split; [reflexivity|apply r_refl].
  - destruct k as [r|a]; [discriminate|]. destruct (a m s) as [s1 k1| |] eqn:Ea; try discriminate.
    destruct (IH k1 s1 (setm T t (Some k1)) h s' k' (setm_eq _ _ _) E) as (T' & H1 & H2 & H3).
    exists T'. split; [exact H1|]. split.
    + intros u Hu. rewrite (H2 u Hu). now apply setm_neq.
    + eapply reach_trans; [|exact H3]. eapply r_step; [apply r_refl|]. eapply s_act; eauto.
Qed.

(** A whole call with these choices. *)
Lemma run_with t c l s T h s' r :
  T t = None -> allowed h s t c -> csteps l (impl t c) s = Some (s', Ret r) ->
  exists T', (forall u, T' u = T u) /\
    reach (Cfg s T h) (Cfg s' T' (h ++ [EInv t (cview s c)] ++ [ERes t (rview s' r)])).
Proof.
  intros HT Ha E.
  destruct (run_csteps t l (impl t c) s (setm T t (Some (impl t c))) (h ++ [EInv t (cview s c)]) s' (Ret r))
    as (T' & H1 & H2 & H3); [apply setm_eq|exact E|].
  exists (setm T' t None). split.
  - intros u. destruct (Nat.eq_dec u t) as [->|Hn]; [now rewrite setm_eq|].
    rewrite setm_neq, H2, setm_neq; auto.
  - rewrite app_assoc. eapply r_step; [|apply s_ret; exact H1].
    eapply reach_trans; [|exact H3]. eapply r_step; [apply r_refl|]. now apply s_inv.
Qed.

(** A call begun and its first actions. *)
Lemma run_begun t c l s T h s' k :
  T t = None -> allowed h s t c -> csteps l (impl t c) s = Some (s', k) ->
  exists T', T' t = Some k /\ (forall u, u <> t -> T' u = T u) /\
    reach (Cfg s T h) (Cfg s' T' (h ++ [EInv t (cview s c)])).
Proof.
  intros HT Ha E.
  destruct (run_csteps t l (impl t c) s (setm T t (Some (impl t c))) (h ++ [EInv t (cview s c)]) s' k)
    as (T' & H1 & H2 & H3); [apply setm_eq|exact E|].
  exists T'. split; [exact H1|]. split.
  - intros u Hu. now rewrite H2, setm_neq.
  - eapply reach_trans; [|exact H3]. eapply r_step; [apply r_refl|]. now apply s_inv.
Qed.

Lemma run_alone t c s T h s' r :
  T t = None -> allowed h s t c -> crun (impl t c) s = Some (s', r) ->
  exists T', (forall u, T' u = T u) /\
    reach (Cfg s T h) (Cfg s' T' (h ++ [EInv t (cview s c)] ++ [ERes t (rview s' r)])).
Proof.
  intros HT Ha E.
  destruct (run_code t (impl t c) s (setm T t (Some (impl t c))) (h ++ [EInv t (cview s c)]) s' r)
    as (T' & H1 & H2 & H3); [apply setm_eq|exact E|].
  exists (setm T' t None). split.
  - intros u. destruct (Nat.eq_dec u t) as [->|Hn]; [now rewrite setm_eq|].
    rewrite setm_neq, H2, setm_neq; auto.
  - rewrite app_assoc. eapply r_step; [|apply s_ret; exact H1].
    eapply reach_trans; [|exact H3]. eapply r_step; [apply r_refl|]. now apply s_inv.
Qed.

(** Calls made one after the other. *)
Fixpoint run_list (l : list (nat * Call)) (s : Sh) (h : list (event VC VR)) :
  option (Sh * list (event VC VR)) :=
  match l with
  | [] => Some (s, h)
  | (t, c) :: l' =>
      match crun (impl t c) s with
      | Some (s', r) => run_list l' s' (h ++ [EInv t (cview s c)] ++ [ERes t (rview s' r)])
      | None => None
      end
  end.
Fixpoint list_allowed (l : list (nat * Call)) (s : Sh) (h : list (event VC VR)) : Prop :=
  match l with
  | [] => True
  | (t, c) :: l' =>
      allowed h s t c /\
      match crun (impl t c) s with
      | Some (s', r) => list_allowed l' s' (h ++ [EInv t (cview s c)] ++ [ERes t (rview s' r)])
      | None => True
      end
  end.
Lemma run_list_reach l : forall s T h s' h',
  (forall t, T t = None) -> list_allowed l s h -> run_list l s h = Some (s', h') ->
  exists T', (forall t, T' t = None) /\ reach (Cfg s T h) (Cfg s' T' h').
Proof.
  induction l as [|[t c] l IH]; cbn [run_list list_allowed]; intros s T h s' h' HT Ha E.
  - injection E as <- <-. exists T. split; [exact HT|apply r_refl].
  - destruct Ha as [Ha Hl]. destruct (crun (impl t c) s) as [[s1 r]|] eqn:Ec; [|discriminate].
    destruct (run_alone t c s T h s1 r (HT t) Ha Ec) as (T1 & H1 & H2).
    destruct (IH s1 T1 _ s' h' (fun u => eq_trans (H1 u) (HT u)) Hl E) as (T' & H3 & H4).
    exists T'. split; [exact H3|]. eapply reach_trans; eauto.
Qed.
Lemma run_list_ok l s (P : Sh -> list (event VC VR) -> Prop) :
  list_allowed l s [] ->
  match run_list l s [] with Some (s', h') => P s' h' | None => False end ->
  exists c, reach (start s) c /\ quiet c /\ P (sh c) (hist c).
Proof.
  intros Ha HP. destruct (run_list l s []) as [[s' h']|] eqn:E; [|destruct HP].
  destruct (run_list_reach l s (fun _ => None) [] s' h' (fun _ => eq_refl) Ha E) as (T & HT & HR).
  exists (Cfg s' T h'). split; [exact HR|]. now split.
Qed.
End Alone.

(** When only one thread makes calls, they take effect in the order made. *)
Lemma one_thread {VC VR} (x : list (xevent VC VR)) t :
  (forall u, exists l, runs u x l) -> (forall u c, In (u, c) (invs (erase x)) -> u = t) ->
  cur_from t None (erase x) = None ->
  lins x = map (fun p => (t, fst p, snd p)) (completed t (erase x)).
Proof.
  intros Hr Hi Hc. destruct (Hr t) as [l Hl]. apply runs_tells in Hl.
  assert (completed t (erase x) = lins_of t x) as ->.
  { destruct l; cbn in Hl; [tauto|destruct Hl as (_ & _ & _ & H); congruence|].
    destruct Hl as (? & _ & _ & _ & _ & H). congruence. }
  destruct (invs_lins x Hr) as [P HP].
  assert (forall u c r, In (u, c, r) (lins x) -> u = t) as Hu.
  { intros u c r Hin. apply (Hi u c). eapply Permutation_in; [apply Permutation_sym, HP|].
    apply in_or_app. left. apply in_map_iff. exists (u, c, r). now split. }
  unfold lins_of, lin3, of_thread. clear -Hu. induction (lins x) as [|[[u c] r] L IH]; [reflexivity|].
  simpl. assert (u = t) as -> by (apply (Hu u c r); now left). rewrite Nat.eqb_refl. simpl. f_equal.
  apply IH. intros u' c' r' Hin. apply (Hu u' c' r'). now right.
Qed.
