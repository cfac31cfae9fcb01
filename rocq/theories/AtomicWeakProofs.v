(** Proofs about the counter under the C++ memory model. *)
From Coq Require Import ZArith List Bool Arith Lia Permutation.
From Verif Require Import Base ConcModel ConcSpec ConcProofs WmModel AtomicModel AtomicSpec AtomicProofs
  AtomicWeakModel AtomicWeakSpec WmProofs.
Import ListNotations.
Open Scope nat_scope.

(** * Histories *)

Notation kn h := (fold_left know1 h known0).

Lemma kn_snoc h e : kn (h ++ [e]) = know1 (kn h) e.
Proof. now rewrite fold_left_app. Qed.

Lemma calling_cur h t : calling (kn h) t = cur_from t None h.
Proof.
  enough (H : forall h k cur, calling k t = cur -> calling (fold_left know1 h k) t = cur_from t cur h)
    by now apply H.
  clear h. intros h. induction h as [|[u c|u r] h IH]; intros k cur E; cbn [fold_left cur_from].
  - exact E.
  - apply IH. cbn [know1 calling]. unfold setm. rewrite Nat.eqb_sym. destruct (u =? t); [reflexivity|exact E].
  - destruct (u =? t) eqn:Eu; apply IH; cbn [know1 calling]; unfold setm; rewrite Nat.eqb_sym, Eu;
      [reflexivity|exact E].
Qed.

Lemma ops_inv h t u c : ops t (h ++ [EInv u c]) = ops t h.
Proof. unfold ops, completed. rewrite completed_from_app. cbn. now rewrite app_nil_r. Qed.
Lemma ops_res_other h t u r : u <> t -> ops t (h ++ [ERes u r]) = ops t h.
Proof.
  intros H. unfold ops, completed. rewrite completed_from_app. cbn.
  rewrite (proj2 (Nat.eqb_neq u t) H). now rewrite app_nil_r.
Qed.
Lemma ops_res h t r : ops t (h ++ [ERes t r]) =
  match calling (kn h) t with Some (KOp c) => ops t h ++ [(c, r)] | _ => ops t h end.
Proof.
  unfold ops, completed. rewrite completed_from_app, calling_cur. cbn. rewrite Nat.eqb_refl.
  destruct (cur_from t None h) as [[c|u]|]; rewrite ?flat_map_app; cbn; now rewrite ?app_nil_r.
Qed.

Lemma knows_inv h t c u v : knows (h ++ [EInv t c]) u v = knows h u v.
Proof. unfold knows. now rewrite kn_snoc. Qed.
Lemma knows_res_other h t r u v : u <> t -> knows (h ++ [ERes t r]) u v = knows h u v.
Proof.
  intros H. unfold knows. rewrite kn_snoc. cbn [know1 knows_of].
  destruct (calling (kn h) t) as [[c|w]|]; now rewrite ?setm_neq.
Qed.
Lemma knows_mono1 h e u v : knows h u v <= knows (h ++ [e]) u v.
Proof.
  destruct e as [t c|t r]; [now rewrite knows_inv|]. unfold knows. rewrite kn_snoc. cbn [know1 knows_of].
  destruct (calling (kn h) t) as [[c|w]|]; unfold setm; destruct (u =? t) eqn:Eu; try lia;
    apply Nat.eqb_eq in Eu; subst u; [|lia]. destruct (v =? t) eqn:Ev; [|lia].
  apply Nat.eqb_eq in Ev. subst. lia.
Qed.
Lemma knows_mono h h2 u v : knows h u v <= knows (h ++ h2) u v.
Proof.
  induction h2 as [|e h2 IH] using rev_ind; [rewrite app_nil_r; lia|].
  rewrite app_assoc. pose proof (knows_mono1 (h ++ h2) e u v). lia.
Qed.

(** Nobody knows more than has happened. *)
Lemma knows_ops h : (forall u t, knows h u t <= length (ops t h)) /\
  (forall u t, source (kn h) u t <= length (ops t h)).
Proof.
  induction h as [|e h [IH1 IH2]] using rev_ind; [split; intros; cbn; lia|].
  assert (M : forall t, length (ops t h) <= length (ops t (h ++ [e]))).
  { intros t. destruct e as [u c|u r]; [now rewrite ops_inv|].
    destruct (Nat.eq_dec u t) as [->|Hn]; [|now rewrite ops_res_other].
    rewrite ops_res. destruct (calling (kn h) t) as [[c|w]|]; rewrite ?app_length; lia. }
  split; intros u t; specialize (M t).
  - destruct e as [x c|x r].
    + rewrite knows_inv. specialize (IH1 u t). lia.
    + destruct (Nat.eq_dec u x) as [->|Hn].
      2:{ rewrite knows_res_other by exact Hn. specialize (IH1 u t). lia. }
      unfold knows. rewrite kn_snoc. cbn [know1 knows_of].
      pose proof (IH1 x t) as K1. pose proof (IH2 x t) as K2. unfold knows in K1.
      destruct (calling (kn h) x) as [[c|w]|] eqn:Ec; rewrite ?setm_eq; try lia.
      unfold setm. destruct (t =? x) eqn:Et; [|lia]. apply Nat.eqb_eq in Et. subst t.
      rewrite ops_res, Ec, app_length. cbn. lia.
  - rewrite kn_snoc. pose proof (IH2 u t) as K. destruct e as [x [c|w]|x r]; cbn [know1 source]; try lia.
    unfold setm. destruct (u =? x); [|lia]. pose proof (IH1 w t) as K1. unfold knows in K1. lia.
Qed.

(** * Operations in an order *)

Notation entry := (nat * acall * option Z)%type.

Lemma ops_by_app t L M : ops_by t (L ++ M) = ops_by t L ++ ops_by t M.
Proof. unfold ops_by. now rewrite filter_app, map_app. Qed.
Lemma ops_by_one t c r : ops_by t [(t, c, r)] = [(c, r)].
Proof. unfold ops_by. cbn. now rewrite Nat.eqb_refl. Qed.
Lemma ops_by_other t u c r : u <> t -> ops_by t [(u, c, r)] = [].
Proof. intros H. unfold ops_by. cbn. now rewrite (proj2 (Nat.eqb_neq u t) H). Qed.

(** One more, or none. *)
Definition ext (e : entry) (X Y : korder) : Prop := Y = X \/ exists A C, X = A ++ C /\ Y = A ++ e :: C.

Lemma ext_len e X Y u : ext e X Y -> length (ops_by u X) <= length (ops_by u Y).
Proof.
  intros [->|(A & C & -> & ->)]; [lia|]. change (e :: C) with ([e] ++ C).
  rewrite !ops_by_app, !app_length. lia.
Qed.
Lemma ext_other t c r X Y u : ext (t, c, r) X Y -> t <> u -> ops_by u Y = ops_by u X.
Proof.
  intros [->|(A & C & -> & ->)] H; [reflexivity|]. change ((t, c, r) :: C) with ([(t, c, r)] ++ C).
  now rewrite !ops_by_app, (ops_by_other u t c r H).
Qed.
Lemma ext_app_l e X Y Z : ext e X Y -> ext e (Z ++ X) (Z ++ Y).
Proof.
  intros [->|(A & C & -> & ->)]; [now left|]. right. exists (Z ++ A), C. now rewrite <- !app_assoc.
Qed.

(** * Blocks: a message, and the operations that wrote and read it *)

Notation block := (msg Z * list entry)%type.
Notation ent l := (flat_map (@snd (msg Z) (list entry)) l).

Definition stands (i : nat) (bl : list block) (A C : korder) : Prop :=
  exists p m es q, bl = p ++ (m, es) :: q /\ mid m = i /\ A = ent p ++ es /\ C = ent q.

Lemma stands_all i bl A C : stands i bl A C -> ent bl = A ++ C.
Proof.
  intros (p & m & es & q & -> & _ & -> & ->). rewrite flat_map_app. cbn [flat_map snd].
  now rewrite <- app_assoc.
Qed.

Notation mids bl := (map (fun b : block => mid (fst b)) bl).

Lemma split_unique (bl p p' q q' : list block) b b' : NoDup (mids bl) ->
  bl = p ++ b :: q -> bl = p' ++ b' :: q' -> mid (fst b) = mid (fst b') -> p = p' /\ b = b' /\ q = q'.
Proof.
  intros N -> E Hm. destruct (tail_case _ _ _ _ _ _ E) as [(c & -> & ->)|(c & Hc & ->)].
  - exfalso. rewrite map_app in N. cbn [map] in N. apply NoDup_remove_2 in N. apply N.
    apply in_or_app. right. rewrite map_app. cbn [map]. rewrite Hm. apply in_or_app. right. now left.
  - destruct c as [|x c].
    + cbn in Hc. injection Hc as -> ->. rewrite app_nil_r. auto.
    + exfalso. cbn in Hc. injection Hc as -> ->. rewrite E, map_app in N. cbn [map] in N.
      apply NoDup_remove_2 in N. apply N. apply in_or_app. right. rewrite map_app. cbn [map].
      rewrite Hm. apply in_or_app. right. now left.
Qed.

Lemma stands_unique i bl A C A' C' : NoDup (mids bl) -> stands i bl A C -> stands i bl A' C' ->
  A = A' /\ C = C'.
Proof.
  intros N (p & m & es & q & E & Hm & -> & ->) (p' & m' & es' & q' & E' & Hm' & -> & ->).
  destruct (split_unique bl p p' q q' (m, es) (m', es') N E E') as (-> & Eb & ->).
  { cbn. congruence. }
  injection Eb as -> ->. auto.
Qed.

(** The two ways in which an operation enters. *)
Definition enters (e : entry) (p : list block) (m : msg Z) (es : list entry) (q : list block)
  (bl' : list block) (i : nat) : Prop :=
  (bl' = p ++ (m, es ++ [e]) :: q /\ i = mid m) \/
  (exists m', bl' = p ++ (m, es) :: (m', [e]) :: q /\ i = mid m').

Lemma enters_ent e p m es q bl' i : enters e p m es q bl' i ->
  ent bl' = (ent p ++ es) ++ e :: ent q.
Proof.
  intros [[-> _]|(m' & -> & _)]; rewrite flat_map_app; cbn [flat_map snd]; rewrite <- ?app_assoc; reflexivity.
Qed.

Lemma enters_own e p m es q bl' i : enters e p m es q bl' i ->
  stands i bl' ((ent p ++ es) ++ [e]) (ent q).
Proof.
  intros [[-> ->]|(m' & -> & ->)].
  - exists p, m, (es ++ [e]), q. now rewrite app_assoc.
  - exists (p ++ [(m, es)]), m', [e], q. rewrite <- app_assoc. split; [reflexivity|]. split; [reflexivity|].
    rewrite flat_map_app. cbn [flat_map snd]. now rewrite app_nil_r.
Qed.

Lemma enters_other e p m es q bl' i j A C : enters e p m es q bl' i ->
  stands j (p ++ (m, es) :: q) A C ->
  exists A' C', stands j bl' A' C' /\ ext e A A' /\ ext e C C'.
Proof.
  intros H (p' & m' & es' & q' & E & Hm & -> & ->).
  destruct (tail_case _ _ _ _ _ _ E) as [(c & -> & ->)|(c & Hc & ->)].
  - (* behind *)
    destruct H as [[-> _]|(mn & -> & _)].
    + exists (ent (p ++ (m, es ++ [e]) :: c) ++ es'), (ent q'). split; [|split].
      * exists (p ++ (m, es ++ [e]) :: c), m', es', q'. rewrite <- app_assoc. auto.
      * right. exists (ent p ++ es), (ent c ++ es'). rewrite !flat_map_app. cbn [flat_map snd].
        rewrite <- !app_assoc. auto.
      * now left.
    + exists (ent (p ++ (m, es) :: (mn, [e]) :: c) ++ es'), (ent q'). split; [|split].
      * exists (p ++ (m, es) :: (mn, [e]) :: c), m', es', q'. rewrite <- app_assoc. auto.
      * right. exists (ent p ++ es), (ent c ++ es'). rewrite !flat_map_app. cbn [flat_map snd].
        rewrite <- !app_assoc. auto.
      * now left.
  - destruct c as [|x c].
    + (* at it *)
      cbn in Hc. injection Hc as -> -> ->. rewrite app_nil_r in *.
      destruct H as [[-> _]|(mn & -> & _)].
      * exists (ent p' ++ es ++ [e]), (ent q). split; [|split].
        -- exists p', m, (es ++ [e]), q. auto.
        -- right. exists (ent p' ++ es), []. rewrite app_nil_r, <- app_assoc. auto.
        -- now left.
      * exists (ent p' ++ es), (e :: ent q). split; [|split].
        -- exists p', m, es, ((mn, [e]) :: q). auto.
        -- now left.
        -- right. exists [], (ent q). auto.
    + (* before *)
      cbn in Hc. injection Hc as <- ->. 
      destruct H as [[-> _]|(mn & -> & _)].
      * exists (ent p' ++ es'), (ent (c ++ (m, es ++ [e]) :: q)). split; [|split].
        -- exists p', m', es', (c ++ (m, es ++ [e]) :: q). rewrite <- app_assoc. auto.
        -- now left.
        -- right. exists (ent c ++ es), (ent q). rewrite !flat_map_app. cbn [flat_map snd].
           rewrite <- !app_assoc. auto.
      * exists (ent p' ++ es'), (ent (c ++ (m, es) :: (mn, [e]) :: q)). split; [|split].
        -- exists p', m', es', (c ++ (m, es) :: (mn, [e]) :: q). rewrite <- app_assoc. auto.
        -- now left.
        -- right. exists (ent c ++ es), (ent q). rewrite !flat_map_app. cbn [flat_map snd].
           rewrite <- !app_assoc. auto.
Qed.

(** A thread which may take the place is not behind it. *)
Lemma stands_before (bl p : list block) m es q j A C : NoDup (mids bl) -> bl = p ++ (m, es) :: q ->
  index_of j (map fst bl) <= length p -> stands j bl A C ->
  exists X, ent p ++ es = A ++ X /\ C = X ++ ent q.
Proof.
  intros N E Hi (p' & m' & es' & q' & E' & Hm & -> & ->). subst j.
  assert (I : index_of (mid m') (map fst bl) = length p').
  { rewrite E', map_app. cbn [map fst]. rewrite index_of_mid.
    - now rewrite map_length.
    - rewrite E' in N. rewrite map_map || idtac. rewrite !map_app in *. cbn [map fst] in *.
      now rewrite !map_map. }
  rewrite I in Hi. rewrite E in E'.
  destruct (tail_case _ _ _ _ _ _ E') as [(c & -> & ->)|(c & Hc & ->)].
  - exfalso. rewrite app_length in Hi. cbn in Hi. lia.
  - destruct c as [|x c]; cbn in Hc.
    + injection Hc as -> -> ->. exists []. rewrite !app_nil_r. auto.
    + injection Hc as <- ->. exists (ent c ++ es). rewrite !flat_map_app. cbn [flat_map snd].
      rewrite <- !app_assoc. auto.
Qed.

(** * The values *)

Section Counter.
Variable bits : Z.
Variable sgn : bool.
Hypothesis Hb : (0 < bits)%Z.
Variable v0 : Z.
Hypothesis Hv0 : (lo bits sgn <= v0 <= hi bits sgn)%Z.
Notation norm := (norm bits sgn).
Notation spec := (aspec bits sgn).

Definition is_load (v : Z) (e : entry) : Prop :=
  (snd (fst e) = CLoad \/ snd (fst e) = CConv) /\ snd e = Some v.

(** What wrote the message comes first; if that was no read-modify-write operation, what came
    before makes no difference. *)
Definition block_ok (o : option Z) (m : msg Z) (es : list entry) : Prop :=
  match o with
  | None => mval m = v0 /\ Forall (is_load v0) es
  | Some v => exists t c r ls, es = (t, c, r) :: ls /\ spec t v c r (mval m) /\
      (mrmw m = false -> forall v', spec t v' c r (mval m)) /\ Forall (is_load (mval m)) ls
  end.
Fixpoint follows (o : option Z) (bl : list block) : Prop :=
  match bl with
  | [] => True
  | b :: bl' => block_ok o (fst b) (snd b) /\ follows (Some (mval (fst b))) bl'
  end.

Lemma follows_load p : forall o m es q e, follows o (p ++ (m, es) :: q) -> is_load (mval m) e ->
  follows o (p ++ (m, es ++ [e]) :: q).
Proof.
  induction p as [|b p IH]; intros o m es q e H He; cbn [app follows] in *.
  - destruct H as [H1 H2]. split; [|exact H2]. cbn [fst snd] in *. destruct o as [v|].
    + destruct H1 as (t & c & r & ls & -> & A & B & C). exists t, c, r, (ls ++ [e]).
      split; [reflexivity|]. split; [exact A|]. split; [exact B|]. apply Forall_app. auto.
    + destruct H1 as [A B]. split; [exact A|]. rewrite A in He. apply Forall_app. auto.
  - destruct H as [H1 H2]. split; [exact H1|]. now apply IH.
Qed.

Lemma follows_write p : forall o m es q m' e, follows o (p ++ (m, es) :: q) ->
  block_ok (Some (mval m)) m' [e] -> (q = [] \/ exists b q', q = b :: q' /\ mrmw (fst b) = false) ->
  follows o (p ++ (m, es) :: (m', [e]) :: q).
Proof.
  induction p as [|b p IH]; intros o m es q m' e H He Hq; cbn [app follows] in *.
  - destruct H as [H1 H2]. split; [exact H1|]. split; [exact He|]. cbn [fst] in *.
    destruct Hq as [->|(b & q' & -> & Hr)]; [exact I|]. cbn [follows] in *. destruct H2 as [H2 H3].
    split; [|exact H3]. destruct H2 as (t & c & r & ls & E & A & B & C).
    exists t, c, r, ls. split; [exact E|]. split; [now apply B|]. auto.
  - destruct H as [H1 H2]. split; [exact H1|]. now apply IH.
Qed.

Lemma loads_run L v ls : arun bits sgn v0 L v -> Forall (is_load v) ls -> arun bits sgn v0 (L ++ ls) v.
Proof.
  intros H HF. revert L H. induction HF as [|[[t c] r] ls [Hc Hr] HF IH]; intros L H.
  - now rewrite app_nil_r.
  - change ((t, c, r) :: ls) with ([(t, c, r)] ++ ls). rewrite app_assoc. apply IH.
    apply sr_snoc with v; [exact H|]. cbn in Hc, Hr. subst r. destruct Hc as [->| ->]; constructor.
Qed.

Definition last_val (v : Z) (bl : list block) : Z := fold_left (fun _ b => mval (fst b)) bl v.

Lemma follows_run bl : forall L v, arun bits sgn v0 L v -> follows (Some v) bl ->
  arun bits sgn v0 (L ++ ent bl) (last_val v bl).
Proof.
  induction bl as [|[m es] bl IH]; intros L v H HF; cbn [flat_map snd follows fst last_val fold_left] in *.
  - now rewrite app_nil_r.
  - destruct HF as [(t & c & r & ls & -> & A & _ & C) HF]. rewrite app_assoc.
    apply (IH _ (mval m)); [|exact HF].
    change ((t, c, r) :: ls) with ([(t, c, r)] ++ ls). rewrite app_assoc. apply loads_run; [|exact C].
    now apply sr_snoc with v.
Qed.

(** A whole order, and what was there when its last block was made. *)
Lemma blocks_run bl m es : follows None (bl ++ [(m, es)]) ->
  arun bits sgn v0 (ent bl ++ es) (mval m).
Proof.
  destruct bl as [|[m1 es1] bl]; cbn [app follows fst snd block_ok]; intros H.
  - destruct H as [[E HF] _]. cbn [flat_map app]. rewrite E. apply (loads_run [] v0 es); [constructor|exact HF].
  - destruct H as [[E HF] H]. pose proof (loads_run [] v0 es1 (sr_nil _ _) HF) as H1. cbn in H1.
    rewrite E in H. pose proof (follows_run _ _ _ H1 H) as H2.
    rewrite flat_map_app in H2. cbn [flat_map snd] in H2. rewrite app_nil_r in H2.
    cbn [flat_map snd]. rewrite <- app_assoc. unfold last_val in H2. rewrite fold_left_app in H2. exact H2.
Qed.

Lemma follows_front p : forall o b q, follows o (p ++ b :: q) -> follows o (p ++ [b]).
Proof.
  induction p as [|x p IH]; intros o b q [H1 H2]; cbn [app follows]; split; auto; try exact I.
  eapply IH; eauto.
Qed.

Lemma all_run bl : bl <> [] -> follows None bl -> exists a, arun bits sgn v0 (ent bl) a.
Proof.
  intros Hn H. destruct bl as [|[m es] bl] using rev_ind; [easy|]. clear IHbl.
  exists (mval m). apply blocks_run in H. rewrite flat_map_app. cbn [flat_map snd]. now rewrite app_nil_r.
Qed.

(** An operation whose result could not be computed. *)
Definition ovf (bl : list block) : Prop :=
  wide_signed bits sgn = true /\
  exists p m es m' t c r es' q d, bl = p ++ (m, es) :: (m', (t, c, r) :: es') :: q /\ mrmw m' = true /\
    delta c = Some d /\ ~ (lo bits sgn <= mval m + d <= hi bits sgn)%Z.

Lemma ovf_overflows bl : ovf bl -> follows None bl -> overflows bits sgn v0 (ent bl).
Proof.
  intros (Hw & p & m & es & m' & t & c & r & es' & q & d & -> & _ & Hd & Ho) HF. split; [exact Hw|].
  exists (ent p ++ es), (es' ++ ent q), t, c, r, (mval m), d.
  rewrite flat_map_app. cbn [flat_map snd]. rewrite <- !app_assoc. cbn [app].
  split; [reflexivity|]. split; [|now split]. apply blocks_run. eapply follows_front; eauto.
Qed.

(** It stays, for nothing comes between the two messages. *)
Lemma ovf_enters e p m es q bl' i : enters e p m es q bl' i ->
  ((exists m', bl' = p ++ (m, es) :: (m', [e]) :: q) -> q = [] \/ exists b q', q = b :: q' /\ mrmw (fst b) = false) ->
  ovf (p ++ (m, es) :: q) -> ovf bl'.
Proof.
  intros H Hq (Hw & pa & ma & ea & mb & t & c & r & eb & qa & d & E & Hr & Hd & Ho). split; [exact Hw|].
  destruct (tail_case _ _ _ _ _ _ E) as [(k & -> & ->)|(k & Hk & ->)].
  - destruct H as [[-> _]|(mn & -> & _)].
    + exists (p ++ (m, es ++ [e]) :: k), ma, ea, mb, t, c, r, eb, qa, d. rewrite <- app_assoc. auto.
    + exists (p ++ (m, es) :: (mn, [e]) :: k), ma, ea, mb, t, c, r, eb, qa, d. rewrite <- app_assoc. auto.
  - destruct k as [|x k]; cbn in Hk.
    + injection Hk as -> -> <-. rewrite app_nil_r in *. destruct H as [[-> _]|(mn & -> & _)].
      * exists pa, m, (es ++ [e]), mb, t, c, r, eb, qa, d. auto.
      * exfalso. destruct (Hq (ex_intro _ mn eq_refl)) as [K|(b & q' & K & Hb')]; [discriminate|].
        injection K as <- _. cbn in Hb'. congruence.
    + injection Hk as <- Hk. destruct k as [|y k]; cbn in Hk.
      * injection Hk as <- <- ->. destruct H as [[-> _]|(mn & -> & _)].
        -- exists pa, ma, ea, mb, t, c, r, (eb ++ [e]), q, d. rewrite <- app_assoc. auto.
        -- exists pa, ma, ea, mb, t, c, r, eb, ((mn, [e]) :: q), d. rewrite <- app_assoc. auto.
      * injection Hk as <- ->. destruct H as [[-> _]|(mn & -> & _)].
        -- exists pa, ma, ea, mb, t, c, r, eb, (k ++ (m, es ++ [e]) :: q), d. rewrite <- app_assoc. auto.
        -- exists pa, ma, ea, mb, t, c, r, eb, (k ++ (m, es) :: (mn, [e]) :: q), d. rewrite <- app_assoc. auto.
Qed.

(** * One operation *)

Definition wbadc : kc := WAct (fun _ _ => WBad).

Lemma ret_plus_same t c o d m' :
  mval m' = norm (o + d)%Z -> mrmw m' = true -> delta c = Some d ->
  (forall a, value_of bits sgn (o + d) a -> spec t o c (Some a) a) ->
  exists r, block_ok (Some o) m' [(t, c, r)] /\
    (wret_plus bits sgn o d = WRet r \/
     (wret_plus bits sgn o d = wbadc /\ wide_signed bits sgn = true /\
      exists d, delta c = Some d /\ ~ (lo bits sgn <= o + d <= hi bits sgn)%Z)).
Proof.
  intros Hm Hr Hd Hs. exists (Some (norm (o + d))). split.
  - exists t, c, (Some (norm (o + d))), []. split; [reflexivity|]. rewrite Hm.
    split; [apply Hs, value_of_norm; exact Hb|]. split; [congruence|constructor].
  - unfold wret_plus. destruct (plus bits sgn o d) as [r|] eqn:E.
    + left. now rewrite (plus_norm bits sgn Hb o d r E).
    + right. destruct (plus_none bits sgn o d E) as [H1 H2]. split; [reflexivity|]. split; [exact H1|].
      exists d. auto.
Qed.

(** What an operation may do with the counter and go on with. *)
Definition effect (t : nat) (c : acall) (n : nat) (L : kst) (out : wout kst kc) : Prop :=
  match out with
  | WNext L' k => exists m, nth_error (mo L) n = Some m /\
     ((index_of (seen L t) (mo L) <= n /\ L' = Loc (mo L) (fresh L) (setm (seen L) t (mid m)) /\
       is_load (mval m) (t, c, Some (mval m)) /\ k = WRet (Some (mval m))) \/
      (exists m' r, place t n L = true /\
       L' = Loc (ins n m' (mo L)) (S (fresh L)) (setm (seen L) t (fresh L)) /\
       mid m' = fresh L /\ block_ok (Some (mval m)) m' [(t, c, r)] /\
       (k = WRet r \/ (k = wbadc /\ mrmw m' = true /\ wide_signed bits sgn = true /\
          exists d, delta c = Some d /\ ~ (lo bits sgn <= mval m + d <= hi bits sgn)%Z))))
  | WStay L' => L' = L
  | WBad => False
  end.

Lemma load_effect t c n L : c = CLoad \/ c = CConv ->
  forall a, kload t = WAct a -> effect t c n L (a n L).
Proof.
  intros Hc a E. injection E as <-. unfold wread, effect.
  destruct (nth_error (mo L) n) as [m|] eqn:Em; [|reflexivity].
  destruct (_ <=? n) eqn:Ei; [|reflexivity]. apply Nat.leb_le in Ei.
  exists m. split; [reflexivity|left]. split; [exact Ei|]. split; [reflexivity|]. split; [now split|reflexivity].
Qed.

Lemma store_effect t c n L o i (g : unit -> kc) r : g tt = WRet r -> (forall v, spec t v c r i) ->
  forall a, wbind (k_store o t i) g = WAct a -> effect t c n L (a n L).
Proof.
  intros Hg Hs a E. injection E as <-. unfold wstore, effect.
  destruct (nth_error (mo L) n) as [m|] eqn:Em; [|reflexivity].
  destruct (place t n L) eqn:Ep; [|reflexivity].
  exists m. split; [reflexivity|right]. eexists _, r. split; [reflexivity|]. split; [reflexivity|].
  split; [reflexivity|]. split.
  - exists t, c, r, []. split; [reflexivity|]. cbn [mval]. split; [apply Hs|]. split; [intros _; apply Hs|constructor].
  - left. exact Hg.
Qed.

Lemma rmw_effect t c n L f (g : Z -> kc) :
  (forall o m', mval m' = f o -> mrmw m' = true ->
    exists r, block_ok (Some o) m' [(t, c, r)] /\
      (g o = WRet r \/ (g o = wbadc /\ wide_signed bits sgn = true /\
        exists d, delta c = Some d /\ ~ (lo bits sgn <= o + d <= hi bits sgn)%Z))) ->
  forall a, wbind (k_rmw t f) g = WAct a -> effect t c n L (a n L).
Proof.
  intros H a E. injection E as <-. unfold rmw, effect.
  destruct (nth_error (mo L) n) as [m|] eqn:Em; [|reflexivity].
  destruct (place t n L) eqn:Ep; [|reflexivity].
  exists m. split; [reflexivity|right].
  match goal with |- context [ins n ?x (mo L)] => set (m' := x) end.
  destruct (H (mval m) m' eq_refl eq_refl) as (r & H1 & H2).
  exists m', r. split; [reflexivity|]. split; [reflexivity|]. split; [reflexivity|]. split; [exact H1|].
  destruct H2 as [H2|(H2 & H3 & H4)]; [now left|right]. split; [exact H2|]. split; [reflexivity|]. auto.
Qed.

Lemma post_ok t c o m' d : mval m' = norm (o + d)%Z -> mrmw m' = true ->
  (forall a, value_of bits sgn (o + d) a -> spec t o c (Some o) a) ->
  block_ok (Some o) m' [(t, c, Some o)].
Proof.
  intros Hm Hr Hs. exists t, c, (Some o), []. split; [reflexivity|]. rewrite Hm.
  split; [apply Hs, value_of_norm; exact Hb|]. split; [congruence|constructor].
Qed.

Lemma op_effect t c n L : c <> CSelf -> forall a, kimpl bits sgn t (KOp c) = WAct a -> effect t c n L (a n L).
Proof.
  intros Hc. destruct c; try congruence; cbn [kimpl].
  - apply load_effect. now left.
  - apply load_effect. now right.
  - apply (store_effect t (CStore i) n L Relaxed i _ None); [reflexivity|intros v; constructor].
  - intros a E. injection E as <-. 
    pose proof (store_effect t (CAssign i) n L Relaxed i (fun _ => WRet (Some i)) (Some i) eq_refl
                  (fun v => sp_assign _ _ _ _ _) _ eq_refl) as K.
    cbn in K |- *. destruct (wstore Relaxed i t n L noclk); exact K.
  - apply (store_effect t (CFrom v) n L Release v _ None); [reflexivity|intros v'; constructor].
  - apply rmw_effect. intros o m' Hm Hr. apply ret_plus_same; auto. intros a Ha. now constructor.
  - apply rmw_effect. intros o m' Hm Hr. exists (Some o). split; [|now left].
    apply (post_ok t CPostInc o m' 1%Z); auto. intros a Ha. now constructor.
  - apply rmw_effect. intros o m' Hm Hr. apply ret_plus_same; auto. intros a Ha. now constructor.
  - apply rmw_effect. intros o m' Hm Hr. apply ret_plus_same; auto. intros a Ha. now constructor.
  - apply rmw_effect. intros o m' Hm Hr. exists (Some o). split; [|now left].
    apply (post_ok t CPostDec o m' (- (1))%Z); auto. intros a Ha. now constructor.
  - apply rmw_effect. intros o m' Hm Hr. apply ret_plus_same; auto. intros a Ha. now constructor.
Qed.

(** * Executions *)

Definition past (bl : list block) (i : nat) (f : nat -> nat) : Prop :=
  exists A C, stands i bl A C /\ forall v, f v <= length (ops_by v A).

Definition status (h : khist) (bl : list block) (R : list (nat * acall)) (L : kst) (t : nat)
  (o : option kc) : Prop :=
  match o with
  | None => calling (kn h) t = None /\ ops_by t (ent bl) = ops t h
  | Some k =>
      (exists c, calling (kn h) t = Some (KOp c) /\ c <> CSelf /\ k = kimpl bits sgn t (KOp c) /\
         ops_by t (ent bl) = ops t h /\ In (t, c) R) \/
      (exists c r, calling (kn h) t = Some (KOp c) /\ ops_by t (ent bl) = ops t h ++ [(c, r)] /\
         (k = WRet r \/ (k = wbadc /\ ovf bl))) \/
      (exists u, calling (kn h) t = Some (KSync u) /\ ops_by t (ent bl) = ops t h /\
         k = kimpl bits sgn t (KSync u) /\ past bl (seen L u) (source (kn h) t)) \/
      (exists u, calling (kn h) t = Some (KSync u) /\ ops_by t (ent bl) = ops t h /\
         k = WRet None /\ past bl (seen L t) (source (kn h) t))
  end.

Definition own_last (bl : list block) (L : kst) (t : nat) : Prop :=
  exists A C, stands (seen L t) bl A C /\ ops_by t C = [].

Record inv (c : wcfg kst (option Z) kcall (option Z)) (bl : list block) (R : list (nat * acall)) : Prop := {
  i_mo : map fst bl = mo (wsh c);
  i_num : numbered (wsh c);
  i_val : follows None bl;
  i_own : forall t, own_last bl (wsh c) t;
  i_past : forall t, past bl (seen (wsh c) t) (knows (whist c) t);
  i_resp : respects (whist c) (ent bl);
  i_stat : forall t, status (whist c) bl R (wsh c) t (wth c t);
  i_perm : Permutation (invs (counter_calls (whist c))) (map fst (ent bl) ++ R)
}.

Lemma num_mids bl L : map fst bl = mo L -> numbered L -> NoDup (mids bl).
Proof. intros E [H _]. rewrite <- E, map_map in H. exact H. Qed.

Lemma respects_snoc h e L : respects h L ->
  (forall A t c r B, L = A ++ (t, c, r) :: B -> length (ops t (h ++ [e])) <= length (ops_by t A) ->
    forall u, knows (h ++ [e]) t u <= length (ops_by u A)) ->
  respects (h ++ [e]) L.
Proof.
  intros H He A t c r B EL h1 h2 Eh Hl u.
  destruct h2 as [|x h2] using rev_ind.
  - rewrite app_nil_r in Eh. subst h1. eapply He; eauto.
  - clear IHh2. rewrite app_assoc in Eh. apply app_inj_tail in Eh as [Eh _]. eapply H; eauto.
Qed.

(** The entry of a thread is one more than those before it. *)
Lemma ops_by_split t A c r B L : L = A ++ (t, c, r) :: B ->
  length (ops_by t A) < length (ops_by t L).
Proof.
  intros ->. change ((t, c, r) :: B) with ([(t, c, r)] ++ B).
  rewrite !ops_by_app, ops_by_one, !app_length. cbn. lia.
Qed.

Lemma inv_start : inv (wstart (loc0 v0)) [(Msg 0 v0 false czero, [])] [].
Proof.
  split; cbn.
  - reflexivity.
  - split; cbn; [repeat constructor; now intros []|]. intros m [<-|[]]. cbn. lia.
  - split; [|exact I]. split; [reflexivity|constructor].
  - intros t. exists [], []. split; [|reflexivity]. exists [], (Msg 0 v0 false czero), [], []. auto.
  - intros t. exists [], []. split; [|intros v; cbn; lia]. exists [], (Msg 0 v0 false czero), [], []. auto.
  - intros A t c r B E. now destruct A.
  - intros t. auto.
  - constructor.
Qed.

(** A call begins. *)
Lemma inv_call L T h bl R t k : T t = None -> kallowed bits sgn h L t k ->
  inv (WCfg L T h) bl R ->
  exists R', inv (WCfg L (setm T t (Some (kimpl bits sgn t k))) (h ++ [EInv t k])) bl R'.
Proof.
  intros Ht Ha [H1 H2 H3 H4 H5 H6 H7 H8]. cbn [wsh wth whist] in *.
  pose proof (H7 t) as St. rewrite Ht in St. destruct St as [St1 St2].
  exists (match k with KOp c => R ++ [(t, c)] | KSync _ => R end).
  split; cbn [wsh wth whist]; try assumption.
  - intros u. destruct (H5 u) as (A & C & HS & Hl). exists A, C. split; [exact HS|].
    intros v. rewrite knows_inv. apply Hl.
  - apply respects_snoc; [exact H6|]. intros A u c r B EL. rewrite ops_inv. intros Hl v.
    rewrite knows_inv. eapply H6; [exact EL| |exact Hl]. symmetry. apply app_nil_r.
  - intros u. destruct (Nat.eq_dec u t) as [->|Hn].
    + rewrite setm_eq. destruct k as [c|w].
      * left. exists c. rewrite kn_snoc. cbn [know1 calling]. rewrite setm_eq, ops_inv.
        split; [reflexivity|]. split; [apply Ha|]. split; [reflexivity|]. split; [exact St2|].
        apply in_or_app. right. now left.
      * right. right. left. exists w. rewrite kn_snoc. cbn [know1 calling source]. rewrite !setm_eq, ops_inv.
        split; [reflexivity|]. split; [exact St2|]. split; [reflexivity|]. apply H5.
    + rewrite setm_neq by exact Hn. specialize (H7 u). unfold status in *.
      rewrite kn_snoc. cbn [know1 calling source]. rewrite setm_neq, ops_inv by exact Hn.
      assert (Es : source (know1 (kn h) (EInv t k)) u = source (kn h) u).
      { cbn [know1 source]. destruct k; [reflexivity|]. now rewrite setm_neq. }
      cbn [know1 source] in Es. rewrite Es.
      destruct (T u) as [k'|]; [|exact H7].
      destruct H7 as [(c & K1 & K2 & K3 & K4 & K5)|H7]; [left|now right].
      exists c. repeat (split; [assumption|]). destruct k; [|exact K5]. apply in_or_app. now left.
  - unfold counter_calls in *. rewrite flat_map_app. cbn [flat_map]. rewrite invs_app.
    destruct k as [c|w]; cbn [app invs]; [|now rewrite app_nil_r].
    rewrite app_assoc. now apply Permutation_app_tail.
Qed.

Lemma past_le bl i f g : past bl i f -> (forall v, g v <= f v) -> past bl i g.
Proof.
  intros (A & C & H & Hl) Hg. exists A, C. split; [exact H|]. intros v. specialize (Hl v). specialize (Hg v). lia.
Qed.

(** A call returns. *)
Lemma inv_return L T h bl R t r : T t = Some (WRet r) -> inv (WCfg L T h) bl R ->
  inv (WCfg L (setm T t None) (h ++ [ERes t r])) bl R.
Proof.
  intros Ht [H1 H2 H3 H4 H5 H6 H7 H8]. cbn [wsh wth whist] in *.
  pose proof (num_mids bl L H1 H2) as N.
  pose proof (H7 t) as St. rewrite Ht in St. cbn [status] in St.
  assert (K : (exists c, calling (kn h) t = Some (KOp c) /\ ops_by t (ent bl) = ops t h ++ [(c, r)]) \/
              (exists u, calling (kn h) t = Some (KSync u) /\ ops_by t (ent bl) = ops t h /\
                 past bl (seen L t) (source (kn h) t))).
  { destruct St as [(c & _ & _ & E & _)|[(c & r' & Ec & Eo & [E|(E & _)])|[(u & _ & _ & E & _)|(u & Ec & Eo & _ & Hp)]]].
    - destruct c; discriminate.
    - left. exists c. injection E as ->. auto.
    - discriminate.
    - discriminate.
    - right. exists u. auto. }
  clear St.
  assert (Ho : ops_by t (ent bl) = ops t (h ++ [ERes t r])).
  { rewrite ops_res. destruct K as [(c & -> & ->)|(u & -> & -> & _)]; reflexivity. }
  assert (Hk : past bl (seen L t) (knows (h ++ [ERes t r]) t)).
  { destruct (H5 t) as (A & C & HS & Hl). exists A, C. split; [exact HS|]. intros v.
    specialize (Hl v). unfold knows in *. rewrite kn_snoc. cbn [know1 knows_of].
    destruct K as [(c & -> & Eo)|(u & -> & Eo & A' & C' & HS' & Hl')]; rewrite setm_eq.
    - destruct (Nat.eq_dec v t) as [->|Hn]; [|now rewrite setm_neq]. rewrite setm_eq.
      destruct (H4 t) as (A' & C' & HS' & HC). destruct (stands_unique _ _ _ _ _ _ N HS HS') as [<- <-].
      pose proof (stands_all _ _ _ _ HS) as EL. rewrite EL, ops_by_app, HC, app_nil_r in Eo.
      rewrite Eo, app_length. cbn. destruct (knows_ops h) as [Q _]. specialize (Q t t). unfold knows in Q. lia.
    - destruct (stands_unique _ _ _ _ _ _ N HS HS') as [<- <-]. specialize (Hl' v). lia. }
  split; cbn [wsh wth whist]; try assumption.
  - intros u. destruct (Nat.eq_dec u t) as [->|Hn]; [exact Hk|].
    destruct (H5 u) as (A & C & HS & Hl). exists A, C. split; [exact HS|]. intros v.
    rewrite knows_res_other by exact Hn. apply Hl.
  - apply respects_snoc; [exact H6|]. intros A u c q B EL. destruct (Nat.eq_dec t u) as [<-|Hn].
    + rewrite <- Ho. intros Hl. pose proof (ops_by_split _ _ _ _ _ _ EL). lia.
    + rewrite ops_res_other by exact Hn. intros Hl v. rewrite knows_res_other by auto.
      eapply H6; [exact EL| |exact Hl]. symmetry. apply app_nil_r.
  - intros u. destruct (Nat.eq_dec u t) as [->|Hn].
    + rewrite setm_eq. cbn [status]. rewrite kn_snoc. cbn [know1 calling]. rewrite setm_eq. auto.
    + rewrite setm_neq by exact Hn. specialize (H7 u). unfold status in *.
      rewrite kn_snoc. cbn [know1 calling source]. rewrite setm_neq, ops_res_other by auto. exact H7.
  - unfold counter_calls in *. rewrite flat_map_app. cbn [flat_map]. now rewrite app_nil_r.
Qed.

(** An operation takes effect. *)
Lemma inv_enter L T h bl R t c r p m es q bl' i L' k :
  T t = Some (kimpl bits sgn t (KOp c)) -> inv (WCfg L T h) bl R ->
  c <> CSelf -> calling (kn h) t = Some (KOp c) -> ops_by t (ent bl) = ops t h -> In (t, c) R ->
  bl = p ++ (m, es) :: q -> enters (t, c, r) p m es q bl' i ->
  ((exists m', bl' = p ++ (m, es) :: (m', [(t, c, r)]) :: q) ->
     q = [] \/ exists b q', q = b :: q' /\ mrmw (fst b) = false) ->
  index_of (seen L t) (mo L) <= length p ->
  map fst bl' = mo L' -> numbered L' -> follows None bl' -> seen L' = setm (seen L) t i ->
  (k = WRet r \/ (k = wbadc /\ ovf bl')) ->
  exists R', inv (WCfg L' (setm T t (Some k)) h) bl' R'.
Proof.
  intros Ht [H1 H2 H3 H4 H5 H6 H7 H8] Hc Hcal Hops HR Ebl He Hq Hi M1 M2 M3 Es Hk.
  cbn [wsh wth whist] in *. pose proof (num_mids bl L H1 H2) as N.
  rewrite <- H1 in Hi.
  assert (EL : ent bl = (ent p ++ es) ++ ent q).
  { rewrite Ebl, flat_map_app. cbn [flat_map snd]. now rewrite <- app_assoc. }
  pose proof (enters_ent _ _ _ _ _ _ _ He) as EL'.
  pose proof (enters_own _ _ _ _ _ _ _ He) as Hown.
  set (A0 := ent p ++ es) in *. set (C0 := ent q) in *.
  (* all of the thread's operations are before the place *)
  assert (HC0 : ops_by t C0 = []).
  { destruct (H4 t) as (A & C & HS & HC).
    destruct (stands_before bl p m es q (seen L t) A C N Ebl Hi HS) as (X & _ & ->).
    rewrite ops_by_app in HC. now apply app_eq_nil in HC. }
  assert (HA0 : ops_by t A0 = ops t h).
  { rewrite <- Hops, EL, ops_by_app, HC0. now rewrite app_nil_r. }
  assert (Hothers : forall u, u <> t -> ops_by u (ent bl') = ops_by u (ent bl)).
  { intros u Hn. apply (ext_other t c r); [|auto]. right. exists A0, C0. auto. }
  (* everybody moves forward *)
  assert (Hfwd : forall u f, past bl (seen L u) f -> past bl' (seen L' u) f).
  { intros u f (A & C & HS & Hl). rewrite Es. destruct (Nat.eq_dec u t) as [->|Hn].
    - rewrite setm_eq. exists (A0 ++ [(t, c, r)]), C0. split; [exact Hown|]. intros v.
      destruct (stands_before bl p m es q (seen L t) A C N Ebl Hi HS) as (X & EX & _).
      fold A0 in EX. specialize (Hl v). rewrite EX, !ops_by_app, !app_length. lia.
    - rewrite setm_neq by exact Hn. rewrite Ebl in HS.
      destruct (enters_other _ _ _ _ _ _ _ _ _ _ He HS) as (A' & C' & HS' & X1 & _).
      exists A', C'. split; [exact HS'|]. intros v. specialize (Hl v). apply (ext_len _ _ _ v) in X1. lia. }
  destruct (in_split _ _ HR) as (R1 & R2 & ER).
  exists (R1 ++ R2). split; cbn [wsh wth whist]; try assumption.
  - intros u. rewrite <- Es || idtac. unfold own_last. rewrite Es. destruct (Nat.eq_dec u t) as [->|Hn].
    + rewrite setm_eq. exists (A0 ++ [(t, c, r)]), C0. auto.
    + rewrite setm_neq by exact Hn. destruct (H4 u) as (A & C & HS & HC). rewrite Ebl in HS.
      destruct (enters_other _ _ _ _ _ _ _ _ _ _ He HS) as (A' & C' & HS' & _ & X2).
      exists A', C'. split; [exact HS'|]. rewrite (ext_other _ _ _ _ _ u X2); auto.
  - intros u. apply Hfwd, H5.
  - intros A u d x B EB h1 h2 Eh Hl v. rewrite EL' in EB.
    destruct (tail_case _ _ _ _ _ _ EB) as [(w & EA & EC)|(w & EC & EA)].
    + (* a later entry *)
      assert (Hu : t <> u).
      { intros <-. rewrite EC in HC0. change ((t, d, x) :: B) with ([(t, d, x)] ++ B) in HC0.
        rewrite !ops_by_app, ops_by_one in HC0. apply app_eq_nil in HC0 as [_ HC0]. discriminate. }
      assert (EX : ext (t, c, r) (A0 ++ w) A) by (right; exists A0, w; auto).
      rewrite (ext_other _ _ _ _ _ u EX Hu) in Hl.
      apply Nat.le_trans with (length (ops_by v (A0 ++ w))); [|now apply (ext_len _ _ _ v EX)].
      eapply (H6 (A0 ++ w) u d x B); [|exact Eh|exact Hl].
      rewrite EL, EC, <- app_assoc. reflexivity.
    + destruct w as [|y w]; cbn in EC.
      * (* this entry *)
        injection EC as -> -> -> ->. rewrite app_nil_r in EA.
        destruct (H5 t) as (At & Ct & HS & Hp).
        destruct (stands_before bl p m es q (seen L t) At Ct N Ebl Hi HS) as (X & EX & _).
        fold A0 in EX. apply Nat.le_trans with (length (ops_by v At)).
        -- specialize (Hp v). pose proof (knows_mono h1 h2 t v). rewrite <- Eh in *. lia.
        -- rewrite <- EA, EX, ops_by_app, app_length. lia.
      * (* an earlier entry *)
        injection EC as <- EC. eapply (H6 A u d x (w ++ C0)); [|exact Eh|exact Hl].
        rewrite EL, EA, <- app_assoc. reflexivity.
  - intros u. destruct (Nat.eq_dec u t) as [->|Hn].
    + rewrite setm_eq. right. left. exists c, r. split; [exact Hcal|]. split; [|exact Hk].
      rewrite EL'. change ((t, c, r) :: C0) with ([(t, c, r)] ++ C0).
      rewrite !ops_by_app, ops_by_one, HC0, HA0. now rewrite app_nil_r.
    + rewrite setm_neq by exact Hn. specialize (H7 u). unfold status in *. rewrite Hothers by exact Hn.
      destruct (T u) as [k'|]; [|exact H7].
      destruct H7 as [(d & K1 & K2 & K3 & K4 & K5)|[(d & x & K1 & K2 & K3)|[(w & K1 & K2 & K3 & K4)|(w & K1 & K2 & K3 & K4)]]].
      * left. exists d. repeat (split; [assumption|]). rewrite ER in K5. apply in_app_or in K5 as [K5|[K5|K5]];
          [apply in_or_app; now left|congruence|apply in_or_app; now right].
      * right. left. exists d, x. split; [exact K1|]. split; [exact K2|].
        destruct K3 as [K3|[K3 K4]]; [now left|right]. split; [exact K3|].
        rewrite Ebl in K4. eapply ovf_enters; eauto.
      * right. right. left. exists w. repeat (split; [assumption|]). now apply Hfwd.
      * right. right. right. exists w. repeat (split; [assumption|]). now apply Hfwd.
  - rewrite EL'. eapply Permutation_trans; [exact H8|]. rewrite EL, ER, !map_app. cbn [map fst].
    rewrite <- !app_assoc. apply Permutation_app_head. cbn [app].
    rewrite app_assoc. apply Permutation_sym. rewrite (app_assoc (map fst C0)). apply Permutation_middle.
Qed.

Lemma stands_order bl i j A C A' C' : NoDup (mids bl) -> stands i bl A C -> stands j bl A' C' ->
  index_of i (map fst bl) <= index_of j (map fst bl) -> exists X, A' = A ++ X /\ C = X ++ C'.
Proof.
  intros N HS (p & m & es & q & E & Hm & -> & ->) Hi. eapply stands_before; eauto. subst j.
  assert (I : index_of (mid m) (map fst bl) = length p); [|lia].
  rewrite E, map_app. cbn [map fst]. rewrite index_of_mid.
  - now rewrite map_length.
  - rewrite E in N. rewrite !map_app in *. cbn [map fst] in *. now rewrite !map_map.
Qed.

(** A thread synchronizes with another. *)
Lemma inv_sync L T h bl R t u : T t = Some (kimpl bits sgn t (KSync u)) -> inv (WCfg L T h) bl R ->
  calling (kn h) t = Some (KSync u) -> ops_by t (ent bl) = ops t h ->
  past bl (seen L u) (source (kn h) t) ->
  inv (WCfg (learn t u L) (setm T t (Some (WRet None))) h) bl R.
Proof.
  intros Ht [H1 H2 H3 H4 H5 H6 H7 H8] Hcal Hops Hsrc. cbn [wsh wth whist] in *.
  pose proof (num_mids bl L H1 H2) as N.
  assert (E1 : mo (learn t u L) = mo L) by (unfold learn; destruct (_ <=? _); reflexivity).
  assert (E2 : fresh (learn t u L) = fresh L) by (unfold learn; destruct (_ <=? _); reflexivity).
  assert (E3 : forall w, w <> t -> seen (learn t u L) w = seen L w).
  { intros w Hn. unfold learn. destruct (_ <=? _); [|reflexivity]. cbn. now rewrite setm_neq. }
  assert (Hown : own_last bl (learn t u L) t).
  { unfold learn, own_last. destruct (_ <=? _) eqn:Ei; [|apply H4]. cbn [seen]. rewrite setm_eq.
    apply Nat.leb_le in Ei. rewrite <- H1 in Ei.
    destruct (H4 t) as (A & C & HS & HC), (H4 u) as (A' & C' & HS' & _).
    destruct (stands_order _ _ _ _ _ _ _ N HS HS' Ei) as (X & -> & ->).
    eexists _, _. split; [exact HS'|]. rewrite ops_by_app in HC. now apply app_eq_nil in HC. }
  assert (Hfwd : forall w f, past bl (seen L w) f -> past bl (seen (learn t u L) w) f).
  { intros w f Hp. destruct (Nat.eq_dec w t) as [->|Hn]; [|now rewrite E3].
    unfold learn. destruct (_ <=? _) eqn:Ei; [|exact Hp]. cbn [seen]. rewrite setm_eq.
    apply Nat.leb_le in Ei. rewrite <- H1 in Ei. destruct Hp as (A & C & HS & Hl).
    destruct (H4 u) as (A' & C' & HS' & _).
    destruct (stands_order _ _ _ _ _ _ _ N HS HS' Ei) as (X & -> & ->).
    eexists _, _. split; [exact HS'|]. intros v. specialize (Hl v). rewrite ops_by_app, app_length. lia. }
  assert (Hgot : past bl (seen (learn t u L) t) (source (kn h) t)).
  { unfold learn. destruct (_ <=? _) eqn:Ei; [cbn [seen]; now rewrite setm_eq|].
    apply Nat.leb_gt in Ei. rewrite <- H1 in Ei. destruct Hsrc as (A & C & HS & Hl).
    destruct (H4 t) as (A' & C' & HS' & _).
    destruct (stands_order _ _ _ _ _ _ _ N HS HS' ltac:(lia)) as (X & -> & ->).
    eexists _, _. split; [exact HS'|]. intros v. specialize (Hl v). rewrite ops_by_app, app_length. lia. }
  split; cbn [wsh wth whist]; try assumption.
  - now rewrite E1.
  - unfold numbered in *. now rewrite E1, E2.
  - intros w. destruct (Nat.eq_dec w t) as [->|Hn]; [exact Hown|]. unfold own_last. rewrite E3 by exact Hn. apply H4.
  - intros w. apply Hfwd, H5.
  - intros w. destruct (Nat.eq_dec w t) as [->|Hn].
    + rewrite setm_eq. right. right. right. exists u. auto.
    + rewrite setm_neq by exact Hn. specialize (H7 w). unfold status in *.
      destruct (T w) as [k|]; [|exact H7].
      destruct H7 as [K|[K|[(x & K1 & K2 & K3 & K4)|(x & K1 & K2 & K3 & K4)]]].
      * now left.
      * right. now left.
      * right. right. left. exists x. repeat (split; [assumption|]). now apply Hfwd.
      * right. right. right. exists x. repeat (split; [assumption|]). now apply Hfwd.
Qed.

Lemma inv_action L T h bl R t a n : T t = Some (WAct a) -> inv (WCfg L T h) bl R ->
  match a n L with
  | WNext L' k => exists bl' R', inv (WCfg L' (setm T t (Some k)) h) bl' R'
  | WStay L' => L' = L
  | WBad => overflows bits sgn v0 (ent bl)
  end.
Proof.
  intros Ht HI. pose proof (i_stat _ _ _ HI t) as St. cbn [wsh wth whist] in St. rewrite Ht in St. cbn [status] in St.
  destruct St as [(c & Hcal & Hc & E & Hops & HR)|[(c & r & _ & _ & [E|(E & Ho)])|[(u & Hcal & Hops & E & Hp)|(u & _ & _ & E & _)]]];
    try discriminate.
  - pose proof (op_effect t c n L Hc a (eq_sym E)) as K. unfold effect in K.
    destruct (a n L) as [L' k|L'|]; [|exact K|easy]. rewrite E in Ht.
    destruct K as (m & Hn & K). pose proof HI as [H1 H2 H3 _ _ _ _ _]. cbn [wsh wth whist] in *.
    pose proof Hn as Hn0. rewrite <- H1, nth_error_map in Hn.
    destruct (nth_error bl n) as [[m0 es]|] eqn:Eb; [|discriminate]. cbn in Hn. injection Hn as ->.
    destruct (nth_error_split bl n Eb) as (p & q & Ebl & Hlen).
    destruct K as [(Hi & -> & Hload & ->)|(m' & r & Hpl & -> & Hm' & Hbk & Hk)].
    + exists (p ++ (m, es ++ [(t, c, Some (mval m))]) :: q).
      eapply (inv_enter L T h bl R t c (Some (mval m)) p m es q _ (mid m)); eauto; cbn [mo fresh seen].
      * left. auto.
      * intros (m' & Em). apply app_inv_head in Em. injection Em as Em _. exfalso.
        apply (f_equal (@length _)) in Em. rewrite app_length in Em. cbn in Em. lia.
      * rewrite Hlen. exact Hi.
      * rewrite <- H1, Ebl, !map_app. reflexivity.
      * rewrite Ebl in H3. now apply follows_load.
    + assert (Hplace : index_of (seen L t) (mo L) <= n /\
                       (q = [] \/ exists b q', q = b :: q' /\ mrmw (fst b) = false)).
      { unfold place in Hpl. apply andb_true_iff in Hpl as [P1 P2]. apply Nat.leb_le in P1. split; [exact P1|].
        rewrite <- H1, Ebl, map_app, nth_error_app2 in P2 by (rewrite map_length; lia).
        rewrite map_length in P2. replace (S n - length p) with 1 in P2 by lia. cbn in P2.
        destruct q as [|b q]; [now left|right]. exists b, q. split; [reflexivity|]. cbn in P2. now apply negb_true_iff. }
      destruct Hplace as [Hi Hq].
      assert (Em : mo L = map fst p ++ m :: map fst q) by (rewrite <- H1, Ebl, map_app; reflexivity).
      assert (Ei : ins n m' (mo L) = map fst p ++ m :: m' :: map fst q).
      { rewrite Em. apply ins_at. now rewrite map_length. }
      exists (p ++ (m, es) :: (m', [(t, c, r)]) :: q).
      eapply (inv_enter L T h bl R t c r p m es q _ (mid m')); eauto; cbn [mo fresh seen].
      * right. exists m'. auto.
      * lia.
      * rewrite Ei, map_app. reflexivity.
      * rewrite Ei. now apply numbered_ins.
      * rewrite Ebl in H3. now apply follows_write.
      * now rewrite Hm'.
      * destruct Hk as [Hk|(Hk & Hr & Hw & d & Hd & Ho)]; [now left|right]. split; [exact Hk|].
        split; [exact Hw|]. exists p, m, es, m', t, c, r, [], q, d. auto.
  - injection E as ->. apply ovf_overflows; [exact Ho|apply HI].
  - injection E as ->. exists bl, R. now apply inv_sync.
Qed.

Notation kreach := (wreach (kimpl bits sgn) kcview krview (kallowed bits sgn) (wstart (loc0 v0))).

Lemma kreach_inv c : kreach c -> exists bl R, inv c bl R.
Proof.
  induction 1 as [|c c' _ (bl & R & HI) Hs].
  - eexists _, _. apply inv_start.
  - destruct Hs as [L T h t k Ht Ha|L T h t a n L' k Ht Ha|L T h t a n L' Ht Ha|L T h t r Ht].
    + exists bl. eapply inv_call; eauto.
    + pose proof (inv_action L T h bl R t a n Ht HI) as K. rewrite Ha in K. exact K.
    + pose proof (inv_action L T h bl R t a n Ht HI) as K. rewrite Ha in K. subst. eauto.
    + exists bl, R. now apply inv_return.
Qed.

Lemma inv_run c bl R : inv c bl R -> exists a, arun bits sgn v0 (ent bl) a.
Proof.
  intros HI. apply all_run; [|apply HI]. intros ->. destruct (i_own _ _ _ HI 0) as (A & C & (p & m & es & q & E & _) & _).
  now destruct p.
Qed.

Lemma inv_ops c bl R t : inv c bl R -> exists rest, ops_by t (ent bl) = ops t (whist c) ++ rest /\
  (rest = [] \/ exists k r, rest = [(k, r)] /\ calling (kn (whist c)) t = Some (KOp k)).
Proof.
  intros HI. pose proof (i_stat _ _ _ HI t) as St. unfold status in St.
  destruct (wth c t) as [k|].
  - destruct St as [(d & K1 & K2 & K3 & K4 & K5)|[(d & x & K1 & K2 & K3)|[(w & K1 & K2 & K3 & K4)|(w & K1 & K2 & K3 & K4)]]];
      try (exists []; rewrite app_nil_r; split; [assumption|now left]).
    exists [(d, x)]. split; [exact K2|]. right. eauto.
  - exists []. rewrite app_nil_r. split; [apply St|now left].
Qed.

Lemma kreach_order c : kreach c -> exists L R a, arun bits sgn v0 L a /\
  (forall t, exists rest, ops_by t L = ops t (whist c) ++ rest /\
     (rest = [] \/ exists k r, rest = [(k, r)] /\ calling (kn (whist c)) t = Some (KOp k))) /\
  respects (whist c) L /\ Permutation (invs (counter_calls (whist c))) (map fst L ++ R).
Proof.
  intros H. destruct (kreach_inv c H) as (bl & R & HI). destruct (inv_run c bl R HI) as [a Ha].
  exists (ent bl), R, a. split; [exact Ha|]. split; [intros t; now apply (inv_ops c bl R)|]. split; apply HI.
Qed.

Lemma kreach_bad c : kreach c -> wbad c -> exists L R, overflows bits sgn v0 L /\
  Permutation (invs (counter_calls (whist c))) (map fst L ++ R).
Proof.
  intros H (t & a & n & Ht & Ha). destruct (kreach_inv c H) as (bl & R & HI). destruct c as [L T h].
  cbn [wth wsh] in *. pose proof (inv_action L T h bl R t a n Ht HI) as K. rewrite Ha in K.
  exists (ent bl), R. split; [exact K|apply HI].
Qed.

(** * What follows *)

Lemma ops_by_nth t L : forall i k r, nth_error (ops_by t L) i = Some (k, r) ->
  exists A B, L = A ++ (t, k, r) :: B /\ length (ops_by t A) = i.
Proof.
  induction L as [|[[u c] x] L IH]; intros i k r H; [now destruct i|].
  unfold ops_by in H. cbn [filter map fst snd] in H. destruct (u =? t) eqn:E.
  - apply Nat.eqb_eq in E. subst u. destruct i as [|i]; cbn in H.
    + injection H as <- <-. exists [], L. auto.
    + destruct (IH i k r H) as (A & B & -> & Hl). exists ((t, c, x) :: A), B. split; [reflexivity|].
      change ((t, c, x) :: A) with ([(t, c, x)] ++ A). rewrite ops_by_app, ops_by_one. cbn. now rewrite Hl.
  - destruct (IH i k r H) as (A & B & -> & Hl). exists ((u, c, x) :: A), B. split; [reflexivity|].
    change ((u, c, x) :: A) with ([(u, c, x)] ++ A). apply Nat.eqb_neq in E.
    now rewrite ops_by_app, ops_by_other.
Qed.

Definition cntu (u : nat) (l : list (nat * acall)) : nat := length (filter (fun p => fst p =? u) l).
Lemma cntu_app u l m : cntu u (l ++ m) = cntu u l + cntu u m.
Proof. unfold cntu. now rewrite filter_app, app_length. Qed.
Lemma cntu_perm u l m : Permutation l m -> cntu u l = cntu u m.
Proof.
  unfold cntu. induction 1; cbn; auto.
  - destruct (fst x =? u); cbn; auto.
  - destruct (fst x =? u), (fst y =? u); cbn; auto.
  - congruence.
Qed.
Lemma cntu_ops u (L : korder) : cntu u (map fst L) = length (ops_by u L).
Proof.
  unfold cntu, ops_by. rewrite map_length. induction L as [|[[t c] r] L IH]; [reflexivity|].
  cbn. destruct (t =? u); cbn; now rewrite IH.
Qed.
Lemma cntu_begun u h : cntu u (invs (counter_calls h)) = begun u h.
Proof.
  unfold cntu, begun, counter_calls. induction h as [|[t [c|w]|t r] h IH]; [reflexivity| |exact IH|exact IH].
  cbn [flat_map app invs filter fst]. destruct (t =? u); cbn; now rewrite IH.
Qed.
Lemma cntu_nil l : (forall u, cntu u l = 0) -> l = [].
Proof. destruct l as [|[t c] l]; [reflexivity|]. intros H. specialize (H t). unfold cntu in H. cbn in H. rewrite Nat.eqb_refl in H. discriminate. Qed.
Lemma ops_by_nil (L : korder) : (forall u, ops_by u L = []) -> L = [].
Proof.
  intros H. destruct L as [|[[t c] r] L]; [reflexivity|]. specialize (H t). unfold ops_by in H. cbn in H.
  rewrite Nat.eqb_refl in H. discriminate.
Qed.

Lemma order_calls (L : korder) R h (P : acall -> Prop) : Permutation (invs (counter_calls h)) (map fst L ++ R) ->
  all_calls P (counter_calls h) -> forall p, In p L -> P (snd (fst p)).
Proof.
  intros HP HA [[t c] r] Hp. apply (HA t c). apply (proj1 (in_invs bits sgn v0 Hv0 t c (counter_calls h))).
  apply (Permutation_in _ (Permutation_sym HP)), in_or_app. left.
  now apply (in_map fst) in Hp.
Qed.

(** A thread which knows of all calls reads the sum. *)
Lemma joined c h1 t k r : kreach c -> whist c = h1 ++ [EInv t (KOp k); ERes t (Some r)] ->
  k = CLoad \/ k = CConv -> (forall u, knows h1 t u = begun u h1) ->
  all_calls (fun c => delta c <> None) (counter_calls h1) ->
  value_of bits sgn (v0 + total (fun d => d) (counter_calls h1)) r.
Proof.
  intros H Eh Hk Hall HD. destruct (kreach_order c H) as (L & R & a & Hrun & Hops & Hresp & HP).
  rewrite Eh in *.
  assert (Eops : ops t (h1 ++ [EInv t (KOp k); ERes t (Some r)]) = ops t h1 ++ [(k, Some r)]).
  { change [EInv t (KOp k); ERes t (Some r)] with ([@EInv kcall (option Z) t (KOp k)] ++ [ERes t (Some r)]).
    rewrite app_assoc, ops_res, kn_snoc. cbn [know1 calling]. now rewrite setm_eq, ops_inv. }
  destruct (Hops t) as (rest & Et & _). rewrite Eops, <- app_assoc in Et.
  destruct (ops_by_nth t L (length (ops t h1)) k (Some r)) as (A & B & EL & HA).
  { rewrite Et, nth_error_app2, Nat.sub_diag by lia. reflexivity. }
  assert (Hkn : forall u, begun u h1 <= length (ops_by u A)).
  { intros u. rewrite <- Hall. eapply (Hresp A t k (Some r) B EL); [reflexivity|]. lia. }
  assert (Hcnt : forall u, begun u h1 + cntu u [(t, k)] =
                   length (ops_by u A) + cntu u [(t, k)] + length (ops_by u B) + cntu u R).
  { intros u. pose proof (cntu_perm u _ _ HP) as Q. unfold counter_calls in Q.
    rewrite flat_map_app, invs_app, cntu_app in Q. cbn [flat_map app invs] in Q.
    fold (counter_calls h1) in Q. rewrite cntu_begun, EL, map_app, !cntu_app in Q. cbn [map fst] in Q.
    change ((t, k) :: map fst B) with ([(t, k)] ++ map fst B) in Q. rewrite cntu_app, !cntu_ops in Q. lia. }
  assert (B = []) as ->.
  { apply ops_by_nil. intros u. specialize (Hkn u). specialize (Hcnt u).
    apply length_zero_iff_nil. lia. }
  assert (R = []) as ->.
  { apply cntu_nil. intros u. specialize (Hkn u). specialize (Hcnt u). lia. }
  subst L. rewrite app_nil_r in HP. unfold arun in Hrun.
  inversion Hrun as [E|L' a' t' c' r' a'' Hr Hs E]; [now destruct A|].
  apply app_inj_tail in E as [-> E]. injection E as -> -> ->.
  assert (Er : r = a') by (destruct Hk as [-> | ->]; now inversion Hs). subst r.
  assert (HP1 : Permutation (invs (counter_calls h1)) (map fst A)).
  { unfold counter_calls in HP. rewrite flat_map_app, invs_app in HP. cbn [flat_map app invs] in HP.
    rewrite map_app in HP. cbn [map fst] in HP. eapply Permutation_app_inv_r. exact HP. }
  rewrite total_sumc, (sumc_perm _ _ _ HP1). apply arun_sum; auto.
  apply (order_calls A [] h1 (fun c => delta c <> None)); [now rewrite app_nil_r|exact HD].
Qed.

(** No two increments return the same. *)
Lemma kdistinct c : kreach c ->
  all_calls (fun k => k = CPreInc \/ k = CPostInc) (counter_calls (whist c)) ->
  (Z.of_nat (calls (counter_calls (whist c))) <= 2 ^ bits)%Z ->
  forall t i u j k r q,
    nth_error (ops t (whist c)) i = Some (k, r) -> nth_error (ops u (whist c)) j = Some (k, q) ->
    (t, i) <> (u, j) -> r <> q.
Proof.
  intros H HD Hn t i u j k r q Hi Hj Hne.
  destruct (kreach_order c H) as (L & R & a & Hrun & Hops & _ & HP).
  assert (Hat : forall t i r, nth_error (ops t (whist c)) i = Some (k, r) ->
            exists A B, L = A ++ (t, k, r) :: B /\ length (ops_by t A) = i).
  { intros w m e Hm. destruct (Hops w) as (rest & Ew & _). apply ops_by_nth. rewrite Ew, nth_error_app1; [exact Hm|].
    apply nth_error_Some. congruence. }
  destruct (Hat _ _ _ Hi) as (A1 & B1 & E1 & L1), (Hat _ _ _ Hj) as (A2 & B2 & E2 & L2).
  assert (Hab : length A1 <> length A2).
  { intros E. rewrite E1 in E2. apply app_eq_app in E2 as (w & [[Ea Eb]|[Ea Eb]]); subst;
      rewrite app_length in E; destruct w; cbn in E; try lia; rewrite app_nil_r in *; cbn in Eb; injection Eb as -> ->; congruence. }
  destruct (arun_nth bits sgn v0 Hv0 _ _ Hrun (order_calls L R _ _ HP HD)) as [_ Hv].
  destruct (Hv (length A1) t k r) as (z & -> & Hz).
  { rewrite E1, nth_error_app2, Nat.sub_diag by lia. reflexivity. }
  destruct (Hv (length A2) u k q) as (y & -> & Hy).
  { rewrite E2, nth_error_app2, Nat.sub_diag by lia. reflexivity. }
  intros [= <-]. apply Permutation_length in HP. rewrite app_length, map_length, <- calls_invs in HP.
  assert (length A1 < length L) by (rewrite E1, app_length; cbn; lia).
  assert (length A2 < length L) by (rewrite E2, app_length; cbn; lia).
  apply value_of_iff in Hz as (_ & k1 & Q1), Hy as (_ & k2 & Q2).
  assert (Z.of_nat (length A1) - Z.of_nat (length A2) = (k2 - k1) * 2 ^ bits)%Z as Hd by lia.
  pose proof (pow_pos' bits Hb). pose proof (pow_split bits Hb).
  assert (k2 - k1 = 0)%Z as Hz0 by nia. rewrite Hz0 in Hd. lia.
Qed.

Lemma knarrow_not_bad c : wide_signed bits sgn = false -> kreach c -> ~ wbad c.
Proof.
  intros Hw H Hbad. destruct (kreach_bad c H Hbad) as (L & R & (Ho & _) & _). congruence.
Qed.

Lemma kbounded_not_bad c : kreach c ->
  all_calls (fun k => delta k <> None) (counter_calls (whist c)) ->
  (v0 + total (Z.max 0) (counter_calls (whist c)) <= hi bits sgn)%Z ->
  (lo bits sgn <= v0 + total (Z.min 0) (counter_calls (whist c)))%Z -> ~ wbad c.
Proof.
  intros H HD H1 H2 Hbad.
  destruct (kreach_bad c H Hbad) as (L & R & (Hw & L1 & L2 & t & k & r & v & d & EL & Hrun & Hd & Hout) & HP).
  rewrite !total_sumc in *. rewrite (sumc_perm _ _ _ HP) in H1. rewrite (sumc_perm _ _ _ HP) in H2.
  pose proof (order_calls L R _ _ HP HD) as HL. rewrite EL in *. apply Hout.
  eapply (sums_in_range bits sgn Hb v0 Hv0 L1 L2 t k r v d R); eauto.
Qed.
End Counter.
