(** Proofs about data_mutex. *)
From Coq Require Import List Arith Bool Lia.
From Verif Require Import Base ConcModel ConcSpec ConcProofs DmutexModel DmutexSpec.
Import ListNotations.

(** * Counting *)
Lemma eqb_sym a b : eqb a b = eqb b a.
Proof. now destruct a, b. Qed.
Definition pw (t : nat) (ex : bool) (x : option guard) : nat := if points t ex x then 1 else 0.
Definition cg (t : nat) (ex : bool) (l : list (option guard)) : nat := length (filter (points t ex) l).
Lemma cg_app t ex l m : cg t ex (l ++ m) = cg t ex l + cg t ex m.
Proof. unfold cg. now rewrite filter_app, app_length. Qed.
Lemma cg_one t ex x : cg t ex [x] = pw t ex x.
Proof. unfold cg, pw. simpl. now destruct (points t ex x). Qed.
Lemma cg_cons t ex x l : cg t ex (x :: l) = pw t ex x + cg t ex l.
Proof. change (x :: l) with ([x] ++ l). now rewrite cg_app, cg_one. Qed.
Lemma cg_upd t ex l i x y : nth_error l i = Some x ->
  cg t ex (upd l i y) + pw t ex x = cg t ex l + pw t ex y.
Proof.
  revert i; induction l as [|o l IH]; intros [|i] H; simpl in H; try discriminate.
  - injection H as ->. cbn [upd]. rewrite !cg_cons. lia.
  - cbn [upd]. rewrite !cg_cons. specialize (IH i H). lia.
Qed.
Lemma cg_pos t ex l i x : nth_error l i = Some x -> points t ex x = true -> 0 < cg t ex l.
Proof.
  intros H Hp. pose proof (cg_upd t ex l i x None H) as K. unfold pw in K. rewrite Hp in K. simpl in K. lia.
Qed.
Lemma pw_other t ex u k p : u <> t -> pw t ex (Some (Guard u k p)) = 0.
Proof. intros H. unfold pw. simpl. destruct p; auto. now rewrite (proj2 (Nat.eqb_neq _ _) H). Qed.
Definition pv (ex : bool) (k : kind) (p : ptr) : nat :=
  match p with PSet => if eqb (is_ex k) ex then 1 else 0 | _ => 0 end.
Lemma pw_self t ex k p : pw t ex (Some (Guard t k p)) = pv ex k p.
Proof. unfold pw, pv. simpl. destruct p; auto. now rewrite Nat.eqb_refl. Qed.

Lemma count_remove1 t u l :
  count_occ Nat.eq_dec (remove1 t l) u = count_occ Nat.eq_dec l u - (if u =? t then 1 else 0).
Proof.
  induction l as [|v l IH]; [destruct (u =? t); reflexivity|]. cbn [remove1].
  destruct (Nat.eqb_spec v t) as [->|Hv].
  - cbn [count_occ]. destruct (Nat.eq_dec t u) as [->|Hu].
    + rewrite Nat.eqb_refl. lia.
    + rewrite (proj2 (Nat.eqb_neq u t)) by auto. lia.
  - cbn [count_occ]. rewrite IH. destruct (Nat.eq_dec v u) as [->|Hu].
    + rewrite (proj2 (Nat.eqb_neq u t)) by auto. lia.
    + lia.
Qed.
Lemma is_in_count t l : is_in t l = true <-> 0 < count_occ Nat.eq_dec l t.
Proof.
  unfold is_in. rewrite existsb_exists. change (0 < ?x) with (x > 0). rewrite <- (count_occ_In Nat.eq_dec). split.
  - intros (x & H & E). apply Nat.eqb_eq in E. now subst.
  - intros H. exists t. now rewrite Nat.eqb_refl.
Qed.
Lemma count_nil l : (forall t, count_occ Nat.eq_dec l t = 0) -> l = [].
Proof.
  destruct l as [|u l]; [reflexivity|]. intros H. specialize (H u). simpl in H.
  destruct (Nat.eq_dec u u); congruence.
Qed.

Section DmutexProofs.
Variable recur : bool.
Notation lent := (nat * dvcall * dvres)%type.
Notation dimpl := (dimpl recur false).

Inductive access := ANone | ARead | AWrite.

(** What the proof knows of a thread: its call, some of its guards, how often it has locked the
    mutex, how many of its guards point to the data, its access, and its guard not initialised. *)
Record gh := Gh { gst : lst dvcall dvres; gm : nat -> option guard; gh_ : bool -> nat; gc : bool -> nat;
                  gw : access; graw : option nat }.

Variable v0 : nat.
Definition srun := seq_run datum v0.

Definition facts_ok (s : dst) (t : nat) (g : gh) : Prop :=
  forall l x, gm g l = Some x -> nth_error (gs s) l = Some (Some x) /\ gt x = t.
Definition raw_ok (s : dst) (t : nat) (g : gh) : Prop :=
  forall l x, nth_error (gs s) l = Some (Some x) -> gt x = t -> gp x = PRaw -> graw g = Some l.
Definition acc_ok (s : dst) (t : nat) (g : gh) : Prop :=
  (wr s = Some t <-> gw g = AWrite) /\
  count_occ Nat.eq_dec (rd s) t = (match gw g with ARead => 1 | _ => 0 end) /\
  match gw g with
  | ANone => True
  | ARead => 0 < gh_ g true + gh_ g false
  | AWrite => 0 < gh_ g true
  end.
Definition free_ok (g : gh) : Prop :=
  gst g = LFree -> gw g = ANone /\ graw g = None /\ forall ex, gh_ g ex = gc g ex.
Definition th_ok (s : dst) (t : nat) (g : gh) : Prop :=
  facts_ok s t g /\ raw_ok s t g /\ (forall ex, holds t ex s = gh_ g ex) /\
  (forall ex, cg t ex (gs s) = gc g ex) /\ acc_ok s t g /\ free_ok g.

Definition mutex_ok (s : dst) : Prop :=
  match mex s with Some (u, d) => 0 < d /\ msh s = [] | None => True end.
Definition data_ok (s : dst) (L : list lent) : Prop :=
  exists v, srun L v /\ (wr s = None -> dat s = Some v).

Definition I (s : dst) (G : nat -> gh) (L : list lent) : Prop :=
  mutex_ok s /\ data_ok s L /\ forall t, th_ok s t (G t).

Notation sP := (safeP gh gst I (fun _ => False)).

(** Nobody else has locked the mutex when one has it exclusively. *)
Lemma alone s t u : mutex_ok s -> u <> t -> 0 < holds t true s -> holds u true s = 0 /\ holds u false s = 0.
Proof.
  unfold mutex_ok, holds. destruct (mex s) as [[w d]|]; [|lia]. intros [Hd ->] Hu.
  destruct (Nat.eqb_spec w t) as [->|]; [|lia]. intros _. rewrite (proj2 (Nat.eqb_neq t u)) by auto. now split.
Qed.

(** What [t] does leaves alone what is known of the others. *)
Definition quiet_change (s s' : dst) (t : nat) : Prop :=
  forall u, u <> t ->
    (forall l x, gt x = u -> (nth_error (gs s') l = Some (Some x) <-> nth_error (gs s) l = Some (Some x))) /\
    (forall ex, holds u ex s' = holds u ex s) /\ (forall ex, cg u ex (gs s') = cg u ex (gs s)) /\
    (wr s' = Some u <-> wr s = Some u) /\
    count_occ Nat.eq_dec (rd s') u = count_occ Nat.eq_dec (rd s) u.

Lemma I_change s s' G L L' t g' :
  I s G L -> quiet_change s s' t -> mutex_ok s' -> data_ok s' L' -> th_ok s' t g' ->
  I s' (setm G t g') L'.
Proof.
  intros (A & B & C) Q A' B' T'. split; [exact A'|]. split; [exact B'|].
  intros u. destruct (Nat.eq_dec u t) as [->|Hn]; [now rewrite setm_eq|]. rewrite setm_neq by auto.
  destruct (C u) as (C1 & C2 & C3 & C4 & (C5 & C6 & C7) & C8). destruct (Q u Hn) as (Q1 & Q2 & Q3 & Q4 & Q5).
  split; [|split; [|split; [|split; [|split]]]]; auto.
  - intros l x Hx. destruct (C1 l x Hx) as [K1 K2]. split; [now apply Q1|exact K2].
  - intros l x Hx Hu. apply C2; auto. now apply Q1.
  - intros ex. rewrite Q2. apply C3.
  - intros ex. rewrite Q3. apply C4.
  - split; [rewrite Q4; exact C5|]. split; [congruence|exact C7].
Qed.

(** A call that is not about the data takes effect at any action. *)
Inductive lin_here (t : nat) (l : lst dvcall dvres) : lst dvcall dvres -> list lent -> Prop :=
| lh_no : lin_here t l l []
| lh_yes : l = LPend VOther -> lin_here t l (LDone VOther VNone) [(t, VOther, VNone)].
Lemma lh_effect t l l' M L : lin_here t l l' M -> effect t l L l' (L ++ M).
Proof. intros K. destruct K; [rewrite app_nil_r; apply ef_none|now apply ef_lin]. Qed.
Lemma lh_data t l l' M s s' L : lin_here t l l' M -> wr s' = wr s -> dat s' = dat s ->
  data_ok s L -> data_ok s' (L ++ M).
Proof.
  intros K Hw Hd (v & Hv & Hdat). exists v. rewrite Hw, Hd. split; [|exact Hdat].
  destruct K; [now rewrite app_nil_r|]. econstructor; [exact Hv|constructor].
Qed.
Lemma lh_free t l l' M : lin_here t l l' M -> l <> LFree -> l' <> LFree.
Proof. intros K. destruct K; congruence. Qed.

Lemma mine_ok s t g l x : facts_ok s t g -> gm g l = Some x -> mine t l s = Some x.
Proof. intros H E. destruct (H l x E) as [H1 H2]. unfold mine. rewrite H1, H2. now rewrite Nat.eqb_refl. Qed.

Lemma free_not g : gst g <> LFree -> free_ok g.
Proof. intros H K. congruence. Qed.

(** The guard's own pointer counts among those of the thread. *)
Lemma own_count s G L t g l x : I s G L -> G t = g -> gm g l = Some x -> gp x = PSet -> 0 < gc g (is_ex (gk x)).
Proof.
  intros (_ & _ & C) Hg Hx Hp. pose proof (C t) as D. rewrite Hg in D. destruct D as (D1 & _ & _ & D4 & _).
  destruct (D1 l x Hx) as [K1 K2]. rewrite <- D4. eapply cg_pos; [exact K1|].
  destruct x as [xt xk xp]. cbn in *. subst. cbn. now rewrite Nat.eqb_refl, eqb_reflx.
Qed.

(** * The actions *)

Lemma safe_get t g l x st' M (Q : _ -> gh -> Prop) :
  gst g <> LFree -> gm g l = Some x -> lin_here t (gst g) st' M ->
  ((gp x = PSet -> 0 < gc g (is_ex (gk x))) -> Q x (Gh st' (gm g) (gh_ g) (gc g) (gw g) (graw g))) ->
  sP t g (g_get t l) Q.
Proof.
  intros Hf E Hl HQ. unfold g_get. cbn [safeP]. intros _ s G L HI Hg. pose proof HI as (A & B & C).
  pose proof (C t) as D. rewrite Hg in D. destruct D as (D1 & D2 & D3 & D4 & D5 & D6).
  rewrite (mine_ok s t g l x D1 E).
  exists (Gh st' (gm g) (gh_ g) (gc g) (gw g) (graw g)), (L ++ M).
  split; [now apply lh_effect|]. split; [|apply HQ; eapply own_count; eauto]. apply (I_change s s G L); auto.
  - intros u Hu. repeat split; auto; tauto.
  - eapply lh_data; eauto.
  - split; [exact D1|]. split; [exact D2|]. split; [exact D3|]. split; [exact D4|]. split; [exact D5|].
    apply free_not. eapply lh_free; eauto.
Qed.

Definition upb (f : bool -> nat) (ex : bool) (v : nat) : bool -> nat := fun e => if eqb e ex then v else f e.
Lemma upb_eq f ex v : upb f ex v ex = v.
Proof. unfold upb. now rewrite eqb_reflx. Qed.
Lemma upb_neg f ex v : upb f ex v (negb ex) = f (negb ex).
Proof. unfold upb. now destruct ex. Qed.

Lemma gs_change s g' t u : u <> t ->
  (forall l x, gt x = u -> (nth_error g' l = Some (Some x) <-> nth_error (gs s) l = Some (Some x))) ->
  (forall ex, cg u ex g' = cg u ex (gs s)) -> 
  (forall l x, gt x = u -> (nth_error (gs (with_gs s g')) l = Some (Some x) <-> nth_error (gs s) l = Some (Some x))) /\
  (forall ex, holds u ex (with_gs s g') = holds u ex s) /\ (forall ex, cg u ex (gs (with_gs s g')) = cg u ex (gs s)) /\
  (wr (with_gs s g') = Some u <-> wr s = Some u) /\
  count_occ Nat.eq_dec (rd (with_gs s g')) u = count_occ Nat.eq_dec (rd s) u.
Proof. intros Hu H1 H2. repeat split; try tauto; try apply H1; auto. Qed.

Lemma nth_snoc {A} (l : list A) (x : A) i :
  nth_error (l ++ [x]) i = if i =? length l then Some x else nth_error l i.
Proof.
  destruct (Nat.eqb_spec i (length l)) as [->|H].
  - rewrite nth_error_app2, Nat.sub_diag by lia. reflexivity.
  - destruct (Nat.lt_ge_cases i (length l)).
    + now rewrite nth_error_app1.
    + rewrite !(proj2 (nth_error_None _ _)); [reflexivity|lia|rewrite app_length; simpl; lia].
Qed.

Lemma safe_new t g k p st' M (Q : _ -> gh -> Prop) :
  gst g <> LFree -> lin_here t (gst g) st' M -> graw g = None ->
  (forall l, gm g l = None ->
     Q l (Gh st' (setm (gm g) l (Some (Guard t k p))) (gh_ g) (fun ex => gc g ex + pv ex k p) (gw g)
             (match p with PRaw => Some l | _ => None end))) ->
  sP t g (g_new t k p) Q.
Proof.
  intros Hf Hl Hr HQ. unfold g_new. cbn [safeP]. intros _ s G L HI Hg. pose proof HI as (A & B & C).
  pose proof (C t) as D. rewrite Hg in D. destruct D as (D1 & D2 & D3 & D4 & D5 & D6).
  assert (gm g (length (gs s)) = None) as Hnone.
  { destruct (gm g (length (gs s))) as [x|] eqn:E; [|reflexivity]. destruct (D1 _ _ E) as [K _].
    rewrite (proj2 (nth_error_None _ _)) in K by lia. discriminate. }
  set (g' := Gh st' (setm (gm g) (length (gs s)) (Some (Guard t k p))) (gh_ g) (fun ex => gc g ex + pv ex k p) (gw g)
             (match p with PRaw => Some (length (gs s)) | _ => None end)).
  exists g', (L ++ M). split; [now apply lh_effect|]. split; [|cbn [safeP]; now apply HQ].
  apply (I_change s _ G L); auto.
  - intros u Hu. apply (gs_change s _ t); auto.
    + intros l x Hx. rewrite nth_snoc. destruct (Nat.eqb_spec l (length (gs s))) as [->|]; [|tauto].
      rewrite (proj2 (nth_error_None _ _)) by lia. split; [intros [= <-]; cbn in Hx; congruence|discriminate].
    + intros ex. rewrite cg_app, cg_one, pw_other by auto. lia.
  - eapply lh_data; eauto; reflexivity.
  - split; [|split; [|split; [|split; [|split]]]]; cbn [g' gm gh_ gc gw graw with_gs gs].
    + intros l x. cbn [g' gm with_gs gs]. unfold setm. rewrite nth_snoc. destruct (Nat.eqb_spec l (length (gs s))) as [->|].
      * intros [= <-]. now split.
      * apply D1.
    + intros l x. cbn [g' graw with_gs gs]. rewrite nth_snoc. destruct (Nat.eqb_spec l (length (gs s))) as [->|].
      * intros [= <-] _. cbn. intros ->. reflexivity.
      * intros H1 H2 H3. specialize (D2 l x H1 H2 H3). congruence.
    + exact D3.
    + intros ex. rewrite cg_app, cg_one, pw_self, D4. reflexivity.
    + exact D5.
    + apply free_not. eapply lh_free; eauto.
Qed.

Lemma nth_upd {A} (l : list A) i j x y : nth_error l i = Some y ->
  nth_error (upd l i x) j = if j =? i then Some x else nth_error l j.
Proof.
  intros H. assert (i < length l) by (apply nth_error_Some; congruence).
  destruct (Nat.eqb_spec j i) as [->|E]; [now apply nth_error_upd_eq|]. apply nth_error_upd_neq. auto.
Qed.

Lemma safe_put t g l x y (Q : _ -> gh -> Prop) :
  gst g <> LFree -> gm g l = Some x -> y <> Some PRaw -> (graw g = None \/ graw g = Some l) ->
  Q tt (Gh (gst g) (setm (gm g) l (match y with Some p => Some (Guard t (gk x) p) | None => None end)) (gh_ g)
           (fun ex => gc g ex - pv ex (gk x) (gp x) + match y with Some p => pv ex (gk x) p | None => 0 end) (gw g) None) ->
  sP t g (g_put t l y) Q.
Proof.
  intros Hf Ex Hy Hr HQ. unfold g_put. cbn [safeP]. intros _ s G L HI Hg. pose proof HI as (A & B & C).
  pose proof (C t) as D. rewrite Hg in D. destruct D as (D1 & D2 & D3 & D4 & D5 & D6).
  rewrite (mine_ok s t g l x D1 Ex). destruct (D1 l x Ex) as [Hn Ht].
  eexists (Gh _ _ _ _ _ _), L. split; [apply ef_none|]. split; [|exact HQ].
  apply (I_change s _ G L); auto.
  - intros u Hu. apply (gs_change s _ t); auto.
    + intros j z Hz. rewrite (nth_upd _ _ _ _ _ Hn). destruct (Nat.eqb_spec j l) as [->|]; [|tauto].
      rewrite Hn. split; [|intros [= ->]; congruence]. destruct y; intros [= <-]. cbn in Hz. congruence.
    + intros ex. pose proof (cg_upd u ex _ _ _ (match y with Some p => Some (Guard t (gk x) p) | None => None end) Hn) as K.
      destruct x as [xt xk xp]. cbn in Ht. subst xt. rewrite pw_other in K by auto.
      destruct y; [rewrite pw_other in K by auto|unfold pw in K; simpl in K]; lia.
  - split; [|split; [|split; [|split; [|split]]]]; cbn [gm gh_ gc gw graw with_gs gs].
    + intros j z. cbn [gm with_gs gs]. unfold setm. rewrite (nth_upd _ _ _ _ _ Hn). destruct (Nat.eqb_spec j l) as [->|].
      * destruct y; [|discriminate]. intros [= <-]. now split.
      * apply D1.
    + intros j z. cbn [graw with_gs gs]. rewrite (nth_upd _ _ _ _ _ Hn). destruct (Nat.eqb_spec j l) as [->|].
      * destruct y; intros [= <-]. cbn. intros _ ->. congruence.
      * intros H1 H2 H3. specialize (D2 j z H1 H2 H3). destruct Hr; congruence.
    + exact D3.
    + intros ex. pose proof (cg_upd t ex _ _ _ (match y with Some p => Some (Guard t (gk x) p) | None => None end) Hn) as K.
      pose proof (cg_upd t ex _ _ _ None Hn) as K'. change (pw t ex None) with 0 in K'.
      destruct x as [xt xk xp]. cbn in Ht. subst xt. rewrite pw_self, D4 in K. rewrite pw_self, D4 in K'.
      destruct y; [rewrite pw_self in K|unfold pw in K; simpl points in K]; cbn [gk gp] in *; lia.
    + exact D5.
    + apply free_not. exact Hf.
Qed.

(** * Locking *)
Definition may (g : gh) (ex : bool) : Prop := gh_ g (negb ex) = 0 /\ (recur = true \/ gh_ g ex = 0).

Lemma I_holds s e h G L t g f :
  I s G L -> G t = g -> gst g <> LFree -> gw g = ANone ->
  mutex_ok (with_m s e h) -> (forall u ex, u <> t -> holds u ex (with_m s e h) = holds u ex s) ->
  (forall ex, holds t ex (with_m s e h) = f ex) ->
  I (with_m s e h) (setm G t (Gh (gst g) (gm g) f (gc g) (gw g) (graw g))) L.
Proof.
  intros HI Hg Hf Hw Hm Ho Ht. pose proof HI as (A & B & C).
  pose proof (C t) as D. rewrite Hg in D. destruct D as (D1 & D2 & D3 & D4 & D5 & D6).
  apply (I_change s _ G L); auto.
  - intros u Hu. repeat split; auto; tauto.
  - split; [exact D1|]. split; [exact D2|]. split; [exact Ht|]. split; [exact D4|]. split.
    + destruct D5 as (E1 & E2 & E3). split; [exact E1|]. split; [exact E2|]. cbn [gw]. now rewrite Hw.
    + now apply free_not.
Qed.

Lemma take_ok s G L t g ex busy : I s G L -> G t = g -> gst g <> LFree -> gw g = ANone -> may g ex ->
  (exists s', m_take recur ex t s busy = Next s' (Ret LOk) /\
     I s' (setm G t (Gh (gst g) (gm g) (upb (gh_ g) ex (S (gh_ g ex))) (gc g) (gw g) (graw g))) L) \/
  m_take recur ex t s busy = busy.
Proof.
  intros HI Hg Hf Hw [M1 M2]. pose proof HI as (A & B & C).
  pose proof (C t) as D. rewrite Hg in D. destruct D as (D1 & D2 & D3 & D4 & D5 & D6).
  unfold m_take. unfold mutex_ok in A.
  pose proof (D3 true) as Ht. pose proof (D3 false) as Hs. unfold holds in Ht, Hs.
  destruct (mex s) as [[u d]|] eqn:Em.
  - destruct A as [Hd Hm]. destruct (Nat.eqb_spec u t) as [->|Hu]; [|now right].
    destruct ex; cbn [negb] in *; [|lia].
    destruct M2 as [M2|M2]; [|lia]. rewrite M2. cbn [andb]. left. eexists. split; [reflexivity|].
    apply I_holds; auto.
    + cbn. rewrite Hm. split; [lia|reflexivity].
    + intros u [|] Hu; unfold holds; cbn [with_m mex msh]; rewrite ?Em; [|reflexivity].
      now rewrite (proj2 (Nat.eqb_neq t u)) by auto.
    + intros [|]; unfold holds, upb; cbn [with_m mex msh eqb]; [rewrite Nat.eqb_refl; congruence|exact Hs].
  - destruct ex; cbn [negb] in *.
    + destruct (msh s) as [|a l] eqn:Es.
      * left. eexists. split; [reflexivity|]. apply I_holds; auto.
        -- cbn. split; [lia|reflexivity].
        -- intros u [|] Hu; unfold holds; cbn [with_m mex msh]; rewrite ?Em, ?Es; [|reflexivity].
           now rewrite (proj2 (Nat.eqb_neq t u)) by auto.
        -- intros [|]; unfold holds, upb; cbn [with_m mex msh eqb]; [rewrite Nat.eqb_refl; congruence|exact Hs].
      * destruct (is_in t (a :: l)) eqn:Ei; [|now right]. apply is_in_count in Ei. lia.
    + assert (is_in t (msh s) && negb recur = false) as ->.
      { destruct (is_in t (msh s)) eqn:Ei; [|reflexivity]. apply is_in_count in Ei.
        destruct M2 as [->|]; [reflexivity|lia]. }
      left. eexists. split; [reflexivity|]. apply I_holds; auto.
      * intros u [|] Hu; unfold holds; cbn [with_m mex msh]; rewrite ?Em; [reflexivity|].
        cbn [count_occ]. destruct (Nat.eq_dec t u); congruence.
      * intros [|]; unfold holds, upb; cbn [with_m mex msh eqb]; [exact Ht|].
        cbn [count_occ]. destruct (Nat.eq_dec t t); congruence.
Qed.

Lemma safe_lock t g ex (Q : _ -> gh -> Prop) :
  gst g <> LFree -> gw g = ANone -> may g ex ->
  Q LOk (Gh (gst g) (gm g) (upb (gh_ g) ex (S (gh_ g ex))) (gc g) (gw g) (graw g)) ->
  sP t g (m_lock recur false ex t) Q.
Proof.
  intros Hf Hw Hm HQ. unfold m_lock. cbn [safeP]. intros n s G L HI Hg.
  assert (match m_take recur ex t s Wait with
          | Next s' c' => exists g' L', effect t (gst g) L (gst g') L' /\ I s' (setm G t g') L' /\ sP t g' c' Q
          | Wait => True | Bad => False end) as H.
  { destruct (take_ok s G L t g ex Wait HI Hg Hf Hw Hm) as [(s' & -> & HI')| ->]; [|exact Logic.I].
    eexists (Gh _ _ _ _ _ _), L. split; [apply ef_none|]. split; [exact HI'|exact HQ]. }
  destruct n; exact H.
Qed.

Lemma safe_try t g ex (Q : _ -> gh -> Prop) :
  gst g <> LFree -> gw g = ANone -> may g ex ->
  Q LOk (Gh (gst g) (gm g) (upb (gh_ g) ex (S (gh_ g ex))) (gc g) (gw g) (graw g)) -> Q LNo g ->
  sP t g (m_try recur false ex t) Q.
Proof.
  intros Hf Hw Hm HQ HQ'. unfold m_try. cbn [safeP]. intros n s G L HI Hg.
  assert (exists g' L', effect t (gst g) L (gst g') L' /\ I s (setm G t g') L' /\ sP t g' (Ret LNo) Q) as Hno.
  { exists g, L. split; [apply ef_none|]. split; [|exact HQ'].
    apply (I_change s s G L); auto; try apply HI.
    - intros u Hu. repeat split; auto; tauto.
    - rewrite <- Hg. apply HI. }
  assert (match m_take recur ex t s (Next s (Ret LNo)) with
          | Next s' c' => exists g' L', effect t (gst g) L (gst g') L' /\ I s' (setm G t g') L' /\ sP t g' c' Q
          | Wait => True | Bad => False end) as H.
  { destruct (take_ok s G L t g ex (Next s (Ret LNo)) HI Hg Hf Hw Hm) as [(s' & -> & HI')| ->]; [|exact Hno].
    eexists (Gh _ _ _ _ _ _), L. split; [apply ef_none|]. split; [exact HI'|exact HQ]. }
  destruct n as [|[|n]]; [exact H|exact Hno|exact Hno].
Qed.

Lemma safe_unlock t g ex (Q : _ -> gh -> Prop) :
  gst g <> LFree -> gw g = ANone -> 0 < gh_ g ex ->
  Q tt (Gh (gst g) (gm g) (upb (gh_ g) ex (gh_ g ex - 1)) (gc g) (gw g) (graw g)) ->
  sP t g (m_unlock ex t) Q.
Proof.
  intros Hf Hw Hp HQ. unfold m_unlock. cbn [safeP]. intros _ s G L HI Hg. pose proof HI as (A & B & C).
  pose proof (C t) as D. rewrite Hg in D. destruct D as (D1 & D2 & D3 & D4 & D5 & D6).
  pose proof (D3 true) as Ht. pose proof (D3 false) as Hs. unfold holds in Ht, Hs. unfold mutex_ok in A.
  destruct ex.
  - destruct (mex s) as [[u d]|] eqn:Em; [|lia]. destruct (Nat.eqb_spec u t) as [->|]; [|lia].
    destruct A as [Hd Hm].
    eexists (Gh _ _ _ _ _ _), L. split; [apply ef_none|]. split; [|exact HQ]. apply I_holds; auto.
    + cbn. destruct (Nat.eqb_spec d 1); [exact Logic.I|]. split; [lia|exact Hm].
    + intros u [|] Hu; unfold holds; cbn [with_m mex msh]; rewrite ?Em; [|reflexivity].
      rewrite (proj2 (Nat.eqb_neq t u)) by auto. destruct (d =? 1); [reflexivity|].
      now rewrite (proj2 (Nat.eqb_neq t u)) by auto.
    + intros [|]; unfold holds, upb; cbn [with_m mex msh eqb]; [|exact Hs].
      destruct (Nat.eqb_spec d 1); [lia|]. rewrite Nat.eqb_refl. lia.
  - assert (is_in t (msh s) = true) as -> by (apply is_in_count; lia).
    eexists (Gh _ _ _ _ _ _), L. split; [apply ef_none|]. split; [|exact HQ]. apply I_holds; auto.
    + unfold mutex_ok. cbn [with_m mex msh]. destruct (mex s) as [[u d]|]; [|exact Logic.I].
      destruct A as [Hd Hm]. rewrite Hm in Hs. simpl in Hs. lia.
    + intros u [|] Hu; unfold holds; cbn [with_m mex msh]; [reflexivity|].
      rewrite count_remove1, (proj2 (Nat.eqb_neq u t)) by auto. lia.
    + intros [|]; unfold holds, upb; cbn [with_m mex msh eqb]; [exact Ht|].
      rewrite count_remove1, Nat.eqb_refl. lia.
Qed.

(** * Functions of guards *)

(** What a function leaves: the counts agree, no access, no guard without a value. *)
Definition ready (st : lst dvcall dvres) (g : gh) : Prop :=
  gst g = st /\ gw g = ANone /\ graw g = None /\ forall ex, gh_ g ex = gc g ex.

Lemma returns_ok t g r c v : ready (LDone c v) g -> (forall s, drview s r = v) ->
  returns drview gh gst I t r g.
Proof.
  intros (H1 & H2 & H3 & H4) Hr s G L HI Hg. split; [exists c; now rewrite H1, Hr|].
  exists (Gh LFree (gm g) (gh_ g) (gc g) (gw g) (graw g)). split; [reflexivity|].
  pose proof HI as (A & B & C). pose proof (C t) as D. rewrite Hg in D.
  destruct D as (D1 & D2 & D3 & D4 & D5 & D6).
  apply (I_change s s G L); auto.
  - intros u Hu. repeat split; auto; tauto.
  - split; [exact D1|]. split; [exact D2|]. split; [exact D3|]. split; [exact D4|]. split; [exact D5|].
    intros _. cbn. auto.
Qed.

Lemma safe_dtor t g l x st' M (Q : _ -> gh -> Prop) :
  gst g <> LFree -> lin_here t (gst g) st' M -> gm g l = Some x -> gp x <> PRaw ->
  gw g = ANone -> graw g = None -> (forall ex, gh_ g ex = gc g ex) ->
  (forall g', ready st' g' -> (forall k y, k <> l -> gm g k = Some y -> gm g' k = Some y) -> Q tt g') ->
  sP t g (g_dtor t l) Q.
Proof.
  intros Hf Hl Ex Hx Hw Hr Hc HQ. unfold g_dtor. apply safeP_bind.
  assert (st' <> LFree) as Hf' by (eapply lh_free; eauto).
  apply (safe_get t g l x st' M); auto. intros Hpos. destruct (gp x) eqn:Ep; [congruence| |].
  - cbn [cbind]. apply (safe_put t _ l x None); cbn [gst gm gh_ gc gw graw]; auto; [congruence|].
    apply HQ.
    + repeat split; cbn; auto. intros ex. rewrite Hc, Ep. simpl. lia.
    + intros k y Hk Hy. cbn. now rewrite setm_neq by auto.
  - specialize (Hpos eq_refl). apply safeP_bind.
    apply safe_unlock; cbn [gst gm gh_ gc gw graw]; auto; [rewrite Hc; exact Hpos|].
    apply (safe_put t _ l x None); cbn [gst gm gh_ gc gw graw]; auto; [congruence|].
    apply HQ.
    + repeat split; cbn [gst gm gh_ gc gw graw]; auto. intros ex. unfold upb. rewrite !Hc, Ep. unfold pv.
      rewrite (eqb_sym ex). destruct (eqb (is_ex (gk x)) ex) eqn:E; [|lia]. apply eqb_prop in E. subst. lia.
    + intros k y Hk Hy. cbn. now rewrite setm_neq by auto.
Qed.

Lemma safe_move t g l x st' M (Q : _ -> gh -> Prop) :
  gst g <> LFree -> lin_here t (gst g) st' M -> gm g l = Some x -> gp x <> PRaw ->
  gw g = ANone -> graw g = None -> (forall ex, gh_ g ex = gc g ex) ->
  (forall g' r, ready st' g' -> r <> l -> gm g' r = Some (Guard t (gk x) (gp x)) ->
     gm g' l = Some (Guard t (gk x) PNull) -> Q r g') ->
  sP t g (g_move t l) Q.
Proof.
  intros Hf Hl Ex Hx Hw Hr Hc HQ. unfold g_move. apply safeP_bind.
  assert (st' <> LFree) as Hf' by (eapply lh_free; eauto).
  apply (safe_get t g l x st' M); auto. intros Hpos. apply safeP_bind.
  eapply (safe_new t _ (gk x) (gp x) _ []); cbn [gst gm gh_ gc gw graw]; auto; [apply lh_no|].
  intros r Hnr. assert (r <> l) as Hrl by congruence. apply safeP_bind.
  eapply (safe_put t _ l x (Some PNull)); cbn [gst gm gh_ gc gw graw]; auto; try discriminate.
  - now rewrite setm_neq by auto.
  - destruct (gp x); congruence || auto.
  - apply HQ; cbn [gst gm gh_ gc gw graw]; auto.
    + repeat split; auto. intros ex. cbn [gh_ gc]. rewrite Hc.
      unfold pv. destruct (gp x) eqn:Ep; try lia. 
    + rewrite setm_neq by auto. apply setm_eq.
    + apply setm_eq.
Qed.

Lemma safe_return t g l x (Q : _ -> gh -> Prop) :
  gst g <> LFree -> gm g l = Some x -> gp x <> PRaw ->
  gw g = ANone -> graw g = None -> (forall ex, gh_ g ex = gc g ex) ->
  (forall g' r, ready (gst g) g' -> Q r g') ->
  sP t g (g_return t l) Q.
Proof.
  intros Hf Ex Hx Hw Hr Hc HQ. unfold g_return. cbn [safeP]. intros n s G L HI Hg.
  exists g, L. split; [apply ef_none|]. split.
  - apply (I_change s s G L); auto; try apply HI.
    + intros u Hu. repeat split; auto; tauto.
    + rewrite <- Hg. apply HI.
  - destruct n; cbn [safeP]; [apply HQ; now repeat split|].
    apply safeP_bind. eapply safe_move; eauto; [apply lh_no|]. intros g' r (R1 & R2 & R3 & R4) Hrl Hr1 Hr2.
    apply safeP_bind. eapply (safe_dtor t g' l _ (gst g) []); eauto; try congruence.
    + rewrite R1. apply lh_no.
    + discriminate.
    + intros g2 R _. cbn [safeP]. now apply HQ.
Qed.

(** * The calls *)
Notation sR t g c := (safeP gh gst I (fun _ => False) t g c (returns drview gh gst I t)).

Definition at_rest (g : gh) (c : dvcall) : Prop := ready (LPend c) g.

Lemma safe_new_call t g k try : at_rest g VOther -> may g (is_ex k) ->
  sR t g (dimpl t (CNew k try)).
Proof.
  intros (R1 & R2 & R3 & R4) Hm. cbn [DmutexModel.dimpl]. apply safeP_bind.
  assert (gst g <> LFree) as Hf by congruence.
  assert (lin_here t (gst g) (LDone VOther VNone) [(t, VOther, VNone)]) as Hl by now apply lh_yes.
  destruct try.
  - unfold ctor_try. apply safeP_bind. eapply safe_new; eauto. intros l Hn. apply safeP_bind.
    apply safe_try; cbn [gst gm gh_ gc gw graw]; auto; [discriminate| |].
    + apply safeP_bind. eapply (safe_put t _ l _ (Some PSet)); cbn [gst gm gh_ gc gw graw];
        [discriminate|apply setm_eq|discriminate|auto|].
      cbn [safeP]. apply safeP_bind. eapply safe_return; cbn [gst gm gh_ gc gw graw];
        [discriminate|apply setm_eq|discriminate|auto|auto| |].
      * intros ex. unfold upb. cbn [gk gp pv]. rewrite R4. rewrite (eqb_sym ex).
        destruct (eqb (is_ex k) ex) eqn:E; [|rewrite R4; lia]. apply eqb_prop in E. subst. lia.
      * intros g' r R. cbn [safeP]. eapply returns_ok; eauto.
    + apply safeP_bind. eapply (safe_put t _ l _ (Some PNull)); cbn [gst gm gh_ gc gw graw];
        [discriminate|apply setm_eq|discriminate|auto|].
      cbn [safeP]. apply safeP_bind. eapply safe_return; cbn [gst gm gh_ gc gw graw];
        [discriminate|apply setm_eq|discriminate|auto|auto| |].
      * intros ex. cbn [gk gp pv]. rewrite R4. lia.
      * intros g' r R. cbn [safeP]. eapply returns_ok; eauto.
  - unfold ctor_lock. apply safeP_bind. eapply safe_new; eauto. intros l Hn. apply safeP_bind.
    apply safe_lock; cbn [gst gm gh_ gc gw graw]; auto; [discriminate|].
    cbn [safeP]. apply safeP_bind. eapply safe_return; cbn [gst gm gh_ gc gw graw];
      [discriminate|apply setm_eq|discriminate|auto|auto| |].
    + intros ex. unfold upb. cbn [gk gp pv]. rewrite R4. rewrite (eqb_sym ex).
      destruct (eqb (is_ex k) ex) eqn:E; [|rewrite R4; lia]. apply eqb_prop in E. subst. lia.
    + intros g' r R. cbn [safeP]. eapply returns_ok; eauto.
Qed.

Lemma safe_move_call t g l x : at_rest g VOther -> gm g l = Some x -> gp x <> PRaw ->
  sR t g (dimpl t (CMove l)).
Proof.
  intros (R1 & R2 & R3 & R4) Hx Hp. cbn [DmutexModel.dimpl]. apply safeP_bind.
  eapply safe_move; eauto; [congruence|now apply lh_yes|]. intros g' r R _ _ _. cbn [safeP].
  eapply returns_ok; eauto.
Qed.
Lemma safe_drop_call t g l x : at_rest g VOther -> gm g l = Some x -> gp x <> PRaw ->
  sR t g (dimpl t (CDrop l)).
Proof.
  intros (R1 & R2 & R3 & R4) Hx Hp. cbn [DmutexModel.dimpl]. apply safeP_bind.
  eapply safe_dtor; eauto; [congruence|now apply lh_yes|]. intros g' R _. cbn [safeP].
  eapply returns_ok; eauto.
Qed.
Lemma safe_test_call t g l x : at_rest g VOther -> gm g l = Some x -> gp x <> PRaw ->
  sR t g (dimpl t (CTest l)).
Proof.
  intros (R1 & R2 & R3 & R4) Hx Hp. cbn [DmutexModel.dimpl]. apply safeP_bind.
  eapply safe_get; eauto; [congruence|now apply lh_yes|]. intros _.
  destruct (gp x) eqn:Ep; [congruence| |]; cbn [safeP]; eapply returns_ok; try reflexivity; repeat split; auto.
Qed.

Lemma acc_change s d w r G L M t g st' a :
  I s G L -> G t = g -> gst g <> LFree -> st' <> LFree -> data_ok (with_d s d w r) (L ++ M) ->
  (forall u, u <> t -> (w = Some u <-> wr s = Some u) /\ count_occ Nat.eq_dec r u = count_occ Nat.eq_dec (rd s) u) ->
  acc_ok (with_d s d w r) t (Gh st' (gm g) (gh_ g) (gc g) a (graw g)) ->
  I (with_d s d w r) (setm G t (Gh st' (gm g) (gh_ g) (gc g) a (graw g))) (L ++ M).
Proof.
  intros HI Hg Hf Hf' Hd Ho Ha. pose proof HI as (A & B & C).
  pose proof (C t) as D. rewrite Hg in D. destruct D as (D1 & D2 & D3 & D4 & D5 & D6).
  apply (I_change s _ G L); auto.
  - intros u Hu. destruct (Ho u Hu) as [K1 K2]. repeat split; auto; try tauto; apply K1.
  - split; [exact D1|]. split; [exact D2|]. split; [exact D3|]. split; [exact D4|]. split; [exact Ha|].
    now apply free_not.
Qed.

Lemma nobody_writes s G L t g : I s G L -> G t = g -> gw g <> AWrite -> 0 < gh_ g true + gh_ g false -> wr s = None.
Proof.
  intros (A & B & C) Hg Hw Hp. destruct (wr s) as [u|] eqn:E; [|reflexivity]. exfalso.
  pose proof (C t) as D. rewrite Hg in D. destruct D as (_ & _ & D3 & _ & (D5 & _) & _).
  destruct (C u) as (_ & _ & E3 & _ & (E5 & _ & E7) & _).
  assert (gw (G u) = AWrite) as Hu by now apply E5. rewrite Hu in E7.
  destruct (Nat.eq_dec t u) as [->|Hn]; [congruence|].
  rewrite <- !D3 in Hp. rewrite <- E3 in E7. destruct (alone s u t A Hn E7). lia.
Qed.
Lemma nobody_reads s G L t g : I s G L -> G t = g -> gw g = ANone -> 0 < gh_ g true -> rd s = [].
Proof.
  intros (A & B & C) Hg Hw Hp. apply count_nil. intros u.
  pose proof (C t) as D. rewrite Hg in D. destruct D as (_ & _ & D3 & _ & (_ & D5 & _) & _).
  destruct (C u) as (_ & _ & E3 & _ & (_ & E6 & E7) & _).
  destruct (Nat.eq_dec u t) as [->|Hn]; [rewrite D5, Hw; reflexivity|].
  rewrite E6. destruct (gw (G u)); try reflexivity. exfalso.
  rewrite <- D3 in Hp. destruct (alone s t u A Hn Hp). rewrite <- !E3 in E7. lia.
Qed.

Lemma safe_read_call t g l x : at_rest g VRead -> gm g l = Some x -> gp x = PSet ->
  sR t g (dimpl t (CRead l)).
Proof.
  intros (R1 & R2 & R3 & R4) Hx Hp. cbn [DmutexModel.dimpl]. apply safeP_bind. unfold d_read. apply safeP_bind.
  eapply (safe_get t g l x _ []); eauto; [congruence|apply lh_no|]. intros Hpos. rewrite Hp. specialize (Hpos Hp).
  assert (0 < gh_ g true + gh_ g false) as Hh by (rewrite !R4; destruct (is_ex (gk x)); lia).
  apply safeP_bind. cbn [safeP]. intros _ s G L HI Hg.
  rewrite (nobody_writes s G L t _ HI Hg) by (cbn; auto; congruence).
  exists (Gh (gst g) (gm g) (gh_ g) (gc g) ARead (graw g)), (L ++ []).
  split; [cbn; rewrite app_nil_r; apply ef_none|]. split.
  - assert (wr s = None) as Hnw by (eapply nobody_writes; eauto; cbn; congruence).
    pose proof HI as (A & B & C). pose proof (C t) as D. rewrite Hg in D. destruct D as (_ & _ & _ & _ & (D5 & D6 & D7) & _).
    cbn [gw] in *. apply (acc_change s _ _ _ G L [] t _ _ _ HI Hg); auto; cbn [gst]; try congruence.
    + rewrite app_nil_r. destruct B as (v & Hv & Hd). exists v. split; [exact Hv|]. cbn. auto.
    + intros u Hu. rewrite Hnw. split; [tauto|]. cbn [count_occ]. destruct (Nat.eq_dec t u); congruence.
    + split; [cbn; split; discriminate|]. split; [|exact Hh]. cbn [with_d rd gw count_occ].
      destruct (Nat.eq_dec t t); [|congruence]. rewrite D6, R2. reflexivity.
  - cbn [safeP]. clear s G L HI Hg. intros _ s G L HI Hg.
    assert (wr s = None) as Hnw by (eapply nobody_writes; eauto; cbn; congruence).
    pose proof HI as (A & B & C). destruct B as (v & Hv & Hd). rewrite (Hd Hnw).
    exists (Gh (LDone VRead (VVal v)) (gm g) (gh_ g) (gc g) ANone (graw g)), (L ++ [(t, VRead, VVal v)]).
    split; [now apply ef_lin|]. split.
    + pose proof (C t) as D. rewrite Hg in D. destruct D as (_ & _ & _ & _ & (D5 & D6 & D7) & _). cbn [gw] in *.
      apply (acc_change s _ _ _ G L _ t _ _ _ HI Hg); auto; cbn [gst]; try congruence.
      * exists v. split; [econstructor; [exact Hv|constructor]|]. cbn. auto.
      * intros u Hu. split; [tauto|]. rewrite count_remove1, (proj2 (Nat.eqb_neq u t)) by auto. lia.
      * split; [cbn; rewrite Hnw; split; discriminate|]. split; [|exact Logic.I]. cbn [with_d rd gw].
        rewrite count_remove1, D6, Nat.eqb_refl. reflexivity.
    + cbn [safeP]. apply (returns_ok t _ _ VRead (VVal v)); [|reflexivity]. repeat split; auto.
Qed.

Lemma safe_write_call t g l x v : at_rest g (VWrite v) -> gm g l = Some x -> gp x = PSet -> gk x = KUniq ->
  sR t g (dimpl t (CWrite l v)).
Proof.
  intros (R1 & R2 & R3 & R4) Hx Hp Hk. cbn [DmutexModel.dimpl]. apply safeP_bind. unfold d_write. apply safeP_bind.
  eapply (safe_get t g l x _ []); eauto; [congruence|apply lh_no|]. intros Hpos. rewrite Hp, Hk. specialize (Hpos Hp).
  rewrite Hk in Hpos. cbn [is_ex] in Hpos. rewrite <- R4 in Hpos.
  apply safeP_bind. cbn [safeP]. intros _ s G L HI Hg.
  assert (wr s = None) as Hnw by (eapply nobody_writes; eauto; cbn; [congruence|lia]).
  assert (rd s = []) as Hnr by (eapply nobody_reads; eauto).
  rewrite Hnw, Hnr.
  exists (Gh (gst g) (gm g) (gh_ g) (gc g) AWrite (graw g)), (L ++ []).
  split; [cbn; rewrite app_nil_r; apply ef_none|]. split.
  - pose proof HI as (A & B & C).
    apply (acc_change s _ _ _ G L [] t _ _ _ HI Hg); auto; cbn [gst]; try congruence.
    + rewrite app_nil_r. destruct B as (o & Ho & Hd). exists o. split; [exact Ho|]. cbn. discriminate.
    + intros u Hu. rewrite Hnw, Hnr. split; [split; congruence|reflexivity].
    + split; [cbn; tauto|]. split; [reflexivity|exact Hpos].
  - cbn [safeP]. clear s G L HI Hg Hnw Hnr. intros _ s G L HI Hg.
    pose proof HI as (A & B & C).
    pose proof (C t) as D. rewrite Hg in D. destruct D as (_ & _ & _ & _ & (D5 & D6 & D7) & _). cbn [gw] in *.
    exists (Gh (LDone (VWrite v) VNone) (gm g) (gh_ g) (gc g) ANone (graw g)), (L ++ [(t, VWrite v, VNone)]).
    split; [now apply ef_lin|]. split.
    + apply (acc_change s _ _ _ G L _ t _ _ _ HI Hg); auto; cbn [gst]; try congruence.
      * destruct B as (o & Ho & Hd). exists v. split; [econstructor; [exact Ho|constructor]|]. cbn. auto.
      * intros u Hu. rewrite (proj2 D5 eq_refl). split; [split; congruence|reflexivity].
      * split; [cbn; split; discriminate|]. split; [exact D6|exact Logic.I].
    + cbn [safeP]. apply (returns_ok t _ _ (VWrite v) VNone); [|reflexivity]. repeat split; auto.
Qed.

(** * All executions *)
Notation dreach := (reach dimpl dcview drview (dallowed recur) (start (dst0 v0))).

Lemma dreach_good c : dreach c -> good drview gh gst I (fun _ => False) c.
Proof.
  apply (reach_good _ _ _ (dallowed recur) gh gst I (fun _ => False))
    with (G0 := fun _ => Gh LFree (fun _ => None) (fun _ => 0) (fun _ => 0) ANone None).
  - intros s G L h t k HI Hf _ Ha.
    pose proof HI as (A & B & C). pose proof (C t) as D. destruct D as (D1 & D2 & D3 & D4 & D5 & D6).
    destruct (D6 Hf) as (F1 & F2 & F3).
    assert (forall f, facts_ok s t (Gh (LPend (dcview s k)) f (gh_ (G t)) (gc (G t)) ANone None) ->
      I s (setm G t (Gh (LPend (dcview s k)) f (gh_ (G t)) (gc (G t)) ANone None)) L /\
      at_rest (Gh (LPend (dcview s k)) f (gh_ (G t)) (gc (G t)) ANone None) (dcview s k)) as Hb.
    { intros f Hff. split; [|repeat split; auto]. apply (I_change s s G L); auto.
      - intros u Hu. repeat split; auto; tauto.
      - split; [exact Hff|]. split; [unfold raw_ok in *; now rewrite F2 in D2|]. split; [exact D3|]. split; [exact D4|].
        split; [unfold acc_ok in *; now rewrite F1 in D5|]. apply free_not. discriminate. }
    assert (forall l x, usable s t l x -> gp x <> PRaw /\
      facts_ok s t (Gh (LPend (dcview s k)) (setm (fun _ => None) l (Some x)) (gh_ (G t)) (gc (G t)) ANone None)) as Hu.
    { intros l x [H1 H2]. split.
      - intros Hp. specialize (D2 l x H1 H2 Hp). congruence.
      - intros j y. cbn [gm]. unfold setm. destruct (Nat.eqb_spec j l) as [->|]; [|discriminate]. intros [= <-]. now split. }
    destruct k as [k try|l|l|l|l|l v]; cbn [dallowed] in Ha; cbn [dcview] in *.
    + destruct (Hb (fun _ => None)) as [H1 H2]; [discriminate|]. eexists (Gh _ _ _ _ _ _). split; [reflexivity|]. split; [exact H1|].
      apply safe_new_call; auto. unfold may; cbn [gh_]. rewrite !F3, <- !D4. exact Ha.
    + destruct Ha as (x & Hx). destruct (Hu _ _ Hx) as [Hp Hff]. destruct (Hb _ Hff) as [H1 H2].
      eexists (Gh _ _ _ _ _ _). split; [reflexivity|]. split; [exact H1|]. eapply safe_move_call; eauto. apply setm_eq.
    + destruct Ha as (x & Hx). destruct (Hu _ _ Hx) as [Hp Hff]. destruct (Hb _ Hff) as [H1 H2].
      eexists (Gh _ _ _ _ _ _). split; [reflexivity|]. split; [exact H1|]. eapply safe_drop_call; eauto. apply setm_eq.
    + destruct Ha as (x & Hx). destruct (Hu _ _ Hx) as [Hp Hff]. destruct (Hb _ Hff) as [H1 H2].
      eexists (Gh _ _ _ _ _ _). split; [reflexivity|]. split; [exact H1|]. eapply safe_test_call; eauto. apply setm_eq.
    + destruct Ha as (x & Hx & Hps). destruct (Hu _ _ Hx) as [Hp Hff]. destruct (Hb _ Hff) as [H1 H2].
      eexists (Gh _ _ _ _ _ _). split; [reflexivity|]. split; [exact H1|]. eapply safe_read_call; eauto. apply setm_eq.
    + destruct Ha as (x & Hx & Hps & Hk). destruct (Hu _ _ Hx) as [Hp Hff]. destruct (Hb _ Hff) as [H1 H2].
      eexists (Gh _ _ _ _ _ _). split; [reflexivity|]. split; [exact H1|]. eapply safe_write_call; eauto. apply setm_eq.
  - split; [exact Logic.I|]. split; [exists v0; split; [constructor|reflexivity]|].
    intros t. split; [discriminate|]. split; [intros [|l] x; discriminate|]. split; [intros [|]; reflexivity|].
    split; [intros [|]; reflexivity|]. split; [|intros _; now repeat split]. split; [cbn; split; discriminate|]. split; [reflexivity|exact Logic.I].
  - reflexivity.
Qed.

Lemma dreach_lin c : dreach c -> linearizable (fun L => exists v, seq_run datum v0 L v) (hist c).
Proof.
  intros H. destruct (dreach_good c H) as (x & G & E & Hr & HI & _). exists x.
  split; [exact E|]. split; [eauto|]. destruct HI as (_ & (v & Hv & _) & _). now exists v.
Qed.
Lemma dreach_not_bad c : dreach c -> ~ bad c.
Proof.
  intros H Hb. destruct (good_bad _ _ _ _ _ c (dreach_good c H) Hb) as (x & _ & _ & []).
Qed.

Lemma dreach_locked c t : dreach c -> th c t = None ->
  forall ex, holds t ex (sh c) = guards t ex (sh c).
Proof.
  intros H Ht ex. destruct (dreach_good c H) as (x & G & E & Hr & HI & Hth).
  specialize (Hth t). rewrite Ht in Hth. destruct HI as (_ & _ & C).
  destruct (C t) as (_ & _ & D3 & D4 & _ & D6). destruct (D6 Hth) as (_ & _ & F).
  unfold guards. fold (cg t ex (gs (sh c))). now rewrite D3, D4, F.
Qed.
Lemma dreach_mutex c : dreach c -> mutex_ok (sh c).
Proof. intros H. destruct (dreach_good c H) as (x & G & E & Hr & HI & _). apply HI. Qed.
End DmutexProofs.

(** * Locking that throws *)
Lemma begin_bad recur v0 cl l s' a : dallowed recur [] (dst0 v0) 0 cl ->
  csteps l (dimpl recur true 0 cl) (dst0 v0) = Some (s', Act a) -> a 0 s' = Bad ->
  exists c, reach (dimpl recur true) dcview drview (dallowed recur) (start (dst0 v0)) c /\ bad c /\
    sh c = s' /\ hist c = [EInv 0 (dcview (dst0 v0) cl)].
Proof.
  intros Ha E Hb. destruct (run_begun (dimpl recur true) dcview drview (dallowed recur) 0 cl l (dst0 v0)
    (fun _ => None) [] s' (Act a) eq_refl Ha E) as (T & HT & _ & HR).
  eexists. split; [exact HR|]. split; [|now split]. exists 0, a, 0. now split.
Qed.

Lemma throw_bad recur v0 (k : kind) :
  exists c, reach (dimpl recur true) dcview drview (dallowed recur) (start (dst0 v0)) c /\ bad c /\
    nth_error (gs (sh c)) 0 = Some (Some (Guard 0 k PSet)) /\ forall t ex, holds t ex (sh c) = 0.
Proof.
  assert (exists s' a, csteps [0; 1; 0] (dimpl recur true 0 (CNew k false)) (dst0 v0) = Some (s', Act a) /\ a 0 s' = Bad /\
     nth_error (gs s') 0 = Some (Some (Guard 0 k PSet)) /\ forall t ex, holds t ex s' = 0)
    as (s' & a & E & Ea & En & Eh).
  { destruct k; eexists _, _; (split; [reflexivity|]); (split; [reflexivity|]); (split; [reflexivity|]);
      intros t [|]; reflexivity. }
  destruct (begin_bad recur v0 (CNew k false) [0; 1; 0] s' a) as (c & H & Hb & Hs & _); auto; [cbn; auto|].
  exists c. rewrite Hs. auto.
Qed.

Lemma try_throw_bad recur v0 (k : kind) :
  exists c, reach (dimpl recur true) dcview drview (dallowed recur) (start (dst0 v0)) c /\ bad c /\
    completed 0 (hist c) = [] /\ exists l, nth_error (gs (sh c)) l = Some (Some (Guard 0 k PRaw)).
Proof.
  assert (exists s' a, csteps [0; 2] (dimpl recur true 0 (CNew k true)) (dst0 v0) = Some (s', Act a) /\ 
    nth_error (gs s') 0 = Some (Some (Guard 0 k PRaw)) /\
    exists b, csteps [0; 2; 0] (dimpl recur true 0 (CNew k true)) (dst0 v0) = Some (s', Act b) /\ b 0 s' = Bad)
    as (s' & a & E & En & b & E2 & Eb).
  { destruct k; eexists _, _; (split; [reflexivity|]); (split; [reflexivity|]); eexists; split; reflexivity. }
  destruct (begin_bad recur v0 (CNew k true) [0; 2; 0] s' b) as (c & H & Hb & Hs & Hh); auto; [cbn; auto|].
  exists c. split; [exact H|]. split; [exact Hb|]. rewrite Hs, Hh. split; [reflexivity|]. now exists 0.
Qed.

Lemma throw_unlocks v0 :
  exists c, reach (dimpl true true) dcview drview (dallowed true) (start (dst0 v0)) c /\ quiet c /\
    guards 0 true (sh c) = 1 /\ holds 0 true (sh c) = 0 /\ guards 1 true (sh c) = 1.
Proof.
  set (g0 := Some (Guard 0 KUniq PSet)). set (g1 := Some (Guard 1 KUniq PSet)).
  destruct (run_with (dimpl true true) dcview drview (dallowed true) 0 (CNew KUniq false) [0; 0; 0] (dst0 v0)
    (fun _ => None) [] (Dst (Some (0, 1)) [] [g0] (Some v0) None []) (RGuard 0)) as (T1 & H1 & R1);
    [reflexivity|cbn; auto|reflexivity|].
  destruct (run_with (dimpl true true) dcview drview (dallowed true) 0 (CNew KUniq false) [0; 1; 0; 0; 0]
    (Dst (Some (0, 1)) [] [g0] (Some v0) None [])
    T1 ([] ++ [EInv 0 VOther] ++ [ERes 0 VNone]) (Dst None [] [g0; None] (Some v0) None []) RThrow)
    as (T2 & H2 & R2); [apply H1|cbn; auto|reflexivity|].
  destruct (run_with (dimpl true true) dcview drview (dallowed true) 1 (CNew KUniq false) [0; 0; 0]
    (Dst None [] [g0; None] (Some v0) None [])
    T2 (([] ++ [EInv 0 VOther] ++ [ERes 0 VNone]) ++ [EInv 0 VOther] ++ [ERes 0 VNone])
    (Dst (Some (1, 1)) [] [g0; None; g1] (Some v0) None []) (RGuard 2))
    as (T3 & H3 & R3); [rewrite H2; apply H1|cbn; auto|reflexivity|].
  eexists. split; [eapply reach_trans; [exact R1|]; eapply reach_trans; [exact R2|exact R3]|].
  split; [|now repeat split]. intros t. cbn [th]. now rewrite H3, H2, H1.
Qed.
