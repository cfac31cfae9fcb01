(** Proofs about atomic_shared_ptr_storage. *)
From Coq Require Import List Arith Bool Lia.
From Verif Require Import Base ConcModel ConcSpec ConcProofs AspsModel AspsSpec.
Import ListNotations.

(** * Counting owners *)
Definition w (b : nat) (o : option sp) : nat :=
  match o with Some (Sp _ (Some b')) => if b' =? b then 1 else 0 | _ => 0 end.
Lemma owners_cons b o l : owners b (o :: l) = w b o + owners b l.
Proof. destruct o as [[x [b'|]]|]; reflexivity. Qed.
Lemma owners_app b l m : owners b (l ++ m) = owners b l + owners b m.
Proof.
  induction l as [|o l IH]; [reflexivity|]. simpl app. rewrite !owners_cons, IH. lia.
Qed.
Lemma owners_upd b l i x y : nth_error l i = Some x ->
  owners b (upd l i y) + w b x = owners b l + w b y.
Proof.
  revert i; induction l as [|o l IH]; intros [|i] H; simpl in H; try discriminate.
  - injection H as ->. cbn [upd]. rewrite !owners_cons. lia.
  - cbn [upd]. rewrite !owners_cons. specialize (IH i H). lia.
Qed.
Lemma owners_pos b l i x : nth_error l i = Some (Some (Sp x (Some b))) -> 0 < owners b l.
Proof.
  intros H. pose proof (owners_upd b l i _ None H) as K. simpl in K. rewrite Nat.eqb_refl in K. lia.
Qed.
Lemma w_self b x : w b (Some (Sp x (Some b))) = 1.
Proof. simpl. now rewrite Nat.eqb_refl. Qed.

Lemma obj_nth s l p : obj s l = Some p <-> nth_error (objs s) l = Some (Some p).
Proof. unfold obj. destruct (nth_error (objs s) l) as [[q|]|]; split; congruence. Qed.

Section AspsProofs.
Variable uses : nat -> bool.

Notation lent := (nat * vcall * vres)%type.

(** What the proof knows of a thread: its call, whether it has set the flag and what the storage
    then holds, the values of some of its objects, and the managed object it has to destroy. *)
Record gh := Gh { gst : lst vcall vres; glk : option sp; gm : nat -> option sp; gd : option nat }.

Definition srun := seq_run holds_one sp_empty.

Definition lock_ok (s : ast) (t : nat) (g : gh) : Prop :=
  match glk g with
  | Some v => flag s = Some t /\ nth_error (objs s) 0 = Some (Some v)
  | None => flag s <> Some t
  end.
Definition facts_ok (s : ast) (t : nat) (g : gh) : Prop :=
  forall l p, gm g l = Some p -> l <> 0 /\ own s l = t /\ nth_error (objs s) l = Some (Some p).
Definition disp_ok (s : ast) (g : gh) : Prop :=
  forall b, gd g = Some b -> b < ncb s /\ cnt s b = 0 /\ destroyed b s = 0.
Definition hist_ok (L : list lent) (t : nat) (g : gh) : Prop :=
  match gst g with
  | LFree => glk g = None /\ gd g = None
  | LPend _ => True
  | LDone c r => In (t, c, r) L
  end.
Definition th_ok (s : ast) (L : list lent) (t : nat) (g : gh) : Prop :=
  lock_ok s t g /\ facts_ok s t g /\ disp_ok s g /\ hist_ok L t g.

Definition counts_ok (s : ast) : Prop :=
  (forall b, cnt s b = owners b (objs s)) /\
  (forall b, ncb s <= b -> cnt s b = 0 /\ destroyed b s = 0) /\
  (forall b, destroyed b s <= 1) /\
  (forall b, 0 < destroyed b s -> cnt s b = 0).
Definition gone_ok (s : ast) (L : list lent) : Prop :=
  forall b t, In (b, t, true) (gone s) ->
    exists e p v, In (t, VCas (Some e) (Some p), VBool false (Some v)) L /\ cb e = Some b.

Definition I (s : ast) (G : nat -> gh) (L : list lent) : Prop :=
  (exists v, nth_error (objs s) 0 = Some (Some v) /\ srun L v) /\
  counts_ok s /\ gone_ok s L /\
  (forall t, th_ok s L t (G t)) /\
  (forall b, b < ncb s -> cnt s b = 0 -> destroyed b s = 1 \/ exists t, gd (G t) = Some b) /\
  (forall t u b, gd (G t) = Some b -> gd (G u) = Some b -> t = u).

Notation sP := (safeP gh gst I (fun _ => False)).
Notation sC := (safe rview gh gst I (fun _ => False)).

(** To re-establish the invariant: what changes for the other threads. *)
Lemma th_ok_other s s' L M u g :
  th_ok s L u g ->
  (flag s' = Some u <-> flag s = Some u) ->
  (forall v, flag s = Some u -> nth_error (objs s) 0 = Some (Some v) -> nth_error (objs s') 0 = Some (Some v)) ->
  (forall l p, l <> 0 -> own s l = u -> nth_error (objs s) l = Some (Some p) ->
     own s' l = u /\ nth_error (objs s') l = Some (Some p)) ->
  (forall b, gd g = Some b -> b < ncb s -> cnt s b = 0 -> destroyed b s = 0 ->
     b < ncb s' /\ cnt s' b = 0 /\ destroyed b s' = 0) ->
  th_ok s' (L ++ M) u g.
Proof.
  intros (A & B & C & D) Hf H0 Hl Hb. split; [|split; [|split]].
  - unfold lock_ok in *. destruct (glk g) as [v|].
    + destruct A as [A1 A2]. split; [now apply Hf|now apply H0].
    + intros E. apply A. now apply Hf.
  - intros l p E. destruct (B l p E) as (B1 & B2 & B3). split; [exact B1|]. now apply Hl.
  - intros b E. destruct (C b E) as (C1 & C2 & C3). now apply Hb.
  - unfold hist_ok in *. destruct (gst g); auto. apply in_or_app. now left.
Qed.

Lemma hist_same L t g g' : gst g' = gst g -> (gst g = LFree -> False) -> hist_ok L t g -> hist_ok L t g'.
Proof. unfold hist_ok. intros ->. destruct (gst g); tauto. Qed.

(** An action which leaves the shared state alone. *)
Lemma I_ghost s G L t g' :
  I s G L -> th_ok s L t g' -> gd g' = gd (G t) -> I s (setm G t g') L.
Proof.
  intros (A & B & C & D & E & F) Ht Hd.
  assert (forall u, gd (setm G t g' u) = gd (G u)) as Hg.
  { intros u. destruct (Nat.eq_dec u t) as [->|Hn]; [now rewrite setm_eq|now rewrite setm_neq]. }
  split; [exact A|]. split; [exact B|]. split; [exact C|]. split; [|split].
  - intros u. destruct (Nat.eq_dec u t) as [->|Hn]; [now rewrite setm_eq|rewrite setm_neq by auto; apply D].
  - intros b Hb Hc. destruct (E b Hb Hc) as [H|[u H]]; [now left|right]. exists u. now rewrite Hg.
  - intros u v b. rewrite !Hg. apply F.
Qed.

Lemma acc_own s L t g l p : th_ok s L t g -> gm g l = Some p -> acc t l s = true /\ obj s l = Some p.
Proof.
  intros (_ & B & _) E. destruct (B l p E) as (B1 & B2 & B3). split.
  - unfold acc. rewrite (proj2 (Nat.eqb_neq _ _) B1). now apply Nat.eqb_eq.
  - now apply obj_nth.
Qed.
Lemma acc_zero s L t g v : th_ok s L t g -> glk g = Some v -> acc t 0 s = true /\ obj s 0 = Some v.
Proof.
  intros (A & _) E. unfold lock_ok in A. rewrite E in A. destruct A as [A1 A2]. split.
  - unfold acc, has_flag. simpl. rewrite A1. apply Nat.eqb_refl.
  - now apply obj_nth.
Qed.

(** * The actions *)

Lemma safe_get_own t g l p (Q : _ -> gh -> Prop) :
  gm g l = Some p -> Q p g -> sP t g (sp_get t l) Q.
Proof.
  intros E HQ. unfold sp_get. cbn [safeP]. intros _ s G L HI Hg. pose proof HI as (_ & _ & _ & D & _).
  specialize (D t). rewrite Hg in D. destruct (acc_own s L t g l p D E) as [-> ->].
  exists g, L. split; [apply ef_none|]. split; [|exact HQ]. apply I_ghost; auto. now rewrite Hg.
Qed.
Lemma safe_get_zero t g v (Q : _ -> gh -> Prop) :
  glk g = Some v -> Q v g -> sP t g (sp_get t 0) Q.
Proof.
  intros E HQ. unfold sp_get. cbn [safeP]. intros _ s G L HI Hg. pose proof HI as (_ & _ & _ & D & _).
  specialize (D t). rewrite Hg in D. destruct (acc_zero s L t g v D E) as [-> ->].
  exists g, L. split; [apply ef_none|]. split; [|exact HQ]. apply I_ghost; auto. now rewrite Hg.
Qed.

(** A call which takes effect without changing the state. *)
Lemma I_lin s G L t g c r v :
  I s G L -> G t = g -> gst g = LPend c -> nth_error (objs s) 0 = Some (Some v) ->
  holds_one t v c r v ->
  I s (setm G t (Gh (LDone c r) (glk g) (gm g) (gd g))) (L ++ [(t, c, r)]).
Proof.
  intros (A & B & C & D & E & F) Hg Hp Hv Hs. subst g.
  destruct A as (v' & Hv' & Hr). rewrite Hv in Hv'. injection Hv' as <-.
  set (g' := Gh (LDone c r) (glk (G t)) (gm (G t)) (gd (G t))).
  assert (forall u, gd (setm G t g' u) = gd (G u)) as Hgd.
  { intros u. destruct (Nat.eq_dec u t) as [->|Hn]; [now rewrite setm_eq|now rewrite setm_neq]. }
  split; [|split; [|split; [|split; [|split]]]].
  - exists v. split; [exact Hv|]. econstructor; eauto.
  - exact B.
  - intros b u H. destruct (C b u H) as (e & p & q & H1 & H2). exists e, p, q. split; [|exact H2].
    apply in_or_app. now left.
  - intros u. destruct (Nat.eq_dec u t) as [->|Hn].
    + rewrite setm_eq. destruct (D t) as (D1 & D2 & D3 & _). split; [exact D1|]. split; [exact D2|].
      split; [exact D3|]. cbn. apply in_or_app. right. now left.
    + rewrite setm_neq by auto. apply (th_ok_other s s); auto; tauto.
  - intros b Hb Hc. destruct (E b Hb Hc) as [H|[u H]]; [now left|right]. exists u. now rewrite Hgd.
  - intros u u' b. rewrite !Hgd. apply F.
Qed.

Lemma safe_get_zero_lin t g v c r (Q : _ -> gh -> Prop) :
  glk g = Some v -> gst g = LPend c -> holds_one t v c r v ->
  Q v (Gh (LDone c r) (Some v) (gm g) (gd g)) -> sP t g (sp_get t 0) Q.
Proof.
  intros E Hp Hs HQ. unfold sp_get. cbn [safeP]. intros _ s G L HI Hg. pose proof HI as (_ & _ & _ & D & _).
  specialize (D t). rewrite Hg in D. destruct (acc_zero s L t g v D E) as [-> Ho]. rewrite Ho.
  exists (Gh (LDone c r) (glk g) (gm g) (gd g)), (L ++ [(t, c, r)]).
  split; [now apply ef_lin|]. split; [|rewrite E; exact HQ].
  apply I_lin with v; auto. now apply obj_nth.
Qed.

(** The other threads' view of a change made by [t]. *)
Definition quiet_change (s s' : ast) (t : nat) (G : nat -> gh) : Prop :=
  (forall u, u <> t -> (flag s' = Some u <-> flag s = Some u)) /\
  (forall u, u <> t -> forall v, flag s = Some u -> nth_error (objs s) 0 = Some (Some v) ->
     nth_error (objs s') 0 = Some (Some v)) /\
  (forall u, u <> t -> forall l p, l <> 0 -> own s l = u -> nth_error (objs s) l = Some (Some p) ->
     own s' l = u /\ nth_error (objs s') l = Some (Some p)) /\
  (forall u, u <> t -> forall b, gd (G u) = Some b -> b < ncb s -> cnt s b = 0 -> destroyed b s = 0 ->
     b < ncb s' /\ cnt s' b = 0 /\ destroyed b s' = 0).

Lemma I_change s s' G L M t g' :
  I s G L -> quiet_change s s' t G ->
  (exists v, nth_error (objs s') 0 = Some (Some v) /\ srun (L ++ M) v) ->
  counts_ok s' -> gone_ok s' (L ++ M) -> th_ok s' (L ++ M) t g' ->
  (forall b, b < ncb s' -> cnt s' b = 0 ->
     destroyed b s' = 1 \/ gd g' = Some b \/ exists u, u <> t /\ gd (G u) = Some b) ->
  (forall u b, u <> t -> gd (G u) = Some b -> gd g' <> Some b) ->
  I s' (setm G t g') (L ++ M).
Proof.
  intros (A & B & C & D & E & F) (Q1 & Q2 & Q3 & Q4) A' B' C' T' E' F'.
  split; [exact A'|]. split; [exact B'|]. split; [exact C'|]. split; [|split].
  - intros u. destruct (Nat.eq_dec u t) as [->|Hn]; [now rewrite setm_eq|].
    rewrite setm_neq by auto.
    exact (th_ok_other s s' L M u (G u) (D u) (Q1 u Hn) (Q2 u Hn) (Q3 u Hn) (Q4 u Hn)).
  - intros b Hb Hc. destruct (E' b Hb Hc) as [H|[H|(u & Hu & H)]]; [now left|right|right].
    + exists t. now rewrite setm_eq.
    + exists u. now rewrite setm_neq.
  - intros u v b. destruct (Nat.eq_dec u t) as [->|Hu], (Nat.eq_dec v t) as [->|Hv]; auto.
    + rewrite setm_eq, setm_neq by auto. intros H K. destruct (F' v b Hv K H).
    + rewrite setm_neq, setm_eq by auto. intros H K. destruct (F' u b Hu H K).
    + rewrite !setm_neq by auto. apply F.
Qed.

Lemma I_flag_other s G L t u : I s G L -> glk (G t) <> None -> flag s = Some u -> u = t.
Proof.
  intros (_ & _ & _ & D & _) Hl Hf. destruct (D t) as (A & _). unfold lock_ok in A.
  destruct (glk (G t)) as [v|]; [|congruence]. destruct A. congruence.
Qed.

(** Taking the lock, and spinning on it. *)
Lemma safe_lock t g (Q : _ -> gh -> Prop) :
  gst g <> LFree ->
  (glk g = None -> forall v, Q tt (Gh (gst g) (Some v) (gm g) (gd g))) -> sP t g (sl_lock t) Q.
Proof.
  intros Hfree HQ. unfold sl_lock. cbn [safeP]. intros _ s G L HI Hg. destruct (flag s) as [u|] eqn:Ef; [exact Logic.I|].
  pose proof HI as (A & B & C & D & E & F). pose proof (D t) as Dt. rewrite Hg in Dt.
  destruct Dt as (D1 & D2 & D3 & D4). unfold lock_ok in D1.
  destruct (glk g) as [v|] eqn:El; [destruct D1; congruence|]. destruct A as (v & Hv & Hr).
  exists (Gh (gst g) (Some v) (gm g) (gd g)), L. split; [apply ef_none|]. split; [|now apply HQ].
  rewrite <- (app_nil_r L). apply (I_change s); auto.
  - split; [|split; [|split]]; cbn [flag objs own cnt ncb gone with_flag]; intros u Hu.
    + split; congruence.
    + auto.
    + auto.
    + intros b Hb H1 H2 H3. now repeat split.
  - exists v. rewrite app_nil_r. now split.
  - rewrite app_nil_r. exact C.
  - rewrite app_nil_r. split; [|split; [|split]]; auto.
    + cbn. now split.
    + unfold hist_ok in *. cbn. destruct (gst g); auto. congruence.
  - cbn. intros b Hb Hc. destruct (E b Hb Hc) as [H|[u H]]; [now left|right].
    destruct (Nat.eq_dec u t) as [->|Hn]; [left; congruence|right; eauto].
  - cbn. intros u b Hu H K. apply Hu, (F u t b); [exact H|now rewrite Hg].
Qed.

Lemma safe_unlock t g v (Q : _ -> gh -> Prop) :
  glk g = Some v -> Q tt (Gh (gst g) None (gm g) (gd g)) -> sP t g (sl_unlock t) Q.
Proof.
  intros El HQ. unfold sl_unlock. cbn [safeP]. intros _ s G L HI Hg.
  pose proof HI as (A & B & C & D & E & F). pose proof (D t) as Dt. rewrite Hg in Dt.
  destruct Dt as (D1 & D2 & D3 & D4). unfold lock_ok in D1. rewrite El in D1. destruct D1 as [Hf Hv].
  exists (Gh (gst g) None (gm g) (gd g)), L. split; [apply ef_none|]. split; [|exact HQ].
  rewrite <- (app_nil_r L). apply (I_change s); auto.
  - split; [|split; [|split]]; cbn [flag objs own cnt ncb gone with_flag]; intros u Hu.
    + split; congruence.
    + auto.
    + auto.
    + intros b Hb H1 H2 H3. now repeat split.
  - rewrite app_nil_r. exact A.
  - rewrite app_nil_r. exact C.
  - rewrite app_nil_r. split; [|split; [|split]]; auto.
    + cbn. discriminate.
    + unfold hist_ok in *. cbn. destruct (gst g); auto. destruct D4. congruence.
  - cbn. intros b Hb Hc. destruct (E b Hb Hc) as [H|[u H]]; [now left|right].
    destruct (Nat.eq_dec u t) as [->|Hn]; [left; congruence|right; eauto].
  - cbn. intros u b Hu H K. apply Hu, (F u t b); [exact H|now rewrite Hg].
Qed.

(** A call that has nothing to do with the storage takes effect at any action. *)
Inductive lin_here (t : nat) (l : lst vcall vres) : lst vcall vres -> list lent -> Prop :=
| lh_no : lin_here t l l []
| lh_yes r : l = LPend VOther -> lin_here t l (LDone VOther r) [(t, VOther, r)].

Lemma lh_effect t l l' M L : lin_here t l l' M -> effect t l L l' (L ++ M).
Proof. intros K. destruct K; [rewrite app_nil_r; apply ef_none|now apply ef_lin]. Qed.
Lemma lh_srun t l l' M L v : lin_here t l l' M -> srun L v -> srun (L ++ M) v.
Proof. intros K H. destruct K; [now rewrite app_nil_r|]. econstructor; [exact H|constructor]. Qed.
Lemma gone_app s L M : gone_ok s L -> gone_ok s (L ++ M).
Proof.
  intros C b u H. destruct (C b u H) as (e & p & q & H1 & H2). exists e, p, q. split; [|exact H2].
  apply in_or_app. now left.
Qed.
Lemma lh_hist t g g' M L : lin_here t (gst g) (gst g') M -> gst g <> LFree ->
  hist_ok L t g -> hist_ok (L ++ M) t g'.
Proof.
  intros H Hn Hh. unfold hist_ok in *. inversion H as [E1 E2|r Hp E1 E2].
  - rewrite app_nil_r. destruct (gst g); congruence || auto.
  - apply in_or_app. right. now left.
Qed.

Lemma nth_push s t p l : nth_error (objs (push s t p)) l =
  if l =? length (objs s) then Some (Some p) else nth_error (objs s) l.
Proof.
  cbn [push objs]. destruct (l =? length (objs s)) eqn:E.
  - apply Nat.eqb_eq in E. subst. rewrite nth_error_app2, Nat.sub_diag by lia. reflexivity.
  - apply Nat.eqb_neq in E. destruct (Nat.lt_ge_cases l (length (objs s))).
    + now rewrite nth_error_app1.
    + rewrite nth_error_app2 by lia. destruct (l - length (objs s)) as [|k] eqn:Ek; [lia|].
      rewrite (proj2 (nth_error_None (objs s) l)) by lia. simpl. now destruct k.
Qed.
Lemma nth_push_old s t p l x : nth_error (objs s) l = Some x ->
  nth_error (objs (push s t p)) l = Some x /\ own (push s t p) l = own s l.
Proof.
  intros H. assert (l < length (objs s)) by (apply nth_error_Some; congruence).
  rewrite nth_push. rewrite (proj2 (Nat.eqb_neq _ _)) by lia. split; [exact H|].
  cbn [push own]. apply setm_neq. lia.
Qed.

(** A new object of thread [t]. *)
Lemma push_facts s s1 t p g g' :
  objs s1 = objs s -> own s1 = own s ->
  facts_ok s t g -> (exists v, nth_error (objs s) 0 = Some (Some v)) ->
  (forall l q, gm g' l = Some q -> (l = length (objs s) /\ q = p) \/ gm g l = Some q) ->
  facts_ok (push s1 t p) t g'.
Proof.
  intros Eo Ew Hf [v Hv] Hg l q E. destruct (Hg l q E) as [[-> ->]|H].
  - split; [destruct (objs s); [discriminate|simpl; lia]|]. split.
    + cbn [push own]. rewrite Eo. apply setm_eq.
    + rewrite nth_push, Eo, Nat.eqb_refl. reflexivity.
  - destruct (Hf l q H) as (F1 & F2 & F3). rewrite <- Eo in F3.
    destruct (nth_push_old s1 t p l _ F3) as [H1 H2]. split; [exact F1|]. split; [|exact H1].
    rewrite H2, Ew. exact F2.
Qed.

Definition alive (g : gh) (p : sp) : Prop :=
  cb p = None \/ (exists l q, gm g l = Some q /\ cb q = cb p) \/ (exists v, glk g = Some v /\ cb v = cb p).

Lemma alive_cnt s G L t b p : I s G L -> alive (G t) p -> cb p = Some b -> 0 < cnt s b.
Proof.
  intros (A & B & C & D & _) Ha Hb. destruct B as (B1 & _). rewrite B1.
  destruct (D t) as (D1 & D2 & _). destruct Ha as [H|[(l & [x c] & H & E)|([x c] & H & E)]]; [congruence| |].
  - destruct (D2 _ _ H) as (_ & _ & H3). simpl in E. rewrite E, Hb in H3. eapply owners_pos; eauto.
  - unfold lock_ok in D1. rewrite H in D1. simpl in E. destruct D1 as [_ D1]. rewrite E, Hb in D1.
    eapply owners_pos; eauto.
Qed.

(** Counts after a change of the objects and of one count. *)
Lemma counts_change s s' :
  counts_ok s -> ncb s' = ncb s -> gone s' = gone s ->
  (forall b, cnt s' b = owners b (objs s')) ->
  (forall b, cnt s b = 0 -> cnt s' b = 0) -> counts_ok s'.
Proof.
  intros (B1 & B2 & B3 & B4) En Eg Hc H0. unfold counts_ok, destroyed in *. rewrite En, Eg.
  split; [exact Hc|]. split; [|split].
  - intros b Hb. destruct (B2 b Hb) as [K1 K2]. split; [now apply H0|exact K2].
  - exact B3.
  - intros b Hb. apply H0. now apply B4.
Qed.

Lemma cb_owners b x c : w b (Some (Sp x c)) = match c with Some b' => if b' =? b then 1 else 0 | None => 0 end.
Proof. reflexivity. Qed.

Lemma safe_add t g p gst' M (Q : _ -> gh -> Prop) :
  gst g <> LFree -> alive g p -> lin_here t (gst g) gst' M ->
  (forall l, gm g l = None -> l <> 0 -> Q l (Gh gst' (glk g) (setm (gm g) l (Some p)) (gd g))) ->
  sP t g (sp_add t p) Q.
Proof.
  intros Hfree Ha Hlin HQ. unfold sp_add. cbn [safeP]. intros _ s G L HI Hg.
  pose proof HI as (A & B & C & D & E & F). destruct A as (v & Hv & Hr).
  pose proof (D t) as Dt. rewrite Hg in Dt. destruct Dt as (D1 & D2 & D3 & D4).
  assert (length (objs s) <> 0) as Hlen by (destruct (objs s); [discriminate|simpl; lia]).
  assert (gm g (length (objs s)) = None) as Hnone.
  { destruct (gm g (length (objs s))) as [q|] eqn:Eq; [|reflexivity].
    destruct (D2 _ _ Eq) as (_ & _ & K). rewrite (proj2 (nth_error_None _ _)) in K by lia. discriminate. }
  set (g' := Gh gst' (glk g) (setm (gm g) (length (objs s)) (Some p)) (gd g)).
  assert (forall s1, objs s1 = objs s -> own s1 = own s -> flag s1 = flag s -> ncb s1 = ncb s ->
    gone s1 = gone s -> (forall b, cnt s1 b = cnt s b + w b (Some p)) ->
    (forall b, cb p = Some b -> 0 < cnt s b) -> I (push s1 t p) (setm G t g') (L ++ M)) as Hmain.
  { intros s1 Eo Ew Ef En Eg Hc Hpos.
    assert (forall b, cnt s b = 0 <-> cnt s1 b = 0) as H0.
    { intros b. rewrite Hc. destruct p as [x [b'|]]; rewrite cb_owners; [|lia].
      destruct (b' =? b) eqn:Eb; [|lia]. apply Nat.eqb_eq in Eb. subst. specialize (Hpos b eq_refl). lia. }
    assert (forall b, destroyed b (push s1 t p) = destroyed b s) as Hd.
    { intros b. unfold destroyed. cbn [push gone]. now rewrite Eg. }
    assert (forall l x, nth_error (objs s) l = Some x ->
       nth_error (objs (push s1 t p)) l = Some x /\ own (push s1 t p) l = own s l) as Hold.
    { intros l x Hl. rewrite <- Eo in Hl. rewrite <- Ew. now apply nth_push_old. }
    apply (I_change s); auto.
    - split; [|split; [|split]]; intros u Hu.
      + cbn [push flag]. now rewrite Ef.
      + intros v0 _ H. now apply Hold.
      + intros l q Hl Hw H. destruct (Hold _ _ H) as [K1 K2]. split; congruence.
      + intros b Hb H1 H2 H3. rewrite Hd. cbn [push ncb cnt]. rewrite En. repeat split; auto. now apply H0.
    - exists v. split; [now apply Hold|]. eapply lh_srun; eauto.
    - apply (counts_change s); auto.
      + intros b. cbn [push cnt objs]. rewrite Hc, Eo, owners_app, owners_cons.
        destruct B as (B1 & _). rewrite B1. simpl. lia.
      + intros b Hb. now apply H0.
    - apply gone_app. intros b u Hin. cbn [push gone] in Hin. rewrite Eg in Hin. now apply C.
    - split; [|split; [|split]].
      + unfold lock_ok in *. cbn [glk g']. cbn [push flag]. rewrite Ef. destruct (glk g); [|exact D1].
        destruct D1 as [K1 K2]. split; [exact K1|now apply Hold].
      + apply (push_facts s s1 t p g); eauto. intros l q. cbn [gm g']. unfold setm.
        destruct (l =? length (objs s)) eqn:El; [|auto]. apply Nat.eqb_eq in El. intros [= <-]. auto.
      + intros b Hb. cbn [gd g'] in Hb. destruct (D3 b Hb) as (K1 & K2 & K3). rewrite Hd.
        cbn [push ncb cnt]. rewrite En. repeat split; auto. now apply H0.
      + apply (lh_hist t g); auto.
    - intros b Hb Hz. rewrite Hd. cbn [push ncb cnt] in Hb, Hz. rewrite En in Hb. apply H0 in Hz.
      destruct (E b Hb Hz) as [K|[u K]]; [now left|right].
      destruct (Nat.eq_dec u t) as [->|Hn]; [left; cbn; congruence|right; eauto].
    - cbn. intros u b Hu H K. apply Hu, (F u t b); [exact H|now rewrite Hg]. }
  assert (exists g'0 L', effect t (gst g) L (gst g'0) L' /\ L' = L ++ M /\ g'0 = g' /\
     sP t g'0 (Ret (length (objs s))) Q) as (g0 & L0 & K1 & -> & -> & K2).
  { exists g', (L ++ M). split; [now apply lh_effect|]. split; [reflexivity|]. split; [reflexivity|].
    cbn [safeP]. now apply HQ. }
  destruct (cb p) as [b|] eqn:Ecb.
  - assert (0 < cnt s b) as Hpos by (eapply alive_cnt; eauto; now rewrite Hg).
    rewrite (proj2 (Nat.eqb_neq _ _)) by lia.
    exists g', (L ++ M). split; [exact K1|]. split; [|exact K2]. apply Hmain; auto.
    + intros b'. cbn [with_cnt cnt]. destruct p as [x c]. cbn in Ecb. subst c. rewrite cb_owners.
      unfold setm. rewrite (Nat.eqb_sym b b'). destruct (b' =? b) eqn:Eb; [|lia].
      apply Nat.eqb_eq in Eb. subst. lia.
    + intros b' [= <-]. exact Hpos.
  - exists g', (L ++ M). split; [exact K1|]. split; [|exact K2]. apply Hmain; auto.
    + intros b'. destruct p as [x c]. cbn in Ecb. subst c. rewrite cb_owners. lia.
    + discriminate.
Qed.

(** A change of objects of [t], and of m_ptr when [t] has set the flag. *)
Lemma qc_intro s s' t G :
  flag s' = flag s -> (forall l x, nth_error (objs s) l = Some x -> own s' l = own s l) ->
  (forall l p, l <> 0 -> own s l <> t -> nth_error (objs s) l = Some (Some p) ->
     nth_error (objs s') l = Some (Some p)) ->
  (flag s = Some t \/ nth_error (objs s') 0 = nth_error (objs s) 0) ->
  ncb s' = ncb s -> gone s' = gone s -> (forall b, cnt s b = 0 -> cnt s' b = 0) ->
  quiet_change s s' t G.
Proof.
  intros Hf Hw Ho H0 Hn Hg Hc. split; [|split; [|split]]; intros u Hu.
  - now rewrite Hf.
  - intros v Hfu Hv. destruct H0 as [H0|H0]; congruence.
  - intros l p Hl Hlu Hp. split; [erewrite Hw; eauto|]. apply Ho; auto. congruence.
  - intros b Hb H1 H2 H3. unfold destroyed in *. rewrite Hn, Hg. repeat split; auto.
Qed.

Lemma cases_gd s G L t g b :
  I s G L -> G t = g -> b < ncb s -> cnt s b = 0 ->
  destroyed b s = 1 \/ gd g = Some b \/ exists u, u <> t /\ gd (G u) = Some b.
Proof.
  intros (_ & _ & _ & _ & E & _) Hg Hb Hz. destruct (E b Hb Hz) as [K|[u K]]; [now left|right].
  destruct (Nat.eq_dec u t) as [->|Hn]; [left; congruence|right; eauto].
Qed.
Lemma unique_gd s G L t g u b :
  I s G L -> G t = g -> u <> t -> gd (G u) = Some b -> gd g <> Some b.
Proof. intros (_ & _ & _ & _ & _ & F) Hg Hu H K. apply Hu, (F u t b); congruence. Qed.

(** Objects of [t] and possibly m_ptr change, the counts do not, and neither do the owners. *)
Lemma I_objs s o' w' G L M t g g' v' :
  I s G L -> G t = g -> gst g <> LFree ->
  quiet_change s (Ast (flag s) o' w' (cnt s) (ncb s) (gone s)) t G ->
  (forall b, owners b o' = owners b (objs s)) ->
  nth_error o' 0 = Some (Some v') -> srun (L ++ M) v' ->
  gd g' = gd g ->
  (match glk g' with Some v => flag s = Some t /\ v = v' | None => flag s <> Some t end) ->
  facts_ok (Ast (flag s) o' w' (cnt s) (ncb s) (gone s)) t g' ->
  hist_ok (L ++ M) t g' ->
  I (Ast (flag s) o' w' (cnt s) (ncb s) (gone s)) (setm G t g') (L ++ M).
Proof.
  intros HI Hg Hfree Hq Ho Hv Hr Hd Hl Hf Hh. pose proof HI as (A & B & C & D & E & F).
  set (s' := Ast (flag s) o' w' (cnt s) (ncb s) (gone s)) in *.
  pose proof (D t) as Dt. rewrite Hg in Dt. destruct Dt as (D1 & D2 & D3 & D4).
  apply (I_change s); auto.
  - exists v'. now split.
  - apply (counts_change s); auto. intros b. cbn [s' cnt objs]. rewrite Ho. apply B.
  - now apply gone_app.
  - split; [|split; [|split]]; auto.
    + unfold lock_ok. destruct (glk g'); [|exact Hl]. destruct Hl as [Hl1 ->]. now split.
    + intros b. rewrite Hd. apply D3.
  - intros b Hb Hz. rewrite Hd. eapply (cases_gd s); eauto.
  - intros u b Hu K. rewrite Hd. eapply unique_gd; eauto.
Qed.

Lemma lock_known s G L t g : I s G L -> G t = g ->
  match glk g with Some v => flag s = Some t /\ nth_error (objs s) 0 = Some (Some v) | None => flag s <> Some t end.
Proof. intros (_ & _ & _ & D & _) <-. destruct (D t) as (D1 & _). exact D1. Qed.

Lemma nth_upd {A} (l : list A) i j x y : nth_error l i = Some y ->
  nth_error (upd l i x) j = if j =? i then Some x else nth_error l j.
Proof.
  intros H. assert (i < length l) by (apply nth_error_Some; congruence).
  destruct (j =? i) eqn:E.
  - apply Nat.eqb_eq in E. subst. now apply nth_error_upd_eq.
  - apply Nat.eqb_neq in E. apply nth_error_upd_neq. auto.
Qed.

Ltac eqb_cases := repeat match goal with
  | |- context [?a =? ?b] => destruct (Nat.eqb_spec a b); try subst
  | H : context [?a =? ?b] |- _ => destruct (Nat.eqb_spec a b); try subst
  end.

Lemma safe_move t g l p (Q : _ -> gh -> Prop) :
  gst g <> LFree -> gm g l = Some p ->
  (forall q, gm g q = None -> q <> 0 ->
     Q q (Gh (gst g) (glk g) (setm (setm (gm g) l (Some sp_empty)) q (Some p)) (gd g))) ->
  sP t g (sp_move t l) Q.
Proof.
  intros Hfree El HQ. unfold sp_move. cbn [safeP]. intros _ s G L HI Hg.
  pose proof HI as (A & B & C & D & E & F). destruct A as (v & Hv & Hr).
  pose proof (D t) as Dt. rewrite Hg in Dt. destruct (acc_own s L t g l p Dt El) as [-> Hob]. rewrite Hob.
  apply obj_nth in Hob. destruct Dt as (D1 & D2 & D3 & D4).
  destruct (D2 _ _ El) as (Hl0 & Hlt & _).
  assert (l < length (objs s)) as Hllt by (apply nth_error_Some; congruence).
  assert (length (objs s) <> 0) as Hlen by lia.
  assert (gm g (length (objs s)) = None) as Hnone.
  { destruct (gm g (length (objs s))) as [q|] eqn:Eq; [|reflexivity].
    destruct (D2 _ _ Eq) as (_ & _ & K). rewrite (proj2 (nth_error_None _ _)) in K by lia. discriminate. }
  assert (forall k, nth_error (upd (objs s) l (Some sp_empty) ++ [Some p]) k =
            if k =? length (objs s) then Some (Some p)
            else if k =? l then Some (Some sp_empty) else nth_error (objs s) k) as Hnth.
  { intros k. destruct (Nat.eqb_spec k (length (objs s))) as [->|Hk].
    - rewrite nth_error_app2; rewrite upd_length, ?Nat.sub_diag; [reflexivity|lia].
    - destruct (Nat.lt_ge_cases k (length (objs s))).
      + rewrite nth_error_app1 by (rewrite upd_length; lia). now apply nth_upd with (Some p).
      + rewrite (proj2 (nth_error_None _ _)) by (rewrite app_length, upd_length; simpl; lia).
        rewrite (proj2 (Nat.eqb_neq _ _)) by lia. now rewrite (proj2 (nth_error_None _ _)) by lia. }
  set (g' := Gh (gst g) (glk g) (setm (setm (gm g) l (Some sp_empty)) (length (objs s)) (Some p)) (gd g)).
  exists g', L. split; [apply ef_none|]. split; [|cbn [safeP]; now apply HQ].
  unfold push, with_objs. cbn [flag objs own cnt ncb gone]. rewrite upd_length.
  rewrite <- (app_nil_r L). apply (I_objs s _ _ G L [] t g g' v); auto.
  - apply qc_intro; cbn [flag objs own cnt ncb gone]; auto.
    + intros k x Hk. apply setm_neq. assert (k < length (objs s)) by (apply nth_error_Some; congruence). lia.
    + intros k q Hk0 Hkt Hk. rewrite Hnth. assert (k < length (objs s)) by (apply nth_error_Some; congruence).
      eqb_cases; try lia; try congruence; auto.
    + right. rewrite Hnth. eqb_cases; try lia; congruence.
  - intros b. rewrite owners_app, owners_cons. pose proof (owners_upd b _ _ _ (Some sp_empty) Hob) as K.
    assert (w b (Some sp_empty) = 0) as K0 by reflexivity. cbn [owners]. lia.
  - rewrite Hnth. eqb_cases; try lia; congruence.
  - now rewrite app_nil_r.
  - cbn [g' glk]. unfold lock_ok in D1. destruct (glk g); [|exact D1]. destruct D1 as [K1 K2].
    split; [exact K1|congruence].
  - intros k q. cbn [g' gm objs own]. unfold setm. rewrite Hnth. eqb_cases; intros Hq.
    + injection Hq as <-. auto.
    + injection Hq as <-. auto.
    + destruct (D2 _ _ Hq) as (K1 & K2 & K3). auto.
  - rewrite app_nil_r. apply (hist_same L t g); auto.
Qed.

(** The flag's owner swaps m_ptr with an object of its own: here the call takes effect. *)
Lemma safe_swap_zero t g q p v c r (Q : _ -> gh -> Prop) :
  gst g = LPend c -> glk g = Some v -> gm g q = Some p -> holds_one t v c r p ->
  Q tt (Gh (LDone c r) (Some p) (setm (gm g) q (Some v)) (gd g)) ->
  sP t g (sp_swap t 0 q) Q.
Proof.
  intros Hp El Eq Hs HQ. unfold sp_swap. cbn [safeP]. intros _ s G L HI Hg.
  pose proof HI as (A & B & C & D & E & F). destruct A as (v' & Hv & Hr).
  pose proof (D t) as Dt. rewrite Hg in Dt.
  destruct (acc_own s L t g q p Dt Eq) as [-> Hob]. destruct (acc_zero s L t g v Dt El) as [-> Hoz].
  rewrite Hob, Hoz. cbn [andb]. apply obj_nth in Hob, Hoz. rewrite Hoz in Hv. injection Hv as <-.
  destruct Dt as (D1 & D2 & D3 & D4). destruct (D2 _ _ Eq) as (Hq0 & Hqt & _).
  unfold lock_ok in D1. rewrite El in D1. destruct D1 as [Hfl _].
  assert (forall k, nth_error (upd (upd (objs s) 0 (Some p)) q (Some v)) k =
     if k =? q then Some (Some v) else if k =? 0 then Some (Some p) else nth_error (objs s) k) as Hnth.
  { intros k. rewrite (nth_upd _ q k _ (Some p)).
    - rewrite (nth_upd _ 0 k _ (Some v)) by exact Hoz. reflexivity.
    - rewrite (nth_upd _ 0 q _ (Some v)) by exact Hoz. rewrite (proj2 (Nat.eqb_neq _ _) Hq0). exact Hob. }
  set (g' := Gh (LDone c r) (Some p) (setm (gm g) q (Some v)) (gd g)).
  exists g', (L ++ [(t, c, r)]). split; [now apply ef_lin|]. split; [|exact HQ].
  unfold with_objs. apply (I_objs s _ _ G L _ t g g' p); auto.
  - congruence.
  - apply qc_intro; cbn [flag objs own cnt ncb gone]; auto.
    intros k x Hk0 Hkt Hk. rewrite Hnth. eqb_cases; try congruence; auto.
  - intros b. pose proof (owners_upd b (objs s) 0 _ (Some p) Hoz) as K1.
    assert (nth_error (upd (objs s) 0 (Some p)) q = Some (Some p)) as Hq'.
    { rewrite (nth_upd _ 0 q _ (Some v)) by exact Hoz. rewrite (proj2 (Nat.eqb_neq _ _) Hq0). exact Hob. }
    pose proof (owners_upd b _ q _ (Some v) Hq') as K2. lia.
  - rewrite Hnth. eqb_cases; congruence.
  - econstructor; eauto.
  - cbn. now split.
  - intros k x. cbn [g' gm objs own]. unfold setm. rewrite Hnth. eqb_cases; intros Hx.
    + injection Hx as <-. auto.
    + destruct (D2 _ _ Hx) as (K1 & K2 & K3). congruence.
    + destruct (D2 _ _ Hx) as (K1 & K2 & K3). auto.
  - cbn. apply in_or_app. right. now left.
Qed.

(** Two objects of the thread are swapped. *)
Lemma safe_swap_own t g k l p q (Q : _ -> gh -> Prop) :
  gst g <> LFree -> gm g k = Some p -> gm g l = Some q -> k <> l ->
  Q tt (Gh (gst g) (glk g) (setm (setm (gm g) k (Some q)) l (Some p)) (gd g)) ->
  sP t g (sp_swap t k l) Q.
Proof.
  intros Hfree Ek El Hkl HQ. unfold sp_swap. cbn [safeP]. intros _ s G L HI Hg.
  pose proof HI as (A & B & C & D & E & F). destruct A as (v & Hv & Hr).
  pose proof (D t) as Dt. rewrite Hg in Dt.
  destruct (acc_own s L t g k p Dt Ek) as [-> Hok]. destruct (acc_own s L t g l q Dt El) as [-> Hol].
  rewrite Hok, Hol. cbn [andb]. apply obj_nth in Hok, Hol.
  destruct Dt as (D1 & D2 & D3 & D4). destruct (D2 _ _ Ek) as (Hk0 & Hkt & _).
  destruct (D2 _ _ El) as (Hl0 & Hlt & _).
  assert (nth_error (upd (objs s) k (Some q)) l = Some (Some q)) as Hl'.
  { rewrite (nth_upd _ k l _ (Some p)) by exact Hok. rewrite (proj2 (Nat.eqb_neq _ _)) by auto. exact Hol. }
  assert (forall j, nth_error (upd (upd (objs s) k (Some q)) l (Some p)) j =
     if j =? l then Some (Some p) else if j =? k then Some (Some q) else nth_error (objs s) j) as Hnth.
  { intros j. rewrite (nth_upd _ l j _ (Some q)) by exact Hl'.
    rewrite (nth_upd _ k j _ (Some p)) by exact Hok. reflexivity. }
  set (g' := Gh (gst g) (glk g) (setm (setm (gm g) k (Some q)) l (Some p)) (gd g)).
  exists g', L. split; [apply ef_none|]. split; [|exact HQ].
  unfold with_objs. rewrite <- (app_nil_r L). apply (I_objs s _ _ G L [] t g g' v); auto.
  - apply qc_intro; cbn [flag objs own cnt ncb gone]; auto.
    + intros j x Hj0 Hjt Hj. rewrite Hnth. eqb_cases; try congruence; auto.
    + right. rewrite Hnth. eqb_cases; congruence.
  - intros b. pose proof (owners_upd b (objs s) k _ (Some q) Hok) as K1.
    pose proof (owners_upd b _ l _ (Some p) Hl') as K2. lia.
  - rewrite Hnth. eqb_cases; congruence.
  - now rewrite app_nil_r.
  - cbn [g' glk]. unfold lock_ok in D1. destruct (glk g); [|exact D1]. destruct D1 as [K1 K2].
    split; [exact K1|congruence].
  - intros j x. cbn [g' gm objs own]. unfold setm. rewrite Hnth. eqb_cases; intros Hx.
    + injection Hx as <-. auto.
    + injection Hx as <-. auto.
    + destruct (D2 _ _ Hx) as (K1 & K2 & K3). auto.
  - rewrite app_nil_r. apply (hist_same L t g); auto.
Qed.

(** An object of the thread is destroyed. *)
Lemma safe_release t g l p gst' M (Q : _ -> gh -> Prop) :
  gst g <> LFree -> gm g l = Some p -> gd g = None -> lin_here t (gst g) gst' M ->
  Q None (Gh gst' (glk g) (setm (gm g) l None) None) ->
  (forall b, cb p = Some b -> Q (Some b) (Gh gst' (glk g) (setm (gm g) l None) (Some b))) ->
  sP t g (sp_release t l) Q.
Proof.
  intros Hfree El Ed Hlin HQ0 HQ1. unfold sp_release. cbn [safeP]. intros _ s G L HI Hg.
  pose proof HI as (A & B & C & D & E & F). destruct A as (v & Hv & Hr).
  pose proof (D t) as Dt. rewrite Hg in Dt. destruct (acc_own s L t g l p Dt El) as [-> Hob]. rewrite Hob.
  apply obj_nth in Hob. destruct Dt as (D1 & D2 & D3 & D4).
  destruct (D2 _ _ El) as (Hl0 & Hlt & _).
  assert (forall k, nth_error (upd (objs s) l None) k =
            if k =? l then Some None else nth_error (objs s) k) as Hnth.
  { intros k. now apply nth_upd with (Some p). }
  assert (forall d, facts_ok (with_objs s (upd (objs s) l None)) t (Gh gst' (glk g) (setm (gm g) l None) d)) as Hf.
  { intros d k q. cbn [gm objs own with_objs]. unfold setm. rewrite Hnth. eqb_cases; [discriminate|].
    intros Hq. now apply D2. }
  assert (nth_error (upd (objs s) l None) 0 = nth_error (objs s) 0) as H0.
  { rewrite Hnth. eqb_cases; congruence. }
  assert (forall g', glk g' = glk g -> lock_ok (with_objs s (upd (objs s) l None)) t g') as Hlk.
  { intros g' Eg. unfold lock_ok in *. rewrite Eg. cbn [flag objs with_objs]. destruct (glk g); [|exact D1].
    destruct D1 as [K1 K2]. split; [exact K1|congruence]. }
  destruct (cb p) as [b|] eqn:Ecb.
  - destruct p as [x c]. cbn in Ecb. subst c.
    assert (0 < cnt s b) as Hpos. { destruct B as (B1 & _). rewrite B1. eapply owners_pos; eauto. }
    rewrite (proj2 (Nat.eqb_neq (cnt s b) 0)) by lia.
    set (s' := with_cnt (with_objs s (upd (objs s) l None)) (setm (cnt s) b (cnt s b - 1))).
    assert (forall b', cnt s' b' + (if b' =? b then 1 else 0) = cnt s b') as Hcnt.
    { intros b'. cbn [s' with_cnt cnt]. unfold setm. eqb_cases; lia. }
    assert (counts_ok s') as Hcs.
    { apply (counts_change s); auto.
      - intros b'. cbn [s' with_cnt with_objs objs]. specialize (Hcnt b').
        pose proof (owners_upd b' _ _ _ None Hob) as K. rewrite cb_owners in K.
        destruct B as (B1 & _). rewrite B1 in Hcnt. rewrite (Nat.eqb_sym b b') in K. cbn [w] in K.
        destruct (b' =? b); lia.
      - intros b' Hb'. specialize (Hcnt b'). lia. }
    assert (quiet_change s s' t G) as Hqc.
    { apply qc_intro; cbn [s' with_cnt with_objs flag objs own ncb gone]; auto.
      - intros k q Hk0 Hkt Hk. rewrite Hnth. eqb_cases; congruence.
      - intros b' Hb'. specialize (Hcnt b'). cbn [s' with_cnt cnt] in *. lia. }
    assert (exists v, nth_error (objs s') 0 = Some (Some v) /\ srun (L ++ M) v) as HA.
    { exists v. cbn [s' with_cnt with_objs objs]. rewrite H0. split; [exact Hv|]. eapply lh_srun; eauto. }
    destruct (Nat.eqb_spec (cnt s b) 1) as [E1|E1].
    + set (g' := Gh gst' (glk g) (setm (gm g) l None) (Some b)).
      exists g', (L ++ M). split; [now apply lh_effect|]. split; [|cbn [safeP]; now apply HQ1].
      assert (b < ncb s /\ destroyed b s = 0) as [Hbn Hbd].
      { destruct B as (B1 & B2 & B3 & B4). split.
        - destruct (Nat.lt_ge_cases b (ncb s)) as [?|Hge]; [assumption|]. destruct (B2 b Hge). lia.
        - destruct (destroyed b s) eqn:Ede; [reflexivity|]. rewrite B4 in Hpos by lia. lia. }
      apply (I_change s); auto.
      * now apply gone_app.
      * split; [|split; [|split]].
        -- exact (Hlk g' eq_refl).
        -- exact (Hf (Some b)).
        -- intros b' [= <-]. split; [exact Hbn|]. split; [specialize (Hcnt b); rewrite Nat.eqb_refl in Hcnt; lia|exact Hbd].
        -- apply (lh_hist t g); auto.
      * intros b' Hb' Hz. destruct (Nat.eq_dec b' b) as [->|Hne]; [right; left; reflexivity|].
        specialize (Hcnt b'). rewrite (proj2 (Nat.eqb_neq b' b) Hne) in Hcnt.
        destruct (cases_gd s G L t g b' HI Hg Hb') as [K|[K|K]]; [lia|now left|congruence|now right; right].
      * intros u b' Hu K [= <-]. destruct (D u) as (_ & _ & D3u & _). destruct (D3u _ K) as (_ & K2 & _). lia.
    + set (g' := Gh gst' (glk g) (setm (gm g) l None) None).
      exists g', (L ++ M). split; [now apply lh_effect|]. split; [|exact HQ0].
      apply (I_change s); auto.
      * now apply gone_app.
      * split; [|split; [|split]].
        -- exact (Hlk g' eq_refl).
        -- exact (Hf None).
        -- discriminate.
        -- apply (lh_hist t g); auto.
      * intros b' Hb' Hz. specialize (Hcnt b').
        destruct (cases_gd s G L t g b' HI Hg Hb') as [K|[K|K]]; [|now left|congruence|now right; right].
        destruct (Nat.eqb_spec b' b) as [e|]; [subst|]; lia.
      * discriminate.
  - set (g' := Gh gst' (glk g) (setm (gm g) l None) None).
    exists g', (L ++ M). split; [now apply lh_effect|]. split; [|exact HQ0].
    apply (I_objs s _ _ G L M t g g' v); auto.
    + apply qc_intro; cbn [flag objs own cnt ncb gone]; auto.
      intros k q Hk0 Hkt Hk. rewrite Hnth. eqb_cases; congruence.
    + intros b. pose proof (owners_upd b _ _ _ None Hob) as K. destruct p as [x c]. cbn in Ecb. subst c.
      rewrite cb_owners in K. cbn [w] in K. lia.
    + now rewrite H0.
    + eapply lh_srun; eauto.
    + specialize (Hlk g' eq_refl). unfold lock_ok in Hlk. destruct (glk g'); [|exact Hlk].
      destruct Hlk as [K1 K2]. split; [exact K1|]. cbn [objs with_objs] in K2. rewrite H0, Hv in K2. congruence.
    + exact (Hf None).
    + apply (lh_hist t g); auto.
Qed.

(** Destroying a managed object: outside of the lock, or in a failing compare_exchange which
    held its last owner. *)
Definition out_ok (g : gh) (b : nat) : Prop :=
  glk g = None \/ exists e p v, gst g = LDone (VCas (Some e) (Some p)) (VBool false (Some v)) /\ cb e = Some b.

Lemma safe_dispose t g b (Q : _ -> gh -> Prop) :
  gst g <> LFree -> gd g = Some b -> out_ok g b -> Q tt (Gh (gst g) (glk g) (gm g) None) ->
  sP t g (dispose t b) Q.
Proof.
  intros Hfree Ed Hout HQ. unfold dispose. cbn [safeP]. intros _ s G L HI Hg.
  pose proof HI as (A & B & C & D & E & F).
  pose proof (D t) as Dt. rewrite Hg in Dt. destruct Dt as (D1 & D2 & D3 & D4).
  destruct (D3 b Ed) as (Hbn & Hb0 & Hbd).
  assert (existsb (fun e => fst (fst e) =? b) (gone s) = false) as ->.
  { destruct (existsb _ _) eqn:Ex; [|reflexivity]. apply existsb_exists in Ex as (e & Hin & He).
    apply Nat.eqb_eq in He. unfold destroyed in Hbd. apply count_occ_not_In in Hbd.
    destruct Hbd. apply in_map_iff. exists e. now split. }
  set (g' := Gh (gst g) (glk g) (gm g) None).
  set (s' := Ast (flag s) (objs s) (own s) (cnt s) (ncb s) (gone s ++ [(b, t, has_flag t s)])).
  assert (forall b', destroyed b' s' = destroyed b' s + if b' =? b then 1 else 0) as Hd.
  { intros b'. unfold destroyed. cbn [s' gone]. rewrite map_app, count_occ_app. cbn [map fst count_occ].
    destruct (Nat.eq_dec b b') as [->|Hn].
    - now rewrite Nat.eqb_refl.
    - rewrite (proj2 (Nat.eqb_neq b' b)) by auto. lia. }
  exists g', L. split; [apply ef_none|]. split; [|exact HQ].
  rewrite <- (app_nil_r L). apply (I_change s); auto; try rewrite app_nil_r; auto.
  - split; [|split; [|split]]; intros u Hu; cbn [s' flag objs own ncb cnt]; auto.
    + tauto.
    + intros b' Hb' K1 K2 K3. rewrite Hd. assert (b' <> b) as Hne by (intros ->; apply Hu, (F u t b); congruence).
      rewrite (proj2 (Nat.eqb_neq b' b)) by auto. repeat split; auto. lia.
  - destruct B as (B1 & B2 & B3 & B4). split; [exact B1|]. split; [|split].
    + intros b' Hb'. rewrite Hd. destruct (B2 b' Hb'). split; [assumption|]. cbn [s' ncb] in Hb'.
      rewrite (proj2 (Nat.eqb_neq b' b)) by lia. lia.
    + intros b'. rewrite Hd. specialize (B3 b'). eqb_cases; lia.
    + intros b'. rewrite Hd. cbn [s' cnt]. eqb_cases; [intros _; exact Hb0|]. intros K. apply B4. lia.
  - intros b' u Hin. cbn [s' gone] in Hin. apply in_app_or in Hin as [Hin|[Hin|[]]]; [now apply C|].
    injection Hin as <- <- Hfl. destruct Hout as [Hout|(e & p & v & Hst & He)].
    + unfold lock_ok in D1. rewrite Hout in D1. unfold has_flag in Hfl. destruct (flag s) as [u|]; [|discriminate].
      apply Nat.eqb_eq in Hfl. congruence.
    + exists e, p, v. split; [|exact He]. unfold hist_ok in D4. now rewrite Hst in D4.
  - split; [|split; [|split]]; auto.
    + discriminate.
    + apply (hist_same L t g); auto.
  - intros b' Hb' Hz. rewrite Hd. cbn [s' ncb cnt] in Hb', Hz.
    destruct (Nat.eq_dec b' b) as [->|Hne].
    + left. rewrite Nat.eqb_refl. lia.
    + rewrite (proj2 (Nat.eqb_neq b' b)) by auto.
      destruct (cases_gd s G L t g b' HI Hg Hb' Hz) as [K|[K|K]]; [left; lia|congruence|now right; right].
  - discriminate.
Qed.

(** * The operations *)

Lemma safe_copy_zero t g v (Q : _ -> gh -> Prop) :
  gst g <> LFree -> glk g = Some v ->
  (forall l, gm g l = None -> l <> 0 -> Q l (Gh (gst g) (Some v) (setm (gm g) l (Some v)) (gd g))) ->
  sP t g (sp_copy t 0) Q.
Proof.
  intros Hf El HQ. unfold sp_copy. apply safeP_bind. apply (safe_get_zero t g v); [exact El|].
  apply (safe_add t g v (gst g) []); [exact Hf| |apply lh_no|].
  - right. right. exists v. now split.
  - intros l. rewrite El. apply HQ.
Qed.

(** load() inside a destructor; it spins for ever when the thread has set the flag itself. *)
Lemma safe_load_inner t g (Q : _ -> gh -> Prop) :
  gst g <> LFree ->
  (glk g = None -> forall v l, gm g l = None -> l <> 0 ->
     Q l (Gh (gst g) None (setm (gm g) l (Some v)) (gd g))) ->
  sP t g (load t) Q.
Proof.
  intros Hf HQ. unfold load. apply safeP_bind. apply safe_lock; [exact Hf|]. intros El v.
  apply safeP_bind. apply (safe_copy_zero t _ v); cbn [gst glk gm gd]; auto. intros l Hl Hl0.
  apply safeP_bind. eapply safe_unlock; [reflexivity|]. cbn [gst glk gm gd safeP]. now apply HQ.
Qed.

(** What a destruction leaves as it was. *)
Definition after (g g' : gh) (st : lst vcall vres) (l : nat) : Prop :=
  gst g' = st /\ glk g' = glk g /\ gd g' = None /\
  forall k p, k <> l -> gm g k = Some p -> gm g' k = Some p.

Lemma safe_destroy n : forall t g l p st' M (Q : _ -> gh -> Prop),
  gst g <> LFree -> st' <> LFree -> gm g l = Some p -> gd g = None -> lin_here t (gst g) st' M ->
  (forall b, cb p = Some b ->
     glk g = None \/ exists e q v, st' = LDone (VCas (Some e) (Some q)) (VBool false (Some v)) /\ cb e = Some b) ->
  (forall g', after g g' st' l -> Q tt g') ->
  sP t g (destroy uses n t l) Q.
Proof.
  induction n as [|n IH]; intros t g l p st' M Q Hf Hf' El Ed Hlin Hout HQ.
  all: cbn [destroy]; apply safeP_bind; apply (safe_release t g l p st' M); auto.
  all: try (apply HQ; repeat split; cbn [gm]; auto; intros k q Hk Hq; now rewrite setm_neq).
  all: intros b Hb; apply safeP_bind; apply safe_dispose; cbn [gst glk gm gd]; auto.
  all: try (specialize (Hout b Hb); exact Hout).
  - destruct (uses b); cbn [safeP]; apply HQ; repeat split; cbn [gm]; auto; intros k q Hk Hq; now rewrite setm_neq.
  - destruct (uses b); cbn [safeP].
    + apply safeP_bind. apply safe_load_inner; cbn [gst glk gm gd]; auto. intros Eg v r Hr Hr0.
      eapply IH with (st' := st') (M := []); cbn [gst glk gm gd]; auto.
      * apply setm_eq.
      * apply lh_no.
      * intros g' (K1 & K2 & K3 & K4). cbn [glk gm] in *. apply HQ. repeat split; auto; [congruence|].
        intros k q Hk Hq. assert (k <> r) as Hkr.
        { intros ->. rewrite setm_neq in Hr by auto. congruence. }
        apply K4; [exact Hkr|]. rewrite !setm_neq by auto. exact Hq.
    + apply HQ; repeat split; cbn [gm]; auto; intros k q Hk Hq; now rewrite setm_neq.
Qed.

Variable n : nat.
Notation destroy := (destroy uses n).

(** Without a lock, and not the end of the call. *)
Lemma safe_destroy_free t g l p (Q : _ -> gh -> Prop) :
  gst g <> LFree -> gm g l = Some p -> gd g = None -> glk g = None ->
  (forall g', after g g' (gst g) l -> Q tt g') ->
  sP t g (destroy t l) Q.
Proof.
  intros Hf El Ed Eg HQ. apply (safe_destroy n t g l p (gst g) []); auto. apply lh_no.
Qed.

Lemma ret_ok t g r c v : gst g = LDone c v -> glk g = None -> gd g = None ->
  (match r with RLoc l | RBool _ l => exists p, gm g l = Some p /\
     match r with RLoc _ => v = VVal (Some p) | RBool b _ => v = VBool b (Some p) | RUnit => False end
   | RUnit => v = VUnit end) ->
  returns rview gh gst I t r g.
Proof.
  intros Hs Hl Hd Hr s G L HI Hg. pose proof HI as (A & B & C & D & E & F).
  pose proof (D t) as Dt. rewrite Hg in Dt. split.
  - exists c. rewrite Hs. f_equal. destruct r as [l| |b l]; cbn [rview].
    + destruct Hr as (p & Hp & ->). now rewrite (proj2 (acc_own s L t g l p Dt Hp)).
    + exact Hr.
    + destruct Hr as (p & Hp & ->). now rewrite (proj2 (acc_own s L t g l p Dt Hp)).
  - exists (Gh LFree None (fun _ => None) None). split; [reflexivity|].
    apply I_ghost; auto; [|cbn; congruence].
    destruct Dt as (D1 & D2 & D3 & D4). split; [|split; [|split]].
    + unfold lock_ok in *. rewrite Hl in D1. exact D1.
    + discriminate.
    + discriminate.
    + cbn. now split.
Qed.

Notation pend c gmap := (Gh (LPend c) None gmap None).
Notation sR t g c := (safeP gh gst I (fun _ => False) t g c (returns rview gh gst I t)).

Lemma safe_load_call t f : sR t (pend VLoad f) (cbind (load t) (fun r => Ret (RLoc r))).
Proof.
  apply safeP_bind. unfold load. apply safeP_bind. apply safe_lock; [discriminate|].
  intros _ v. cbn [gst glk gm gd]. apply safeP_bind. unfold sp_copy. apply safeP_bind.
  eapply safe_get_zero_lin; try reflexivity; [apply h_load|]. cbn [gst glk gm gd].
  eapply (safe_add t _ v _ []); cbn [gst glk gm gd]; [discriminate| |apply lh_no|].
  - right. right. exists v. now split.
  - intros l _ Hl0. apply safeP_bind. eapply safe_unlock; [reflexivity|]. cbn [gst glk gm gd safeP].
    apply (ret_ok t _ _ VLoad (VVal (Some v))); auto. exists v. split; [apply setm_eq|reflexivity].
Qed.

Lemma safe_store_call t f p v : f p = Some v ->
  sR t (pend (VStore (Some v)) f) (cbind (store uses n t p) (fun _ => Ret RUnit)).
Proof.
  intros Hp. apply safeP_bind. unfold store. apply safeP_bind. apply (safe_move t _ p v); [discriminate|exact Hp|].
  cbn [gst glk gm gd]. intros q Hq Hq0.
  assert (p <> q) as Hpq by congruence.
  apply safeP_bind. unfold holder_store. apply safeP_bind. apply safe_lock; [discriminate|].
  intros _ o. cbn [gst glk gm gd]. apply safeP_bind.
  eapply (safe_swap_zero t _ q v o); cbn [gst glk gm gd]; try reflexivity; [apply setm_eq|apply h_store|].
  apply safeP_bind. eapply safe_unlock; [reflexivity|]. cbn [gst glk gm gd].
  apply (safe_destroy_free t _ q o); cbn [gst glk gm gd]; auto; [discriminate|apply setm_eq|].
  intros g1 (A1 & A2 & A3 & A4). cbn [gst glk gm gd] in *.
  apply (safe_destroy_free t _ p sp_empty); auto; [congruence| |].
  - apply A4; [exact Hpq|]. rewrite !setm_neq by auto. apply setm_eq.
  - intros g2 (B1 & B2 & B3 & B4). cbn [safeP].
    eapply (ret_ok t); [rewrite B1; exact A1|congruence|exact B3|reflexivity].
Qed.

Lemma safe_exchange_call t f p v : f p = Some v ->
  sR t (pend (VExchange (Some v)) f) (cbind (exchange uses n t p) (fun r => Ret (RLoc r))).
Proof.
  intros Hp. apply safeP_bind. unfold exchange. apply safeP_bind. apply (safe_move t _ p v); [discriminate|exact Hp|].
  cbn [gst glk gm gd]. intros q Hq Hq0. assert (p <> q) as Hpq by congruence.
  apply safeP_bind. unfold holder_exchange. apply safeP_bind. apply safe_lock; [discriminate|].
  intros _ o. cbn [gst glk gm gd]. apply safeP_bind.
  eapply (safe_swap_zero t _ q v o); cbn [gst glk gm gd]; try reflexivity; [apply setm_eq|apply h_exchange|].
  apply safeP_bind. eapply safe_unlock; [reflexivity|]. cbn [gst glk gm gd].
  apply safeP_bind. eapply (safe_move t _ q o); cbn [gst glk gm gd]; [discriminate|apply setm_eq|].
  intros r Hr Hr0.
  assert (r <> q) as Hrq by (intros ->; rewrite setm_eq in Hr; discriminate).
  assert (r <> p) as Hrp.
  { intros ->. rewrite !setm_neq, setm_eq in Hr by auto. discriminate. }
  apply safeP_bind. apply (safe_destroy_free t _ q sp_empty); cbn [gst glk gm gd]; auto; [discriminate| |].
  { rewrite setm_neq by auto. apply setm_eq. }
  intros g1 (A1 & A2 & A3 & A4). cbn [gst glk gm gd safeP] in *.
  apply safeP_bind. apply (safe_destroy_free t _ p sp_empty); auto; [congruence| |].
  - apply A4; [exact Hpq|]. rewrite !setm_neq by auto. apply setm_eq.
  - intros g2 (B1 & B2 & B3 & B4). cbn [safeP].
    eapply (ret_ok t); [rewrite B1; exact A1|congruence|exact B3|].
    exists o. split; [|reflexivity]. apply B4; [exact Hrp|]. apply A4; [exact Hrq|]. apply setm_eq.
Qed.

Lemma safe_cas_call t f e p ve v : f e = Some ve -> f p = Some v -> e <> p ->
  sR t (pend (VCas (Some ve) (Some v)) f) (cbind (compare_exchange uses n t e p) (fun b => Ret (RBool b e))).
Proof.
  intros He Hp Hep. apply safeP_bind. unfold compare_exchange. apply safeP_bind.
  apply (safe_move t _ p v); [discriminate|exact Hp|].
  cbn [gst glk gm gd]. intros q Hq Hq0. assert (p <> q) as Hpq by congruence.
  assert (e <> q) as Heq by congruence.
  apply safeP_bind. unfold holder_cas. apply safeP_bind. apply safe_lock; [discriminate|].
  intros _ o. cbn [gst glk gm gd]. apply safeP_bind.
  destruct (Nat.eqb_spec (px o) (px ve)) as [E|E].
  - eapply safe_get_zero; [reflexivity|]. apply safeP_bind.
    eapply (safe_get_own t _ e ve); [cbn [gm]; now rewrite !setm_neq by auto|].
    rewrite (proj2 (Nat.eqb_eq _ _) E). apply safeP_bind.
    eapply (safe_swap_zero t _ q v o); cbn [gst glk gm gd]; try reflexivity; [apply setm_eq|now apply h_cas_yes|].
    apply safeP_bind. eapply safe_unlock; [reflexivity|]. cbn [gst glk gm gd].
    apply safeP_bind. apply (safe_destroy_free t _ q o); cbn [gst glk gm gd]; auto; [discriminate|apply setm_eq|].
    intros g1 (A1 & A2 & A3 & A4). cbn [gst glk gm gd safeP] in *.
    apply safeP_bind. apply (safe_destroy_free t _ p sp_empty); auto; [congruence| |].
    + apply A4; [exact Hpq|]. rewrite !setm_neq by auto. apply setm_eq.
    + intros g2 (B1 & B2 & B3 & B4). cbn [safeP].
      eapply (ret_ok t); [rewrite B1; exact A1|congruence|exact B3|].
      exists ve. split; [|reflexivity]. apply B4; [exact Hep|]. apply A4; [exact Heq|].
      now rewrite !setm_neq by auto.
  - eapply safe_get_zero_lin; try reflexivity; [now apply h_cas_no|]. cbn [gst glk gm gd]. apply safeP_bind.
    eapply (safe_get_own t _ e ve); [cbn [gm]; now rewrite !setm_neq by auto|].
    rewrite (proj2 (Nat.eqb_neq _ _) E). apply safeP_bind. unfold sp_assign.
    apply safeP_bind. eapply (safe_copy_zero t _ o); cbn [gst glk gm gd]; [discriminate|reflexivity|].
    intros x Hx Hx0.
    assert (x <> q) as Hxq by (intros ->; rewrite setm_eq in Hx; discriminate).
    assert (x <> p) as Hxp by (intros ->; rewrite setm_neq, setm_eq in Hx by auto; discriminate).
    assert (x <> e) as Hxe by (intros ->; rewrite !setm_neq in Hx by auto; congruence).
    apply safeP_bind. apply (safe_swap_own t _ x e o ve); cbn [gst glk gm gd]; auto; [discriminate|apply setm_eq| |].
    { now rewrite !setm_neq by auto. }
    eapply (safe_destroy n t _ x ve _ []); cbn [gst glk gm gd]; auto; [discriminate| | |apply lh_no| |].
    { discriminate. }
    { rewrite setm_neq by auto. apply setm_eq. }
    { intros b Hb. right. exists ve, v, o. now split. }
    intros g1 (A1 & A2 & A3 & A4). cbn [gst glk gm gd safeP] in *.
    apply safeP_bind. eapply safe_unlock; [exact A2|].
    apply safeP_bind. apply (safe_destroy_free t _ q v); cbn [gst glk gm gd]; auto; [congruence| |].
    { apply A4; [auto|]. rewrite !setm_neq by auto. apply setm_eq. }
    intros g2 (B1 & B2 & B3 & B4). cbn [gst glk gm gd safeP] in *.
    apply safeP_bind. apply (safe_destroy_free t _ p sp_empty); auto; [congruence| |].
    { apply B4; [exact Hpq|]. apply A4; [auto|]. rewrite !setm_neq by auto. apply setm_eq. }
    intros g3 (C1 & C2 & C3 & C4). cbn [safeP].
    eapply (ret_ok t); [rewrite C1, B1; exact A1|congruence|exact C3|].
    exists o. split; [|reflexivity]. apply C4; [exact Hep|]. apply B4; [exact Heq|]. apply A4; [auto|].
    apply setm_eq.
Qed.

Lemma safe_bare_call t f x : sR t (pend VOther f) (bare t x).
Proof.
  unfold bare. apply safeP_bind.
  apply (safe_add t _ (Sp x None) (LDone VOther (VVal (Some (Sp x None)))) [(t, VOther, VVal (Some (Sp x None)))]).
  - discriminate.
  - now left.
  - now apply lh_yes.
  - intros l Hl Hl0. cbn [safeP]. eapply ret_ok; try reflexivity. exists (Sp x None). split; [apply setm_eq|reflexivity].
Qed.
Lemma safe_alias_call t f l x v : f l = Some v -> sR t (pend VOther f) (alias t l x).
Proof.
  intros Hl. unfold alias. apply safeP_bind. apply (safe_get_own t _ l v); [exact Hl|]. apply safeP_bind.
  apply (safe_add t _ (Sp x (cb v)) (LDone VOther (VVal (Some (Sp x (cb v))))) [(t, VOther, VVal (Some (Sp x (cb v))))]).
  - discriminate.
  - right. left. exists l, v. now split.
  - now apply lh_yes.
  - intros k Hk Hk0. cbn [safeP]. eapply ret_ok; try reflexivity. exists (Sp x (cb v)). split; [apply setm_eq|reflexivity].
Qed.
Lemma safe_drop_call t f l v : f l = Some v ->
  sR t (pend VOther f) (cbind (destroy t l) (fun _ => Ret RUnit)).
Proof.
  intros Hl. apply safeP_bind.
  apply (safe_destroy n t _ l v (LDone VOther VUnit) [(t, VOther, VUnit)]); auto; try discriminate.
  - now apply lh_yes.
  - intros g (A1 & A2 & A3 & A4). cbn [safeP]. eapply ret_ok; eauto.
Qed.
Lemma safe_give_call t f l v u : f l = Some v -> sR t (pend VOther f) (give t l u).
Proof.
  intros El. unfold give. cbn [safeP]. intros _ s G L HI Hg.
  pose proof HI as (A & B & C & D & E & F). destruct A as (o & Hv & Hr).
  pose proof (D t) as Dt. rewrite Hg in Dt. destruct (acc_own s L t _ l v Dt El) as [-> Hob].
  destruct Dt as (D1 & D2 & D3 & D4). destruct (D2 _ _ El) as (Hl0 & Hlt & _).
  set (g' := Gh (LDone VOther VUnit) None (fun _ => None) None).
  exists g', (L ++ [(t, VOther, VUnit)]). split; [now apply ef_lin|]. split.
  - eapply (I_objs s _ _ G L _ t _ g' o); eauto; try discriminate.
    + split; [|split; [|split]]; intros u' Hu; cbn [flag objs own ncb cnt gone]; auto.
      * tauto.
      * intros k q Hk Hku Hq. split; [|exact Hq]. rewrite setm_neq; [exact Hku|]. intros ->. congruence.
    + econstructor; [exact Hr|]. constructor.
    + cbn. apply in_or_app. right. now left.
  - cbn [safeP]. eapply ret_ok; try reflexivity.
Qed.
Lemma safe_make_call t f x : sR t (pend VOther f) (make t x).
Proof.
  unfold make. cbn [safeP]. intros _ s G L HI Hg.
  pose proof HI as (A & B & C & D & E & F). destruct A as (o & Hv & Hr).
  pose proof (D t) as Dt. rewrite Hg in Dt.
  destruct Dt as (D1 & D2 & D3 & D4).
  set (p := Sp x (Some (ncb s))). set (s1 := Ast (flag s) (objs s) (own s) (setm (cnt s) (ncb s) 1) (S (ncb s)) (gone s)).
  set (g' := Gh (LDone VOther (VVal (Some p))) None (setm f (length (objs s)) (Some p)) None).
  assert (forall l x, nth_error (objs s) l = Some x ->
       nth_error (objs (push s1 t p)) l = Some x /\ own (push s1 t p) l = own s l) as Hold.
  { intros l y Hl. now apply (nth_push_old s1). }
  destruct B as (B1 & B2 & B3 & B4). destruct (B2 (ncb s)) as [Bc Bd]; [lia|].
  exists g', (L ++ [(t, VOther, VVal (Some p))]). split; [now apply ef_lin|]. split.
  - apply (I_change s); auto.
    + split; [|split; [|split]]; intros u Hu.
      * tauto.
      * intros v _ H. now apply Hold.
      * intros l q Hl Hw H. destruct (Hold _ _ H). split; congruence.
      * intros b Hb H1 H2 H3. cbn [push ncb cnt s1]. split; [lia|]. split; [|exact H3].
        rewrite setm_neq by lia. exact H2.
    + exists o. split; [now apply Hold|]. econstructor; [exact Hr|constructor].
    + split; [|split; [|split]].
      * intros b. cbn [push cnt objs s1]. rewrite owners_app, owners_cons. unfold p. rewrite cb_owners.
        cbn [owners]. unfold setm. rewrite (Nat.eqb_sym (ncb s) b). rewrite <- B1.
        destruct (Nat.eqb_spec b (ncb s)) as [->|Hn]; lia.
      * intros b Hb. cbn [push ncb s1] in Hb. cbn [push cnt s1]. rewrite setm_neq by lia. apply B2. lia.
      * exact B3.
      * intros b Hb. cbn [push cnt s1]. change (destroyed b (push s1 t p)) with (destroyed b s) in Hb.
        rewrite setm_neq; [now apply B4|]. intros ->. lia.
    + apply gone_app. exact C.
    + split; [|split; [|split]].
      * exact D1.
      * eapply (push_facts s s1 t p); eauto. intros l q. cbn [gm g']. unfold setm.
        destruct (Nat.eqb_spec l (length (objs s))); [|auto]. intros [= <-]. auto.
      * discriminate.
      * cbn. apply in_or_app. right. now left.
    + intros b Hb Hz. cbn [push ncb cnt s1] in Hb, Hz. unfold setm in Hz.
      destruct (Nat.eqb_spec b (ncb s)) as [|Hn]; [discriminate|].
      destruct (cases_gd s G L t _ b HI Hg ltac:(lia) Hz) as [K|[K|K]]; [now left|discriminate|now right; right].
    + discriminate.
  - cbn [safeP]. eapply ret_ok; try reflexivity. exists p. split; [apply setm_eq|reflexivity].
Qed.

(** * All executions *)
Notation areach := (reach (impl uses n) cview rview allowed (start ast0)).

Lemma begin_facts s G L t c f : I s G L -> gst (G t) = LFree ->
  (forall l p, f l = Some p -> l <> 0 /\ own s l = t /\ nth_error (objs s) l = Some (Some p)) ->
  I s (setm G t (pend c f)) L.
Proof.
  intros HI Hf Hs. pose proof HI as (_ & _ & _ & D & _). specialize (D t).
  destruct D as (D1 & D2 & D3 & D4). unfold hist_ok in D4. rewrite Hf in D4. destruct D4 as [D4 D5].
  apply I_ghost; auto.
  split; [|split; [|split]].
  - unfold lock_ok in *. rewrite D4 in D1. exact D1.
  - exact Hs.
  - discriminate.
  - exact Logic.I.
Qed.

Lemma begin_call s G L (h : list (event vcall vres)) t k : I s G L -> gst (G t) = LFree ->
  completed t h = of_thread t (lin3 L) -> allowed h s t k ->
  exists g', gst g' = LPend (cview s k) /\ I s (setm G t g') L /\ sC t g' (impl uses n t k).
Proof.
    intros HI Hf _ Ha.
    set (e := fun _ : nat => @None sp).
    destruct k as [|p|p|x p|x|x|l x|l|l u]; cbn [allowed cview impl] in *.
    + exists (pend VLoad e). split; [reflexivity|]. split; [now apply begin_facts|apply safe_load_call].
    + destruct Ha as (H0 & Ho & v & Hv). unfold obj. rewrite Hv.
      exists (pend (VStore (Some v)) (setm e p (Some v))). split; [reflexivity|].
      split; [|apply safe_store_call, setm_eq].
      apply begin_facts; auto. intros l q. unfold setm, e. eqb_cases; [|discriminate]. intros [= <-]. auto.
    + destruct Ha as (H0 & Ho & v & Hv). unfold obj. rewrite Hv.
      exists (pend (VExchange (Some v)) (setm e p (Some v))). split; [reflexivity|].
      split; [|apply safe_exchange_call, setm_eq].
      apply begin_facts; auto. intros l q. unfold setm, e. eqb_cases; [|discriminate]. intros [= <-]. auto.
    + destruct Ha as ((H0 & Ho & ve & Hve) & (K0 & Ko & v & Hv) & Hne). unfold obj. rewrite Hv, Hve.
      exists (pend (VCas (Some ve) (Some v)) (setm (setm e x (Some ve)) p (Some v))). split; [reflexivity|].
      split.
      * apply begin_facts; auto. intros l q. unfold setm, e. eqb_cases; try discriminate; intros [= <-]; auto.
      * apply safe_cas_call; auto; [rewrite setm_neq by auto|]; apply setm_eq.
    + exists (pend VOther e). split; [reflexivity|]. split; [now apply begin_facts|apply safe_make_call].
    + exists (pend VOther e). split; [reflexivity|]. split; [now apply begin_facts|apply safe_bare_call].
    + destruct Ha as (H0 & Ho & v & Hv).
      exists (pend VOther (setm e l (Some v))). split; [reflexivity|].
      split; [|apply safe_alias_call with v, setm_eq].
      apply begin_facts; auto. intros k q. unfold setm, e. eqb_cases; [|discriminate]. intros [= <-]. auto.
    + destruct Ha as (H0 & Ho & v & Hv).
      exists (pend VOther (setm e l (Some v))). split; [reflexivity|].
      split; [|apply safe_drop_call with v, setm_eq].
      apply begin_facts; auto. intros k q. unfold setm, e. eqb_cases; [|discriminate]. intros [= <-]. auto.
    + destruct Ha as (H0 & Ho & v & Hv).
      exists (pend VOther (setm e l (Some v))). split; [reflexivity|].
      split; [|apply safe_give_call with v, setm_eq].
      apply begin_facts; auto. intros k q. unfold setm, e. eqb_cases; [|discriminate]. intros [= <-]. auto.
Qed.

Lemma areach_good c : areach c -> good rview gh gst I (fun _ => False) c.
Proof.
  apply (reach_good _ _ _ allowed gh gst I (fun _ => False)) with (G0 := fun _ => Gh LFree None (fun _ => None) None).
  - exact begin_call.
  - split; [|split; [|split; [|split; [|split]]]].
    + exists sp_empty. split; [reflexivity|constructor].
    + repeat split; cbn; intros; auto; lia.
    + intros b t [].
    + intros t. split; [discriminate|]. split; [discriminate|]. split; [discriminate|]. cbn. now split.
    + cbn. intros b Hb. lia.
    + discriminate.
  - reflexivity.
Qed.

Lemma areach_not_bad c : areach c -> ~ bad c.
Proof.
  intros H Hb. destruct (good_bad _ _ _ _ _ c (areach_good c H) Hb) as (x & _ & _ & []).
Qed.

(** Every call takes effect at once; what was destroyed while the lock was held was destroyed by
    a failing compare_exchange, and was what its expected pointer owned. *)
Lemma areach_lin c : areach c ->
  exists x, erase x = hist c /\ (forall t, exists st, runs t x st) /\
    (exists v, seq_run holds_one sp_empty (lins x) v /\ nth_error (objs (sh c)) 0 = Some (Some v)) /\
    forall b t, In (b, t, true) (gone (sh c)) ->
      exists e p v, In (t, VCas (Some e) (Some p), VBool false (Some v)) (lins x) /\ cb e = Some b.
Proof.
  intros H. destruct (areach_good c H) as (x & G & E & Hr & HI & _). exists x.
  split; [exact E|]. split; [eauto|]. destruct HI as ((v & A1 & A2) & _ & C & _). split; eauto.
Qed.

Lemma areach_counts c : areach c ->
  (forall b, cnt (sh c) b = owners b (objs (sh c))) /\
  (forall b, destroyed b (sh c) <= 1) /\
  (forall b, 0 < owners b (objs (sh c)) -> b < ncb (sh c) /\ destroyed b (sh c) = 0) /\
  (quiet c -> forall b, b < ncb (sh c) -> owners b (objs (sh c)) = 0 -> destroyed b (sh c) = 1).
Proof.
  intros H. destruct (areach_good c H) as (x & G & E & Hr & HI & Ht).
  destruct HI as (_ & (B1 & B2 & B3 & B4) & _ & D & K & _).
  split; [exact B1|]. split; [exact B3|]. split.
  - intros b Hb. rewrite <- B1 in Hb. split.
    + destruct (Nat.lt_ge_cases b (ncb (sh c))) as [|Hge]; [assumption|]. destruct (B2 b Hge). lia.
    + destruct (destroyed b (sh c)) eqn:Ed; [reflexivity|]. rewrite B4 in Hb by lia. lia.
  - intros Hq b Hb Ho. destruct (K b Hb) as [Hd|[t Hd]]; [now rewrite B1|exact Hd|].
    specialize (Ht t). rewrite (Hq t) in Ht. destruct (D t) as (_ & _ & _ & D4).
    unfold hist_ok in D4. rewrite Ht in D4. destruct D4; congruence.
Qed.

(** A thread which spins on the flag it has set itself does so for ever. *)
Definition spins (k : code ast rs) : Prop :=
  exists a, k = Act a /\ forall m s, flag s <> None -> a m s = Wait.

Lemma areach_stuck c k t : areach c -> th c t = Some k -> spins k -> flag (sh c) = Some t ->
  forall c', reach (impl uses n) cview rview allowed c c' ->
  th c' t = Some k /\ flag (sh c') = Some t.
Proof.
  intros H Ht (a & Ha & Hs) Hf c' Hr.
  assert (exists x G, good_for rview gh gst I (fun _ => False) c' x G /\ th c' t = Some k /\ glk (G t) <> None)
    as (x & G & Hg & Hk & Hl).
  { induction Hr as [|c1 c2 Hr IH Hstep].
    - destruct (areach_good c H) as (x & G & Hg). exists x, G. split; [exact Hg|]. split; [exact Ht|].
      destruct Hg as (_ & _ & HI & _). pose proof HI as (_ & _ & _ & D & _). destruct (D t) as (D1 & _).
      unfold lock_ok in D1. destruct (glk (G t)); congruence.
    - destruct IH as (x & G & Hg & Hk & Hl).
      assert (flag (sh c1) = Some t) as Hf1.
      { destruct Hg as (_ & _ & HI & _). pose proof HI as (_ & _ & _ & D & _). destruct (D t) as (D1 & _).
        unfold lock_ok in D1. destruct (glk (G t)); [tauto|congruence]. }
      destruct (good_stuck (impl uses n) cview rview allowed gh gst I (fun _ => False) begin_call c1 c2 x G t Hg Hstep)
        as (x' & G' & Hg' & EG & Et).
      + unfold can_step. rewrite Hk, Ha. intros (m & s' & k' & E). rewrite Hs in E; congruence.
      + exists x', G'. split; [exact Hg'|]. split; [congruence|congruence]. }
  split; [exact Hk|]. destruct Hg as (_ & _ & HI & _). pose proof HI as (_ & _ & _ & D & _).
  destruct (D t) as (D1 & _). unfold lock_ok in D1. destruct (glk (G t)); [tauto|congruence].
Qed.
End AspsProofs.

(** * The pointers compared with their owners *)
Lemma lins_invs (x : list (xevent vcall vres)) t c r :
  (forall u, exists st, runs u x st) -> In (t, c, r) (lins x) -> In (t, c) (invs (erase x)).
Proof.
  intros H Hin. destruct (invs_lins x H) as [P HP].
  eapply Permutation.Permutation_in; [apply Permutation.Permutation_sym, HP|].
  apply in_or_app. left. apply in_map_iff. exists (t, c, r). now split.
Qed.

Lemma to_std (l : list sp) L v :
  one_owner (sp_empty :: l) -> seq_run holds_one sp_empty L v ->
  (forall t c r, In (t, c, r) L -> incl (args c) l) ->
  seq_run holds_std sp_empty L v /\ In v (sp_empty :: l).
Proof.
  intros Ho H. induction H as [|L v t c r v' H IH Hs]; intros Ha.
  - split; [constructor|now left].
  - destruct IH as [IH Hv]. { intros t' c' r' Hi. apply (Ha t' c' r'), in_or_app. now left. }
    assert (incl (args c) l) as Hc. { apply (Ha t c r), in_or_app. right. now left. }
    assert (forall p, In p (args c) -> In p (sp_empty :: l)) as Hc' by (intros p Hp; right; auto).
    split.
    + econstructor; [exact IH|]. destruct Hs as [|p|p|e p E|e p E|r]; try constructor.
      * assert (cb v = cb e) as Ec by (apply Ho; auto; apply Hc'; now left).
        destruct v, e. cbn in *. congruence.
      * congruence.
    + destruct Hs as [|p|p|e p E|e p E|r]; auto; apply Hc'; cbn; auto.
Qed.

Lemma seq_run_inv {A VC VR} (spec : nat -> A -> VC -> VR -> A -> Prop) a0 l t c r a' :
  seq_run spec a0 (l ++ [(t, c, r)]) a' -> exists a, seq_run spec a0 l a /\ spec t a c r a'.
Proof.
  intros H. inversion H as [E|l' a t' c' r' a1 H1 H2 E].
  - now destruct l.
  - apply app_inj_tail in E as [-> [= -> -> ->]]. now exists a.
Qed.

Lemma owner_ignored :
  exists c, reach (impl (fun _ => false) 0) cview rview allowed (start ast0) c /\ quiet c /\
    ~ linearizable (fun L => exists v, seq_run holds_std sp_empty L v) (hist c).
Proof.
  destruct (run_list_ok (impl (fun _ => false) 0) cview rview allowed
    [(0, CMake 7); (0, CStore 1); (0, CBare 7); (0, CBare 8); (0, CCas 3 4)] ast0
    (fun _ h => (forall u k, In (u, k) (invs h) -> u = 0) /\ cur_from 0 None h = None /\
       completed 0 h = [(VOther, VVal (Some (Sp 7 (Some 0)))); (VStore (Some (Sp 7 (Some 0))), VUnit);
         (VOther, VVal (Some (Sp 7 None))); (VOther, VVal (Some (Sp 8 None)));
         (VCas (Some (Sp 7 None)) (Some (Sp 8 None)), VBool true (Some (Sp 7 None)))]))
    as (c & H1 & H2 & H3 & H4 & H5).
  - cbn [list_allowed allowed]. vm_compute. repeat split; eauto; discriminate.
  - vm_compute. split; [|now split]. intros u k H.
    repeat (destruct H as [H|H]; [congruence|]). destruct H.
  - exists c. split; [exact H1|]. split; [exact H2|].
    intros (x & E & Hr & v & Hv). subst.
    assert (lins x = map (fun p => (0, fst p, snd p)) (completed 0 (erase x))) as El.
    { apply one_thread; auto; rewrite E; auto. }
    rewrite E, H5 in El. rewrite El in Hv. clear - Hv. cbn [map fst snd] in Hv.
    rewrite (app_removelast_last (0, VLoad, VUnit)) in Hv by discriminate. cbn [removelast last] in Hv.
    apply seq_run_inv in Hv as (a5 & Hv & S5).
    rewrite (app_removelast_last (0, VLoad, VUnit)) in Hv by discriminate. cbn [removelast last] in Hv.
    apply seq_run_inv in Hv as (a4 & Hv & S4).
    rewrite (app_removelast_last (0, VLoad, VUnit)) in Hv by discriminate. cbn [removelast last] in Hv.
    apply seq_run_inv in Hv as (a3 & Hv & S3).
    rewrite (app_removelast_last (0, VLoad, VUnit)) in Hv by discriminate. cbn [removelast last] in Hv.
    apply seq_run_inv in Hv as (a2 & Hv & S2).
    inversion S5; subst. inversion S4; subst. inversion S3; subst. inversion S2.
Qed.

Lemma deadlock uses n : uses 0 = true -> 0 < n ->
  exists c k, reach (impl uses n) cview rview allowed (start ast0) c /\ th c 0 = Some k /\
    forall c', reach (impl uses n) cview rview allowed c c' -> th c' 0 = Some k /\ flag (sh c') = Some 0.
Proof.
  intros Hu Hn. destruct n as [|n]; [lia|].
  set (s := Ast None [Some sp_empty; Some (Sp 7 (Some 0)); Some (Sp 8 None)] (setm (setm (fun _ => 0) 1 0) 2 0)
                (setm (fun _ => 0) 0 1) 1 []).
  destruct (run_list_reach (impl uses (S n)) cview rview allowed [(0, CMake 7); (0, CBare 8)] ast0
              (fun _ => None) [] s
              [EInv 0 VOther; ERes 0 (VVal (Some (Sp 7 (Some 0)))); EInv 0 VOther; ERes 0 (VVal (Some (Sp 8 None)))])
    as (T & HT & HR).
  - reflexivity.
  - cbn. auto.
  - reflexivity.
  - assert (exists s1 k, csteps (repeat 0 9) (impl uses (S n) 0 (CCas 1 2)) s = Some (s1, k) /\ spins k /\ flag s1 = Some 0)
      as (s1 & k & E & Hk & Hf).
    { eexists _, _. split; [|split].
      - cbn. rewrite Hu. reflexivity.
      - eexists. split; [reflexivity|]. intros m s1 Hs. destruct (flag s1) eqn:Ef; [|congruence]; cbn; rewrite Ef; reflexivity.
      - reflexivity. }
    destruct (run_begun (impl uses (S n)) cview rview allowed 0 (CCas 1 2) (repeat 0 9) s T
      [EInv 0 VOther; ERes 0 (VVal (Some (Sp 7 (Some 0)))); EInv 0 VOther; ERes 0 (VVal (Some (Sp 8 None)))]
      s1 k (HT 0)) as (T' & HT' & _ & HR').
    { cbn. unfold usable; cbn; repeat split; eauto; discriminate. }
    { exact E. }
    pose proof (reach_trans _ _ _ _ _ _ _ HR HR') as HA.
    eexists _, k. split; [exact HA|]. split; [exact HT'|].
    apply areach_stuck; auto.
Qed.
