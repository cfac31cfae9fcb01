From Coq Require Import List Arith Bool Lia.
From Verif Require Import Base GeneratorModel GeneratorSpec.
Import ListNotations.

Section Proofs.
Context {St V E : Type}.
Variable run : St -> step St V E.
Variable moved : V -> V.
Implicit Types (s : store St V E) (w : world St).

Definition frame_is (f : frame St V E) (b : rest St) : Prop :=
  match b with
  | Running st => finished f = false /\ body f = st /\ m_exception f = None
  | Finished => finished f = true
  end.
Record rel s w : Prop := mkRel {
  rel_gens : forall g,
    match w g, gens s g with
    | None, None => True
    | Some None, Some None => True
    | Some (Some b), Some (Some h) => exists f, frames s h = Some f /\ frame_is f b
    | _, _ => False
    end;
  rel_inj : forall g g' h, gens s g = Some (Some h) -> gens s g' = Some (Some h) -> g = g';
  rel_owned : forall h f, frames s h = Some f -> exists g, gens s g = Some (Some h);
  rel_fresh : forall h, fresh s <= h -> frames s h = None
}.

Lemma gen_none s w g : rel s w -> w g = None -> gens s g = None.
Proof. intros R H. pose proof (rel_gens _ _ R g) as Q. rewrite H in Q. destruct (gens s g); tauto. Qed.
Lemma gen_null s w g : rel s w -> w g = Some None -> gens s g = Some None.
Proof. intros R H. pose proof (rel_gens _ _ R g) as Q. rewrite H in Q. destruct (gens s g) as [[]|]; tauto. Qed.
Lemma gen_some s w g b : rel s w -> w g = Some (Some b) ->
  exists h f, gens s g = Some (Some h) /\ frames s h = Some f /\ frame_is f b.
Proof. intros R H. pose proof (rel_gens _ _ R g) as Q. rewrite H in Q. destruct (gens s g) as [[h|]|]; try tauto. destruct Q as (f & A & B). eauto. Qed.

(** A new content of the frame of [g]. *)
Lemma rel_put s w g h f b : rel s w -> gens s g = Some (Some h) -> frame_is f b -> frames s h <> None ->
  rel (mkStore (setm (frames s) h (Some f)) (fresh s) (gens s)) (setm w g (Some (Some b))).
Proof.
  intros R G F A. constructor; cbn [frames gens fresh].
  - intros g'. destruct (Nat.eq_dec g' g) as [->|N].
    + rewrite setm_eq, G. exists f. now rewrite setm_eq.
    + rewrite setm_neq by auto. pose proof (rel_gens _ _ R g') as Q.
      destruct (w g') as [[b'|]|], (gens s g') as [[h'|]|] eqn:G'; auto.
      assert (h' <> h) by (intros ->; apply N; eapply rel_inj; eauto). now rewrite setm_neq by auto.
  - apply (rel_inj _ _ R).
  - intros h' f' H. destruct (Nat.eq_dec h' h) as [->|N]; [eauto|]. rewrite setm_neq in H by auto. eapply rel_owned; eauto.
  - intros h' L. rewrite setm_neq; [now apply (rel_fresh _ _ R)|]. intros ->. apply A. now apply (rel_fresh _ _ R).
Qed.
Lemma rel_same s w g b : rel s w -> w g = Some b -> rel s (setm w g (Some b)).
Proof.
  intros R H. constructor; try apply R. intros g'. destruct (Nat.eq_dec g' g) as [->|N].
  - rewrite setm_eq. pose proof (rel_gens _ _ R g) as Q. now rewrite H in Q.
  - rewrite setm_neq by auto. apply (rel_gens _ _ R).
Qed.

(** The frame of [g] is destroyed, and [g] changed to be empty or gone. *)
Lemma rel_drop s w g old x : rel s w -> gens s g = Some old -> (x = None \/ x = Some None) ->
  exists s', (destroy_handle old ;;; put_gen g x) s = Ok tt s' /\ rel s' (setm w g (match x with None => None | _ => Some None end)).
Proof.
  intros R G X. destruct old as [h|].
  - pose proof (rel_gens _ _ R g) as Q. rewrite G in Q. destruct (w g) as [[b|]|] eqn:W; try contradiction. destruct Q as (f & F & FB).
    unfold destroy_handle, destroy_frame, bind, get_frame, put_gen. rewrite F. cbn [frames gens fresh]. eexists. split; [reflexivity|].
    constructor; cbn [frames gens fresh].
    + intros g'. destruct (Nat.eq_dec g' g) as [->|N].
      * rewrite !setm_eq. destruct X as [->| ->]; exact I.
      * rewrite !setm_neq by auto. pose proof (rel_gens _ _ R g') as Q'. destruct (w g') as [[b'|]|], (gens s g') as [[h'|]|] eqn:G'; auto.
        assert (h' <> h) by (intros ->; apply N; eapply rel_inj; eauto). now rewrite setm_neq by auto.
    + intros g1 g2 h' H1 H2. destruct (Nat.eq_dec g1 g) as [->|N1]; [rewrite setm_eq in H1; destruct X; congruence|].
      destruct (Nat.eq_dec g2 g) as [->|N2]; [rewrite setm_eq in H2; destruct X; congruence|].
      rewrite setm_neq in H1, H2 by auto. eapply rel_inj; eauto.
    + intros h' f' H. destruct (Nat.eq_dec h' h) as [->|N]; [rewrite setm_eq in H; discriminate|]. rewrite setm_neq in H by auto.
      destruct (rel_owned _ _ R _ _ H) as (g' & G'). exists g'. rewrite setm_neq; auto. intros ->. congruence.
    + intros h' L. destruct (Nat.eq_dec h' h) as [->|N]; [now rewrite setm_eq|]. rewrite setm_neq by auto. now apply (rel_fresh _ _ R).
  - unfold destroy_handle, bind, ret, put_gen. eexists. split; [reflexivity|].
    constructor; cbn [frames gens fresh]; try apply R.
    + intros g'. destruct (Nat.eq_dec g' g) as [->|N]; [rewrite !setm_eq; destruct X as [->| ->]; exact I|]. rewrite !setm_neq by auto. apply (rel_gens _ _ R).
    + intros g1 g2 h' H1 H2. destruct (Nat.eq_dec g1 g) as [->|N1]; [rewrite setm_eq in H1; destruct X; congruence|].
      destruct (Nat.eq_dec g2 g) as [->|N2]; [rewrite setm_eq in H2; destruct X; congruence|].
      rewrite setm_neq in H1, H2 by auto. eapply rel_inj; eauto.
    + intros h' f' H. destruct (rel_owned _ _ R _ _ H) as (g' & G'). exists g'. rewrite setm_neq; auto. intros ->. congruence.
Qed.

(** The handle of [from] passes to [g], which owns none. *)
Lemma rel_pass s w g from b h : rel s w -> g <> from -> (w g = None \/ w g = Some None) ->
  w from = Some b -> gens s from = Some h ->
  rel (mkStore (frames s) (fresh s) (setm (setm (gens s) from (Some None)) g (Some h))) (setm (setm w from (Some None)) g (Some b)).
Proof.
  intros R N WG W G. pose proof (rel_gens _ _ R from) as Q. rewrite W, G in Q.
  assert (forall h', gens s g <> Some (Some h')) as NG.
  { intros h' H. pose proof (rel_gens _ _ R g) as Q'. rewrite H in Q'. destruct WG as [WG|WG]; now rewrite WG in Q'. }
  constructor; cbn [frames gens fresh]; try apply R.
  - intros g'. destruct (Nat.eq_dec g' g) as [->|N1]; [rewrite !setm_eq; exact Q|]. rewrite !(setm_neq _ g) by auto.
    destruct (Nat.eq_dec g' from) as [->|N2]; [now rewrite !setm_eq|]. rewrite !setm_neq by auto. apply (rel_gens _ _ R).
  - assert (forall g' h', setm (setm (gens s) from (Some None)) g (Some h) g' = Some (Some h') ->
        (g' = g /\ h = Some h') \/ (g' <> g /\ g' <> from /\ gens s g' = Some (Some h'))) as I.
    { intros g' h' H. destruct (Nat.eq_dec g' g) as [->|N1]; [rewrite setm_eq in H; left; split; congruence|].
      rewrite setm_neq in H by auto. destruct (Nat.eq_dec g' from) as [->|N2]; [rewrite setm_eq in H; discriminate|].
      rewrite setm_neq in H by auto. auto. }
    intros g1 g2 h' H1 H2. destruct (I _ _ H1) as [(-> & E1)|(A1 & A2 & A3)], (I _ _ H2) as [(-> & E2)|(B1 & B2 & B3)]; auto.
    + subst h. exfalso. apply B2. eapply rel_inj; eauto.
    + subst h. exfalso. apply A2. eapply rel_inj; eauto.
    + eapply rel_inj; eauto.
  - intros h' f' H. destruct (rel_owned _ _ R _ _ H) as (g' & G'). destruct (Nat.eq_dec g' from) as [->|N2].
    + exists g. rewrite setm_eq. congruence.
    + exists g'. assert (g' <> g) by (intros ->; eapply NG; eauto). now rewrite !setm_neq by auto.
Qed.

Lemma safe_resume_ok s w g h f st : rel s w -> gens s g = Some (Some h) -> frames s h = Some f -> frame_is f (Running st) ->
  exists f' s', safe_resume run h s = Ok (m_exception f') s' /\ gens s' = gens s /\ frames s' h = Some f' /\
    match run st with
    | Yielded v st' => frame_is f' (Running st') /\ m_val f' = Some v /\ rel s' (setm w g (Some (Some (Running st'))))
    | Returned => frame_is f' Finished /\ m_exception f' = None /\ m_val f' = None /\ rel s' (setm w g (Some (Some Finished)))
    | Threw e => frame_is f' Finished /\ m_exception f' = Some e /\ rel s' (setm w g (Some (Some Finished)))
    end.
Proof.
  intros R G F (FD & FB & FE).
  unfold safe_resume, bind at 1, get_frame. rewrite F. unfold bind at 1, put_frame.
  unfold resume, bind, get_frame. cbn [frames]. rewrite setm_eq. cbn [finished body m_exception m_val]. rewrite FD, FB, FE.
  assert (frames s h <> None) as A by congruence.
  assert (forall f' b, frame_is f' b ->
    rel (mkStore (setm (setm (frames s) h (Some (mkFrame (body f) false None None))) h (Some f')) (fresh s) (gens s)) (setm w g (Some (Some b)))) as K.
  { intros f' b FI. pose proof (rel_put s w g h f' b R G FI A) as Q. 
    constructor; cbn [frames gens fresh] in *.
    - intros g'. pose proof (rel_gens _ _ Q g') as Q'. cbn [frames gens] in Q'. destruct (setm w g (Some (Some b)) g') as [[b'|]|], (gens s g') as [[h'|]|]; auto.
      destruct Q' as (f'' & E1 & E2). exists f''. split; [|exact E2]. unfold setm in *. now destruct (h' =? h).
    - apply (rel_inj _ _ Q).
    - intros h' f'' H. apply (rel_owned _ _ Q h' f''). cbn [frames]. unfold setm in *. now destruct (h' =? h).
    - intros h' L. pose proof (rel_fresh _ _ Q h' L) as Q'. cbn [frames] in Q'. unfold setm in *. now destruct (h' =? h). }
  rewrite FB in K.
  destruct (run st) as [v st'| |e]; unfold put_frame; cbn [frames gens fresh]; rewrite setm_eq;
    (eexists; eexists; split; [reflexivity|]; cbn [gens frames]; split; [reflexivity|]; split; [apply setm_eq|]; cbn [m_exception m_val]).
  - split; [cbn; auto|]. split; [reflexivity|]. apply K. cbn. auto.
  - split; [reflexivity|]. split; [reflexivity|]. split; [reflexivity|]. apply K. reflexivity.
  - split; [reflexivity|]. split; [reflexivity|]. apply K. reflexivity.
Qed.

Lemma setm_setm {A} (m : nat -> A) i x y : forall j, setm (setm m i x) i y j = setm m i y j.
Proof. intros j. unfold setm. now destruct (j =? i). Qed.
Lemma rel_ext s w w' : rel s w -> (forall g, w g = w' g) -> rel s w'.
Proof. intros R H. constructor; try apply R. intros g. rewrite <- H. apply (rel_gens _ _ R). Qed.

Lemma rel_gens_ext F n G G' w : rel (mkStore F n G) w -> (forall g, G g = G' g) -> rel (mkStore F n G') w.
Proof.
  intros R H. constructor; cbn [frames gens fresh].
  - intros g. rewrite <- H. apply (rel_gens _ _ R g).
  - intros g g' h. rewrite <- !H. apply (rel_inj _ _ R).
  - intros h f A. destruct (rel_owned _ _ R h f A) as (g & B). exists g. now rewrite <- H.
  - apply (rel_fresh _ _ R).
Qed.

Lemma next_ok s w g b : rel s w -> w g = Some (Some b) ->
  exists s', next run moved g s = Ok (fst (advance run b)) s' /\ rel s' (setm w g (Some (Some (snd (advance run b))))).
Proof.
  intros R W. destruct (gen_some _ _ _ _ R W) as (h & f & G & F & FB).
  assert (handle g s = Ok h s) as HH by (unfold handle, bind, get_gen; rewrite G; reflexivity).
  assert (done g s = Ok (finished f) s) as D.
  { unfold done, bind at 1. rewrite HH. unfold bind, get_frame. now rewrite F. }
  unfold next, bind at 1. rewrite D. destruct b as [st|].
  2:{ cbn in FB. rewrite FB. exists s. cbn [advance fst snd]. split; [reflexivity|]. now apply rel_same. }
  pose proof FB as (FD & _). rewrite FD. unfold bind at 1. rewrite HH.
  destruct (safe_resume_ok s w g h f st R G F FB) as (f' & s' & R1 & G' & F' & Q).
  unfold bind at 1. rewrite R1. cbn [advance]. destruct (run st) as [v st'| |e]; cbn [fst snd].
  - destruct Q as (FB' & VV & R'). pose proof FB' as (FD' & FS' & FE'). rewrite FE'. unfold bind at 1, get_frame. rewrite F'. rewrite VV.
    unfold bind, put_frame, ret. eexists. split; [reflexivity|].
    eapply rel_ext; [apply (rel_put s' _ g h _ (Running st') R')|].
    + congruence.
    + cbn. auto.
    + congruence.
    + intros g'. apply setm_setm.
  - destruct Q as (FB' & FE' & VV & R'). rewrite FE'. unfold bind at 1, get_frame. rewrite F'. rewrite VV.
    unfold bind, put_frame, ret. eexists. split; [reflexivity|].
    eapply rel_ext; [apply (rel_put s' _ g h _ Finished R')|].
    + congruence.
    + exact FB'.
    + congruence.
    + intros g'. apply setm_setm.
  - destruct Q as (FB' & FE' & R'). rewrite FE'. eexists. split; [reflexivity|exact R'].
Qed.

Lemma range_loop_ok n : forall s w g h f st v, rel s w -> gens s g = Some (Some h) -> frames s h = Some f ->
  frame_is f (Running st) -> m_val f = Some v ->
  exists s' , range_loop run n h s = Ok (let '(l, e, _) := match n with O => ([], None, Running st) | S n' => visit run n' st end in (v :: l, e)) s' /\
    rel s' (setm w g (Some (Some (let '(_, _, b) := match n with O => ([], None, Running st) | S n' => visit run n' st end in b)))) /\ gens s' = gens s.
Proof.
  induction n as [|n IH]; intros s w g h f st v R G F FB FV; cbn [range_loop]; pose proof FB as (FD & FS & FE);
    unfold bind at 1, iter_end, bind at 1, get_frame; rewrite F; cbn [ret]; rewrite FD; unfold bind at 1, iter_deref, bind at 1, get_frame; rewrite F, FV; unfold ret at 1.
  - exists s. split; [reflexivity|]. split; [|reflexivity]. apply rel_same; auto.
    pose proof (rel_gens _ _ R g) as Q. rewrite G in Q. destruct (w g) as [[b|]|]; try contradiction.
    destruct Q as (f0 & F0 & FB0). assert (f0 = f) by congruence. subst f0. do 2 f_equal.
    destruct b as [st0|]; [|cbn in FB0; congruence]. destruct FB0 as (_ & FB0 & _). congruence.
  - destruct (safe_resume_ok s w g h f st R G F FB) as (f' & s1 & R1 & G1 & F1 & Q).
    unfold bind at 1. rewrite R1. destruct n as [|n].
    + cbn [visit]. destruct (run st) as [v' st'| |e].
      * destruct Q as (FB' & VV & R'). pose proof FB' as (_ & _ & FE'). rewrite FE'.
        destruct (IH s1 _ g h f' st' v' R' ltac:(congruence) F1 FB' VV) as (s2 & R2 & Rel2 & G2).
        unfold bind. rewrite R2. exists s2. split; [reflexivity|]. split; [|congruence]. eapply rel_ext; [exact Rel2|]. intros g'. apply setm_setm.
      * destruct Q as (FB' & FE' & _ & R'). rewrite FE'. cbn in FB'. unfold bind at 1. cbn [range_loop]. unfold bind at 1, iter_end, bind at 1, get_frame. rewrite F1.
        unfold ret at 1. rewrite FB'. exists s1. split; [reflexivity|]. split; [exact R'|exact G1].
      * destruct Q as (FB' & FE' & R'). rewrite FE'. exists s1. split; [reflexivity|]. split; [exact R'|exact G1].
    + cbn [visit]. destruct (run st) as [v' st'| |e].
      * destruct Q as (FB' & VV & R'). pose proof FB' as (_ & _ & FE'). rewrite FE'.
        destruct (IH s1 _ g h f' st' v' R' ltac:(congruence) F1 FB' VV) as (s2 & R2 & Rel2 & G2).
        unfold bind. rewrite R2. destruct (visit run n st') as [[l e] b]. exists s2. split; [reflexivity|]. split; [|congruence]. eapply rel_ext; [exact Rel2|]. intros g'. apply setm_setm.
      * destruct Q as (FB' & FE' & _ & R'). rewrite FE'. cbn in FB'. unfold bind at 1. cbn [range_loop]. unfold bind at 1, iter_end, bind at 1, get_frame. rewrite F1.
        unfold ret at 1. rewrite FB'. exists s1. split; [reflexivity|]. split; [exact R'|exact G1].
      * destruct Q as (FB' & FE' & R'). rewrite FE'. exists s1. split; [reflexivity|]. split; [exact R'|exact G1].
Qed.

Lemma range_for_ok s w g st n : rel s w -> w g = Some (Some (Running st)) ->
  exists s', range_for run g n s = Ok (let '(l, e, _) := visit run n st in Visited l e) s' /\
    rel s' (setm w g (Some (Some (let '(_, _, b) := visit run n st in b)))).
Proof.
  intros R W. destruct (gen_some _ _ _ _ R W) as (h & f & G & F & FB).
  assert (handle g s = Ok h s) as HH by (unfold handle, bind, get_gen; rewrite G; reflexivity).
  unfold range_for, bind at 1. rewrite HH.
  destruct (safe_resume_ok s w g h f st R G F FB) as (f' & s1 & R1 & G1 & F1 & Q).
  unfold bind at 1. rewrite R1.
  assert (forall v st', run st = Yielded v st' ->
     visit run n st = (let '(l, e, b) := match n with O => ([], None, Running st') | S n' => visit run n' st' end in (v :: l, e, b))) as VQ.
  { intros v st' H. destruct n; cbn [visit]; rewrite H; reflexivity. }
  destruct (run st) as [v' st'| |e] eqn:RS.
  - destruct Q as (FB' & VV & R'). pose proof FB' as (_ & _ & FE'). rewrite FE'. rewrite (VQ v' st' eq_refl).
    destruct (range_loop_ok n s1 _ g h f' st' v' R' ltac:(congruence) F1 FB' VV) as (s2 & R2 & Rel2 & G2).
    unfold bind. rewrite R2. destruct (match n with O => ([], None, Running st') | S n' => visit run n' st' end) as [[l e] b].
    exists s2. split; [reflexivity|]. eapply rel_ext; [exact Rel2|]. intros g'. apply setm_setm.
  - destruct Q as (FB' & FE' & _ & R'). rewrite FE'. cbn in FB'.
    assert (visit run n st = ([], None, Finished)) as -> by (destruct n; cbn [visit]; rewrite RS; reflexivity).
    exists s1. split; [|exact R']. destruct n; cbn [range_loop]; unfold bind, iter_end, bind, get_frame; rewrite F1; unfold ret; rewrite FB'; reflexivity.
  - destruct Q as (FB' & FE' & R'). rewrite FE'.
    assert (visit run n st = ([], Some e, Finished)) as -> by (destruct n; cbn [visit]; rewrite RS; reflexivity).
    exists s1. split; [reflexivity|exact R'].
Qed.

Lemma call_ok s w o w' x : rel s w -> spec_call run w o = Some (w', x) ->
  exists s', call run moved o s = Ok x s' /\ rel s' w'.
Proof.
  intros R SC. destruct o as [g st|g from|g from|g|g|g|g|g|g n]; cbn [spec_call call] in *.
  - destruct (w g) eqn:W; [discriminate|]. inversion SC; subst; clear SC.
    pose proof (gen_none _ _ _ R W) as G. unfold bind, create. rewrite G. eexists. split; [reflexivity|].
    assert (frames s (fresh s) = None) as FF by (apply (rel_fresh _ _ R); lia).
    assert (forall g' h, gens s g' = Some (Some h) -> h < fresh s) as HL.
    { intros g' h H. pose proof (rel_gens _ _ R g') as Q. rewrite H in Q. destruct (w g') as [[b|]|]; try contradiction. destruct Q as (f & Q & _).
      destruct (Nat.le_gt_cases (fresh s) h) as [L|L]; [|exact L]. rewrite (rel_fresh _ _ R h L) in Q. discriminate. }
    constructor; cbn [frames gens fresh].
    + intros g'. destruct (Nat.eq_dec g' g) as [->|N]; [rewrite !setm_eq; eexists; rewrite ?setm_eq; split; [reflexivity|cbn; auto]|].
      rewrite !setm_neq by auto. pose proof (rel_gens _ _ R g') as Q. destruct (w g') as [[b|]|], (gens s g') as [[h|]|] eqn:G'; auto.
      pose proof (HL _ _ G'). now rewrite setm_neq by lia.
    + intros g1 g2 h H1 H2. unfold setm in H1, H2. destruct (Nat.eqb_spec g1 g), (Nat.eqb_spec g2 g); subst; auto.
      * pose proof (HL _ _ H2). inversion H1. lia.
      * pose proof (HL _ _ H1). inversion H2. lia.
      * eapply rel_inj; eauto.
    + intros h f H. destruct (Nat.eq_dec h (fresh s)) as [->|N]; [exists g; now rewrite setm_eq|]. rewrite setm_neq in H by auto.
      destruct (rel_owned _ _ R _ _ H) as (g' & G'). exists g'. rewrite setm_neq; auto. intros ->. congruence.
    + intros h L. rewrite setm_neq by lia. apply (rel_fresh _ _ R). lia.
  - destruct (w g) eqn:W; [discriminate|]. destruct (w from) as [b|] eqn:W'; [|discriminate]. inversion SC; subst; clear SC.
    pose proof (gen_none _ _ _ R W) as G.
    assert (exists h, gens s from = Some h) as (h & G') by (pose proof (rel_gens _ _ R from) as Q; rewrite W' in Q; destruct (gens s from), b; eauto; tauto).
    unfold bind at 1, move_ctor. rewrite G. unfold bind, get_gen, put_gen. rewrite G'. cbn [frames gens fresh]. eexists. split; [reflexivity|].
    apply rel_pass; auto. congruence.
  - destruct (w g) as [b0|] eqn:W; [|discriminate]. destruct (w from) as [b|] eqn:W'; [|discriminate].
    destruct (Nat.eqb_spec g from) as [|N]; [discriminate|]. inversion SC; subst; clear SC.
    assert (exists h, gens s from = Some h) as (h & G') by (pose proof (rel_gens _ _ R from) as Q; rewrite W' in Q; destruct (gens s from), b; eauto; tauto).
    assert (exists h, gens s g = Some h) as (h0 & G) by (pose proof (rel_gens _ _ R g) as Q; rewrite W in Q; destruct (gens s g), b0; eauto; tauto).
    destruct (rel_drop s w g h0 (Some None) R G (or_intror eq_refl)) as (s1 & R1 & Rel1).
    unfold bind at 1, move_assign, bind at 1, get_gen at 1. rewrite G.
    unfold bind in R1. unfold bind at 1. destruct (destroy_handle h0 s) as [u s0| | |] eqn:D; try discriminate.
    unfold put_gen in R1. inversion R1; subst s1; clear R1.
    assert (gens s0 = gens s) as GS.
    { unfold destroy_handle, destroy_frame, bind, get_frame, ret in D. destruct h0 as [k|]; [destruct (frames s k); [|discriminate]|]; inversion D; reflexivity. }
    unfold bind, get_gen, put_gen. rewrite GS, G'. cbn [frames gens fresh]. eexists. split; [reflexivity|].
    pose proof (rel_pass _ _ g from b h Rel1 N (or_intror (setm_eq _ _ _)) ltac:(rewrite setm_neq by auto; exact W') ltac:(cbn [gens]; rewrite setm_neq by auto; rewrite GS; exact G')) as RP.
    cbn [frames fresh gens] in RP. rewrite GS in RP. eapply rel_ext; [eapply rel_gens_ext; [exact RP|]|].
    + intros g'. rewrite <- GS. unfold setm. destruct (g' =? g), (g' =? from); reflexivity.
    + intros g'. unfold setm. destruct (g' =? g), (g' =? from); reflexivity.
  - destruct (w g) as [b0|] eqn:W; [|discriminate]. inversion SC; subst; clear SC.
    assert (exists h, gens s g = Some h) as (h0 & G) by (pose proof (rel_gens _ _ R g) as Q; rewrite W in Q; destruct (gens s g), b0; eauto; tauto).
    destruct (rel_drop s w g h0 None R G (or_introl eq_refl)) as (s1 & R1 & Rel1).
    unfold bind at 1, destroy, bind at 1, get_gen. rewrite G. rewrite R1. eexists. split; [reflexivity|exact Rel1].
  - destruct (w g) as [b0|] eqn:W; [|discriminate]. inversion SC; subst; clear SC.
    assert (exists h, gens s g = Some h) as (h0 & G) by (pose proof (rel_gens _ _ R g) as Q; rewrite W in Q; destruct (gens s g), b0; eauto; tauto).
    destruct (rel_drop s w g h0 (Some None) R G (or_intror eq_refl)) as (s1 & R1 & Rel1).
    unfold bind at 1, reset, bind at 1, get_gen. rewrite G. rewrite R1. eexists. split; [reflexivity|exact Rel1].
  - destruct (w g) as [b0|] eqn:W; [|discriminate]. inversion SC; subst; clear SC.
    pose proof (rel_gens _ _ R g) as Q. rewrite W in Q. unfold bind, has_handle, bind, get_gen, ret.
    destruct b0, (gens s g) as [[h|]|]; try contradiction; eexists; (split; [reflexivity|exact R]).
  - destruct (w g) as [[b|]|] eqn:W; try discriminate. inversion SC; subst; clear SC.
    destruct (gen_some _ _ _ _ R W) as (h & f & G & F & FB).
    unfold bind, done, bind, handle, bind, get_gen, get_frame, ret. rewrite G, F. eexists. split; [|exact R].
    destruct b; cbn in FB; [destruct FB as (FB & _)|]; now rewrite FB.
  - destruct (w g) as [[b|]|] eqn:W; try discriminate. destruct (next_ok s w g b R W) as (s' & RN & RR).
    destruct (advance run b) as [y b']. inversion SC; subst; clear SC. eauto.
  - destruct (w g) as [[[st|]|]|] eqn:W; try discriminate. destruct (range_for_ok s w g st n R W) as (s' & RN & RR).
    destruct (visit run n st) as [[l e] b']. inversion SC; subst; clear SC. eauto.
Qed.

Lemma calls_ok os : forall s w w' xs, rel s w -> spec_calls run w os = Some (w', xs) ->
  exists s', calls run moved os s = Ok xs s' /\ rel s' w'.
Proof.
  induction os as [|o os IH]; intros s w w' xs R SC; cbn [spec_calls calls] in *.
  - inversion SC; subst. exists s. split; [reflexivity|exact R].
  - destruct (spec_call run w o) as [[w1 x]|] eqn:S1; [|discriminate].
    destruct (spec_calls run w1 os) as [[w2 ys]|] eqn:S2; [|discriminate]. inversion SC; subst; clear SC.
    destruct (call_ok s w o w1 x R S1) as (s1 & R1 & Rel1). destruct (IH s1 w1 w' ys Rel1 S2) as (s2 & R2 & Rel2).
    unfold bind. rewrite R1, R2. exists s2. split; [reflexivity|exact Rel2].
Qed.
Lemma rel_init : rel init (fun _ => None).
Proof. constructor; cbn; auto; intros; discriminate. Qed.
End Proofs.
