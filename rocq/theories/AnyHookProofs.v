(** Proofs about AnyHookModel.v. *)
From Coq Require Import List Arith Bool Lia.
From Verif Require Import Base VecCommon AnyHookModel AnyHookSpec.
Import ListNotations.

Lemma nupd_eq {A} (l : list A) i x y : nth_error l i = Some y -> nth_error (upd l i x) i = Some x.
Proof. revert i; induction l as [|z l IH]; intros [|i]; simpl; intros H; try discriminate; auto. Qed.
Lemma nupd_ne {A} (l : list A) i j x : i <> j -> nth_error (upd l i x) j = nth_error l j.
Proof. revert i j; induction l as [|z l IH]; intros [|i] [|j] H; simpl; auto; try lia. Qed.
Lemma nupd_inv {A} (l : list A) i j x y :
  nth_error (upd l i x) j = Some y -> i = j /\ y = x /\ (exists z, nth_error l i = Some z) \/ i <> j /\ nth_error l j = Some y.
Proof.
  intros H. destruct (Nat.eq_dec i j) as [<-|N].
  - left. split; [reflexivity|]. destruct (nth_error l i) as [z|] eqn:E.
    + rewrite (nupd_eq _ _ _ _ E) in H. injection H as <-. eauto.
    + apply nth_error_None in E.
      assert (i < length (upd l i x)) by (apply nth_error_Some; congruence).
      rewrite upd_length in *. lia.
  - right. rewrite nupd_ne in H by auto. auto.
Qed.
Lemma nth_same {A B} (l : list A) (l' : list B) i x :
  length l = length l' -> nth_error l i = Some x -> exists y, nth_error l' i = Some y.
Proof.
  intros HL H. destruct (nth_error l' i) as [y|] eqn:E; [eauto|].
  apply nth_error_None in E. assert (i < length l) by (apply nth_error_Some; congruence). lia.
Qed.

(** * The memory, any by any *)
Definition cell_ok (m : list blk) (c : cell) (p : option nat) : Prop :=
  match c with
  | CEmpty => p = None
  | CHolds o => exists b, p = Some b /\ nth_error m b = Some (Block (osize o) (Some (osize o)) Alive o)
  | CBusy o => exists b h ph, p = Some b /\ nth_error m b = Some (Block (osize o) h ph o) /\
                 (ph = Building /\ h = None \/ ph = Ending /\ h = Some (osize o))
  end.

Definition im (s : st) (cs : list cell) : Prop :=
  length (ptrs s) = length cs /\
  (forall i c p, nth_error cs i = Some c -> nth_error (ptrs s) i = Some p -> cell_ok (mem s) c p) /\
  (forall i j b, nth_error (ptrs s) i = Some (Some b) -> nth_error (ptrs s) j = Some (Some b) -> i = j) /\
  (forall b x, nth_error (mem s) b = Some x -> x = Gone \/ exists i, nth_error (ptrs s) i = Some (Some b)).

Lemma im_iff s cs : in_memory s cs <-> im s cs.
Proof.
  unfold in_memory, im. split.
  - intros (HL & HE & HH & HB & HI & HG). split; [exact HL|]. split; [|split; assumption].
    intros i [|o|o] p Hc Hp; simpl.
    + rewrite (HE i Hc) in Hp. congruence.
    + destruct (HH i o Hc) as (b & H1 & H2). exists b. split; congruence.
    + destruct (HB i o Hc) as (b & h & ph & H1 & H2 & H3). exists b, h, ph. split; [congruence|auto].
  - intros (HL & HC & HI & HG). split; [exact HL|]. repeat split; try assumption.
    + intros i Hc. destruct (nth_same cs (ptrs s) i _ (eq_sym HL) Hc) as [p Hp].
      pose proof (HC _ _ _ Hc Hp) as H. simpl in H. congruence.
    + intros i o Hc. destruct (nth_same cs (ptrs s) i _ (eq_sym HL) Hc) as [p Hp].
      destruct (HC _ _ _ Hc Hp) as (b & -> & H). eauto.
    + intros i o Hc. destruct (nth_same cs (ptrs s) i _ (eq_sym HL) Hc) as [p Hp].
      destruct (HC _ _ _ Hc Hp) as (b & h & ph & -> & H1 & H2). exists b, h, ph. auto.
Qed.

Lemma cell_ok_frame m m' c p :
  (forall b, p = Some b -> nth_error m' b = nth_error m b) -> cell_ok m c p -> cell_ok m' c p.
Proof.
  intros HF. destruct c; simpl; auto.
  - intros (b & -> & H). exists b. rewrite HF by reflexivity. auto.
  - intros (b & h & ph & -> & H1 & H2). exists b, h, ph. rewrite HF by reflexivity. auto.
Qed.

(** The object of an any changes where it is. *)
Lemma im_change s cs i b c x :
  im s cs -> nth_error (ptrs s) i = Some (Some b) -> (exists y, nth_error (mem s) b = Some y) ->
  cell_ok (upd (mem s) b x) c (Some b) ->
  im (mkSt (ptrs s) (upd (mem s) b x)) (upd cs i c).
Proof.
  intros (HL & HC & HI & HG) Hp [y Hy] Hc. unfold im; simpl. split; [now rewrite upd_length|].
  split; [|split; [exact HI|]].
  - intros k c' p Hk Hpk. destruct (nupd_inv _ _ _ _ _ Hk) as [(<- & -> & _)|[N Hk']].
    + rewrite Hp in Hpk. injection Hpk as <-. exact Hc.
    + eapply cell_ok_frame; [|exact (HC _ _ _ Hk' Hpk)]. intros b' ->. apply nupd_ne.
      intros ->. apply N. exact (HI _ _ _ Hp Hpk).
  - intros b' x' H. destruct (nupd_inv _ _ _ _ _ H) as [(<- & -> & _)|[N H']]; eauto.
Qed.

(** An any gives its block back. *)
Lemma im_release s cs i b :
  im s cs -> nth_error (ptrs s) i = Some (Some b) ->
  im (mkSt (upd (ptrs s) i None) (upd (mem s) b Gone)) (upd cs i CEmpty).
Proof.
  intros (HL & HC & HI & HG) Hp. unfold im; simpl. split; [now rewrite !upd_length|].
  split; [|split].
  - intros k c' p Hk Hpk. destruct (nupd_inv _ _ _ _ _ Hk) as [(<- & -> & _)|[N Hk']].
    + rewrite (nupd_eq _ _ _ _ Hp) in Hpk. simpl. congruence.
    + rewrite nupd_ne in Hpk by auto.
      eapply cell_ok_frame; [|exact (HC _ _ _ Hk' Hpk)]. intros b' ->. apply nupd_ne.
      intros ->. apply N. exact (HI _ _ _ Hp Hpk).
  - intros k l b' Hk Hl.
    destruct (nupd_inv _ _ _ _ _ Hk) as [(_ & F & _)|[_ Hk']]; [discriminate F|].
    destruct (nupd_inv _ _ _ _ _ Hl) as [(_ & F & _)|[_ Hl']]; [discriminate F|]. eauto.
  - intros b' x' H. destruct (nupd_inv _ _ _ _ _ H) as [(<- & -> & _)|[N H']]; [auto|].
    destruct (HG _ _ H') as [?|[k Hk]]; [auto|]. right. exists k. rewrite nupd_ne; [exact Hk|].
    intros <-. congruence.
Qed.

(** An empty any gets a new block. *)
Lemma im_alloc s cs i c x :
  im s cs -> nth_error cs i = Some CEmpty ->
  cell_ok (mem s ++ [x]) c (Some (length (mem s))) ->
  im (mkSt (upd (ptrs s) i (Some (length (mem s)))) (mem s ++ [x])) (upd cs i c).
Proof.
  intros (HL & HC & HI & HG) Hci Hc.
  destruct (nth_same cs (ptrs s) i _ (eq_sym HL) Hci) as [p0 Hp0].
  assert (HIN : forall k b, nth_error (ptrs s) k = Some (Some b) -> b < length (mem s)).
  { intros k b Hk. destruct (nth_same (ptrs s) cs k _ HL Hk) as [ck Hck].
    pose proof (HC _ _ _ Hck Hk) as H. apply nth_error_Some. destruct ck; simpl in H.
    - discriminate H.
    - destruct H as (b' & E & H). injection E as <-. congruence.
    - destruct H as (b' & h & ph & E & H & _). injection E as <-. congruence. }
  unfold im; simpl. split; [now rewrite !upd_length|]. split; [|split].
  - intros k c' p Hk Hpk. destruct (nupd_inv _ _ _ _ _ Hk) as [(<- & -> & _)|[N Hk']].
    + rewrite (nupd_eq _ _ _ _ Hp0) in Hpk. injection Hpk as <-. exact Hc.
    + rewrite nupd_ne in Hpk by auto.
      eapply cell_ok_frame; [|exact (HC _ _ _ Hk' Hpk)]. intros b' ->. apply nth_error_app1.
      eauto.
  - intros k l b' Hk Hl.
    destruct (nupd_inv _ _ _ _ _ Hk) as [(<- & F & _)|[Nk Hk']];
    destruct (nupd_inv _ _ _ _ _ Hl) as [(<- & G & _)|[Nl Hl']]; auto.
    + injection F as ->. apply HIN in Hl'. lia.
    + injection G as ->. apply HIN in Hk'. lia.
    + eauto.
  - intros b' x' H. destruct (Nat.lt_ge_cases b' (length (mem s))) as [Hb|Hb].
    + rewrite nth_error_app1 in H by exact Hb.
      destruct (HG _ _ H) as [?|[k Hk]]; [auto|]. right. exists k. rewrite nupd_ne; [exact Hk|].
      intros <-. pose proof (HC _ _ _ Hci Hk) as E. discriminate E.
    + right. exists i. assert (b' = length (mem s)) as ->.
      { assert (b' < length (mem s ++ [x])) by (apply nth_error_Some; congruence).
        rewrite app_length in *. simpl in *. lia. }
      exact (nupd_eq _ _ _ _ Hp0).
Qed.

(** An any hands its block over to an empty one. *)
Lemma im_move s cs i j c p :
  im s cs -> nth_error cs i = Some CEmpty -> i <> j ->
  nth_error cs j = Some c -> nth_error (ptrs s) j = Some p ->
  im (mkSt (upd (upd (ptrs s) i p) j None) (mem s)) (upd (upd cs i c) j CEmpty).
Proof.
  intros (HL & HC & HI & HG) Hi N Hj Hp.
  destruct (nth_same cs (ptrs s) i _ (eq_sym HL) Hi) as [p0 Hp0].
  pose proof (HC _ _ _ Hi Hp0) as E0. simpl in E0. subst p0.
  assert (HP : forall k q, nth_error (upd (upd (ptrs s) i p) j None) k = Some q ->
             k = j /\ q = None \/ k = i /\ q = p \/ k <> j /\ k <> i /\ nth_error (ptrs s) k = Some q).
  { intros k q H. destruct (nupd_inv _ _ _ _ _ H) as [(<- & -> & _)|[Nj H1]]; [auto|].
    destruct (nupd_inv _ _ _ _ _ H1) as [(<- & -> & _)|[Ni H2]]; auto 10. }
  unfold im; simpl. split; [now rewrite !upd_length|]. split; [|split].
  - intros k c' q Hk Hq.
    destruct (nupd_inv _ _ _ _ _ Hk) as [(<- & -> & _)|[Nj Hk1]].
    + rewrite (nupd_eq _ j _ p) in Hq by (rewrite nupd_ne by auto; exact Hp). simpl. congruence.
    + rewrite nupd_ne in Hq by auto.
      destruct (nupd_inv _ _ _ _ _ Hk1) as [(<- & -> & _)|[Ni Hk2]].
      * rewrite (nupd_eq _ _ _ _ Hp0) in Hq. injection Hq as <-. eauto.
      * rewrite nupd_ne in Hq by auto. eauto.
  - intros k l b Hk Hl.
    destruct (HP _ _ Hk) as [[_ F]|[[-> F]|(K1 & K2 & Hk')]]; [discriminate F| |];
    destruct (HP _ _ Hl) as [[_ G]|[[-> G]|(L1 & L2 & Hl')]]; try discriminate G; auto.
    + subst p. elim L1. exact (eq_sym (HI _ _ _ Hp Hl')).
    + subst p. elim K1. exact (eq_sym (HI _ _ _ Hp Hk')).
    + eauto.
  - intros b x H. destruct (HG _ _ H) as [?|[k Hk]]; [auto|]. right.
    destruct (Nat.eq_dec k j) as [->|Nk].
    + exists i. rewrite nupd_ne by auto. rewrite (nupd_eq _ _ _ _ Hp0). congruence.
    + exists k. rewrite nupd_ne by auto. rewrite nupd_ne; [exact Hk|]. intros <-. congruence.
Qed.

Lemma lb_refl s cs : leaves_busy s cs s cs.
Proof. split; [reflexivity|]. intros i o H. split; [exact H|]. auto. Qed.
Lemma lb_trans s1 c1 s2 c2 s3 c3 :
  leaves_busy s1 c1 s2 c2 -> leaves_busy s2 c2 s3 c3 -> leaves_busy s1 c1 s3 c3.
Proof.
  intros [L1 H1] [L2 H2]. split; [congruence|]. intros i o H.
  destruct (H1 _ _ H) as [H3 H4]. destruct (H2 _ _ H3) as [H5 H6]. split; [exact H5|].
  intros b Hb. destruct (H4 _ Hb) as [H7 H8]. destruct (H6 _ H7) as [H9 H10]. split; congruence.
Qed.

(** * The calls do what the cells say *)
Definition sim (m : M st (list ans)) (f : list cell -> out) : Prop :=
  forall s cs cs' r, im s cs -> f cs = Done cs' r ->
    exists s', m s = Ok r s' /\ im s' cs' /\ leaves_busy s cs s' cs'.

Lemma seq_sim f g : (forall a, sim (f a) (g a)) -> forall l, sim (seq_body f l) (sseq g l).
Proof.
  intros H. induction l as [|a l IH]; intros s cs cs' r HI HS; simpl in *.
  - injection HS as <- <-. exists s. auto using lb_refl.
  - destruct (g a cs) as [cs1 r1| |] eqn:E1; simpl in HS; try discriminate.
    destruct (sseq g l cs1) as [cs2 r2| |] eqn:E2; simpl in HS; try discriminate.
    injection HS as <- <-.
    destruct (H a _ _ _ _ HI E1) as (s1 & A1 & B1 & C1).
    destruct (IH _ _ _ _ B1 E2) as (s2 & A2 & B2 & C2).
    exists s2. unfold bind, ret. rewrite A1, A2. eauto using lb_trans.
Qed.

Section Calls.
Variable body : list act -> M st (list ans).
Variable sbody : list act -> list cell -> out.
Hypothesis Hbody : forall l, sim (body l) (sbody l).

Lemma reset_sim i : sim (reset body i) (sreset sbody i).
Proof.
  intros s cs cs' r HI HS. unfold sreset in HS.
  destruct (nth_error cs i) as [[|o|o]|] eqn:Hi; try discriminate.
  - injection HS as <- <-. exists s. pose proof HI as (HL & HC & _).
    destruct (nth_same cs (ptrs s) i _ (eq_sym HL) Hi) as [p Hp].
    pose proof (HC _ _ _ Hi Hp) as E. simpl in E. subst p.
    unfold reset, bind, m_block. rewrite Hp. cbn. auto using lb_refl.
  - destruct (sbody (odtor o) (upd cs i (CBusy o))) as [cs1 r1| |] eqn:E1; simpl in HS; try discriminate.
    injection HS as <- <-.
    pose proof HI as (HL & HC & HJ & _).
    destruct (nth_same cs (ptrs s) i _ (eq_sym HL) Hi) as [p Hp].
    destruct (HC _ _ _ Hi Hp) as (b & -> & Hb).
    set (X := Block (osize o) (Some (osize o)) Ending o).
    set (s1 := mkSt (ptrs s) (upd (mem s) b X)).
    assert (I1 : im s1 (upd cs i (CBusy o))).
    { apply im_change; eauto. simpl. exists b, (Some (osize o)), Ending.
      rewrite (nupd_eq _ _ _ _ Hb). auto. }
    destruct (Hbody _ _ _ _ _ I1 E1) as (s2 & A2 & I2 & L2 & K2).
    destruct (K2 i o (nupd_eq _ _ _ _ Hi)) as [Hi2 Hk].
    destruct (Hk b Hp) as [Hp2 Hb2]. simpl in Hb2. rewrite (nupd_eq _ _ _ _ Hb) in Hb2.
    set (s3 := mkSt (upd (ptrs s2) i None) (upd (mem s2) b Gone)).
    assert (EU : upd (upd (mem s2) b (Bare (osize o))) b Gone = upd (mem s2) b Gone).
    { generalize (mem s2). clear. revert b. intros b l. revert b.
      induction l as [|y l IH]; intros [|b]; simpl; auto. now rewrite IH. }
    exists s3. split; [|split].
    + unfold reset, bind, m_block. rewrite Hp. unfold read_blk at 1. rewrite Hb.
      unfold write_blk at 1. rewrite Hb. fold X. fold s1. rewrite A2.
      unfold read_blk at 1. rewrite Hb2. unfold X at 1. unfold write_blk at 1. rewrite Hb2.
      unfold free_block, bind, m_block. simpl. rewrite Hp2. unfold deallocate, bind, read_blk. simpl.
      rewrite (nupd_eq _ _ _ _ Hb2). rewrite Nat.eqb_refl. unfold write_blk. simpl.
      rewrite (nupd_eq _ _ _ _ Hb2). unfold set_ptr. simpl. rewrite Hp2. rewrite EU. reflexivity.
    + apply im_release; assumption.
    + split; [rewrite upd_length in *; congruence|].
      intros k ok Hkk. assert (N : i <> k) by (intros <-; congruence).
      destruct (K2 k ok) as [H1 H2]; [now rewrite nupd_ne|]. split; [now rewrite nupd_ne|].
      intros bk Hbk. destruct (H2 bk Hbk) as [H3 H4]. simpl.
      assert (NB : b <> bk) by (intros <-; apply N; exact (HJ _ _ _ Hp Hbk)).
      rewrite !nupd_ne by auto. split; [exact H3|]. rewrite H4. simpl. now rewrite nupd_ne.
Qed.

Lemma sreset_empties i cs cs' r : (exists s, im s cs) -> sreset sbody i cs = Done cs' r -> nth_error cs' i = Some CEmpty.
Proof.
  intros [s HI] HS. unfold sreset in HS. destruct (nth_error cs i) as [[|o|o]|] eqn:Hi; try discriminate.
  - injection HS as <- <-. exact Hi.
  - destruct (reset_sim i s cs cs' r HI) as (s' & _ & _ & L & _).
    { unfold sreset. now rewrite Hi. }
    destruct (sbody (odtor o) (upd cs i (CBusy o))) as [cs1 r1| |] eqn:E1; simpl in HS; try discriminate.
    injection HS as <- <-. rewrite upd_length in L.
    destruct (nth_same cs cs1 i _ (eq_sym L) Hi) as [y Hy]. exact (nupd_eq _ _ _ _ Hy).
Qed.

Lemma emplace_sim i o : sim (emplace body i o) (semplace sbody i o).
Proof.
  intros s cs cs' r HI HS. unfold semplace in HS.
  destruct (sreset sbody i cs) as [cs1 r0| |] eqn:E1; simpl in HS; try discriminate.
  destruct (sbody (octor o) (upd cs1 i (CBusy o))) as [cs2 r2| |] eqn:E2; simpl in HS; try discriminate.
  injection HS as <- <-.
  destruct (reset_sim i _ _ _ _ HI E1) as (s1 & A1 & I1 & K1).
  pose proof (sreset_empties i _ _ _ (ex_intro _ s HI) E1) as Hi.
  pose proof I1 as (HL & HC & HJ & _).
  destruct (nth_same cs1 (ptrs s1) i _ (eq_sym HL) Hi) as [p Hp].
  pose proof (HC _ _ _ Hi Hp) as E. simpl in E. subst p.
  set (b := length (mem s1)). set (X := Block (osize o) None Building o).
  set (s2 := mkSt (upd (ptrs s1) i (Some b)) (mem s1 ++ [X])).
  assert (HX : nth_error (mem s1 ++ [X]) b = Some X).
  { unfold b. rewrite nth_error_app2 by lia. now rewrite Nat.sub_diag. }
  assert (I2 : im s2 (upd cs1 i (CBusy o))).
  { apply im_alloc; [exact I1|exact Hi|]. simpl. exists b, None, Building. auto. }
  destruct (Hbody _ _ _ _ _ I2 E2) as (s3 & A3 & I3 & L3 & K3).
  destruct (K3 i o (nupd_eq _ _ _ _ Hi)) as [Hi3 Hk].
  destruct (Hk b (nupd_eq _ _ _ _ Hp)) as [Hp3 Hb3]. simpl in Hb3. rewrite HX in Hb3.
  exists (mkSt (ptrs s3) (upd (mem s3) b (Block (osize o) (Some (osize o)) Alive o))).
  split; [|split].
  - unfold emplace. unfold bind at 1. rewrite A1. unfold bind, allocate, set_ptr. cbn.
    rewrite Hp. unfold write_blk at 1. cbn. fold b.
    assert (HB : nth_error (mem s1 ++ [Bare (osize o)]) b = Some (Bare (osize o))).
    { unfold b. rewrite nth_error_app2 by lia. now rewrite Nat.sub_diag. }
    rewrite HB. unfold b at 2. rewrite (upd_app_mid (mem s1) [] (Bare (osize o)) X) by reflexivity.
    fold s2. rewrite A3. unfold read_blk. rewrite Hb3. unfold X at 1. unfold write_blk. rewrite Hb3.
    reflexivity.
  - apply im_change; eauto. simpl. exists b. rewrite (nupd_eq _ _ _ _ Hb3). auto.
  - eapply lb_trans; [exact K1|].
    split; [rewrite upd_length in *; congruence|].
    intros k ok Hkk. assert (N : i <> k) by (intros <-; congruence).
    destruct (K3 k ok) as [H1 H2]; [now rewrite nupd_ne|]. split; [now rewrite nupd_ne|].
    intros bk Hbk. destruct (H2 bk) as [H3 H4]; [simpl; now rewrite nupd_ne|]. simpl.
    assert (BK : bk < length (mem s1)).
    { destruct (HC _ _ _ Hkk Hbk) as (b' & h & ph & Eb & Hm & _). injection Eb as <-.
      apply nth_error_Some. congruence. }
    rewrite nupd_ne by (unfold b; lia). split; [exact H3|]. rewrite H4. simpl.
    now rewrite nth_error_app1.
Qed.

Lemma move_sim i j : sim (move_assign body i j) (smove sbody i j).
Proof.
  intros s cs cs' r HI HS. unfold smove in HS. unfold move_assign.
  destruct (i =? j) eqn:Eij.
  - destruct (i <? length cs) eqn:El; [|discriminate]. injection HS as <- <-.
    apply Nat.ltb_lt in El. pose proof HI as (HL & _). rewrite <- HL in El.
    destruct (nth_error (ptrs s) i) as [p|] eqn:Hp; [|apply nth_error_None in Hp; lia].
    exists s. unfold bind, m_block. rewrite Hp. auto using lb_refl.
  - apply Nat.eqb_neq in Eij.
    destruct (sreset sbody i cs) as [cs1 r0| |] eqn:E1; simpl in HS; try discriminate.
    destruct (reset_sim i _ _ _ _ HI E1) as (s1 & A1 & I1 & K1).
    pose proof (sreset_empties i _ _ _ (ex_intro _ s HI) E1) as Hi.
    pose proof I1 as (HL & HC & HJ & _).
    destruct (nth_error cs1 j) as [c|] eqn:Hj; [|discriminate].
    assert (NB : forall o, c <> CBusy o) by (intros o ->; discriminate).
    assert (Done (upd (upd cs1 i c) j CEmpty) r0 = Done cs' r) as E by (destruct c; congruence).
    injection E as <- <-.
    destruct (nth_same cs1 (ptrs s1) i _ (eq_sym HL) Hi) as [pi Hpi].
    destruct (nth_same cs1 (ptrs s1) j _ (eq_sym HL) Hj) as [pj Hpj].
    exists (mkSt (upd (upd (ptrs s1) i pj) j None) (mem s1)).
    split; [|split].
    + unfold bind. rewrite A1. unfold m_block. rewrite Hpj. unfold set_ptr at 1. rewrite Hpi.
      unfold set_ptr. simpl. rewrite nupd_ne by auto. rewrite Hpj. reflexivity.
    + apply im_move; assumption.
    + eapply lb_trans; [exact K1|]. split; [now rewrite !upd_length|].
      intros k ok Hkk. assert (i <> k) by (intros <-; congruence).
      assert (j <> k) by (intros <-; apply (NB ok); congruence).
      simpl. rewrite !nupd_ne by auto. auto.
Qed.
End Calls.

Lemma exec_sim n : forall a, sim (exec n a) (sexec n a).
Proof.
  induction n as [|n IH]; intros a; [intros s cs cs' r _ HS; discriminate|].
  pose proof (seq_sim _ _ IH) as HB.
  destruct a as [i|i|i|i o|i j]; simpl.
  - intros s cs cs' r HI HS. destruct (nth_error cs i) as [c|] eqn:Hc; [|discriminate].
    injection HS as <- <-. exists s. pose proof HI as (HL & HC & _).
    destruct (nth_same cs (ptrs s) i _ (eq_sym HL) Hc) as [p Hp].
    pose proof (HC _ _ _ Hc Hp) as E.
    unfold bind, has_value, bind, m_block, ret. rewrite Hp. split; [|auto using lb_refl].
    do 3 f_equal. destruct c; simpl in E; [now subst p|destruct E as (b & -> & _); reflexivity|
      destruct E as (b & h & ph & -> & _); reflexivity].
  - intros s cs cs' r HI HS. destruct (nth_error cs i) as [c|] eqn:Hc; [|discriminate].
    injection HS as <- <-. exists s. pose proof HI as (HL & HC & _).
    destruct (nth_same cs (ptrs s) i _ (eq_sym HL) Hc) as [p Hp].
    pose proof (HC _ _ _ Hc Hp) as E.
    unfold bind, type_of, bind, m_block, ret. rewrite Hp. split; [|auto using lb_refl].
    destruct c; simpl in E; [now subst p| |].
    + destruct E as (b & -> & Hb). unfold read_blk. now rewrite Hb.
    + destruct E as (b & h & ph & -> & Hb & _). unfold read_blk. now rewrite Hb.
  - apply reset_sim; exact HB.
  - apply emplace_sim; exact HB.
  - apply move_sim; exact HB.
Qed.

Lemma im_init k : im (init k) (repeat CEmpty k).
Proof.
  unfold init, im; simpl. split; [now rewrite !repeat_length|]. split; [|split].
  - intros i c p Hc Hp. apply nth_error_In, repeat_spec in Hc. apply nth_error_In, repeat_spec in Hp. now subst.
  - intros i j b H. apply nth_error_In, repeat_spec in H. discriminate.
  - intros [|b] x H; discriminate.
Qed.

(** * The depth which is enough *)
Definition w1 (c : cell) : nat := match c with CHolds o => calls_all (odtor o) | _ => 0 end.
Fixpoint weight (cs : list cell) : nat := match cs with [] => 0 | c :: cs' => w1 c + weight cs' end.
Lemma weight_upd cs i c c' : nth_error cs i = Some c -> weight (upd cs i c') + w1 c = weight cs + w1 c'.
Proof.
  revert i; induction cs as [|x cs IH]; intros [|i] H; simpl in *; try discriminate.
  - injection H as ->. lia.
  - specialize (IH _ H). lia.
Qed.
Lemma weight_upd' cs i c : weight (upd cs i c) <= weight cs + w1 c.
Proof.
  destruct (nth_error cs i) as [x|] eqn:E.
  - pose proof (weight_upd _ _ _ c E). lia.
  - apply nth_error_None in E. revert i E. induction cs as [|x cs IH]; intros [|i] H; simpl in *; try lia.
    specialize (IH i ltac:(lia)). lia.
Qed.
Lemma calls_emplace i o : calls (Emplace i o) = S (calls_all (octor o) + calls_all (odtor o)).
Proof.
  destruct o as [ty sz c d].
  assert (H : forall l, (fix many l := match l with [] => 0 | a :: l' => calls a + many l' end) l = calls_all l).
  { induction l as [|a l IH]; [reflexivity|]. simpl. now rewrite IH. }
  simpl. now rewrite !H.
Qed.

Definition fits (n k : nat) (f : list cell -> out) : Prop :=
  forall cs, (k + weight cs <= n -> f cs <> More) /\
             (forall cs' r, f cs = Done cs' r -> weight cs' <= weight cs + k).

Lemma seq_fits n f : (forall a, fits n (calls a) (f a)) -> forall l, fits n (calls_all l) (sseq f l).
Proof.
  intros H. induction l as [|a l IH]; intros cs; simpl.
  - split; [discriminate|]. intros cs' r E. injection E as <- <-. lia.
  - destruct (H a cs) as [H1 H2]. destruct (f a cs) as [cs1 r1| |] eqn:E1; simpl.
    + specialize (H2 _ _ eq_refl). destruct (IH cs1) as [H3 H4].
      destruct (sseq f l cs1) as [cs2 r2| |] eqn:E2; simpl.
      * split; [discriminate|]. intros cs' r E. injection E as <- <-. specialize (H4 _ _ eq_refl). lia.
      * split; discriminate.
      * split; [|discriminate]. intros L. elim H3; [lia|reflexivity].
    + split; discriminate.
    + split; [|discriminate]. intros L. elim H1; [lia|reflexivity].
Qed.

Section Fits.
Variable n : nat.
Variable sbody : list act -> list cell -> out.
Hypothesis Hbody : forall l, fits n (calls_all l) (sbody l).

Lemma sreset_fits i : fits n 0 (sreset sbody i).
Proof.
  intros cs. unfold sreset. destruct (nth_error cs i) as [[|o|o]|] eqn:Hi; try (split; discriminate).
  - split; [discriminate|]. intros cs' r E. injection E as <- <-. lia.
  - pose proof (weight_upd _ _ _ (CBusy o) Hi) as W. simpl in W.
    destruct (Hbody (odtor o) (upd cs i (CBusy o))) as [H1 H2].
    destruct (sbody (odtor o) (upd cs i (CBusy o))) as [cs1 r1| |]; simpl.
    + split; [discriminate|]. intros cs' r E. injection E as <- <-. specialize (H2 _ _ eq_refl).
      pose proof (weight_upd' cs1 i CEmpty) as W'. simpl in W'. lia.
    + split; discriminate.
    + split; [|discriminate]. intros L. apply H1. lia.
Qed.
Lemma semplace_fits i o : fits n (calls_all (octor o) + calls_all (odtor o)) (semplace sbody i o).
Proof.
  intros cs. unfold semplace. destruct (sreset_fits i cs) as [R1 R2].
  destruct (sreset sbody i cs) as [cs1 r0| |]; simpl.
  - specialize (R2 _ _ eq_refl).
    pose proof (weight_upd' cs1 i (CBusy o)) as W. simpl in W.
    destruct (Hbody (octor o) (upd cs1 i (CBusy o))) as [H1 H2].
    destruct (sbody (octor o) (upd cs1 i (CBusy o))) as [cs2 r2| |]; simpl.
    + split; [discriminate|]. intros cs' r E. injection E as <- <-. specialize (H2 _ _ eq_refl).
      pose proof (weight_upd' cs2 i (CHolds o)) as W'. simpl in W'. lia.
    + split; discriminate.
    + split; [|discriminate]. intros L. apply H1. lia.
  - split; discriminate.
  - split; [|discriminate]. intros L. apply R1. lia.
Qed.
Lemma sreset_at i cs cs' r : sreset sbody i cs = Done cs' r -> w1 (nth i cs' CEmpty) = 0.
Proof.
  unfold sreset. destruct (nth_error cs i) as [[|o|o]|] eqn:Hi; try discriminate.
  - intros E. injection E as <- <-. now rewrite (nth_error_nth _ _ _ Hi).
  - destruct (sbody (odtor o) (upd cs i (CBusy o))) as [cs1 r1| |]; simpl; try discriminate.
    intros E. injection E as <- <-.
    destruct (nth_error (upd cs1 i CEmpty) i) as [y|] eqn:Ey.
    + destruct (nupd_inv _ _ _ _ _ Ey) as [(_ & -> & _)|[N _]]; [|lia]. now rewrite (nth_error_nth _ _ _ Ey).
    + apply nth_error_None in Ey. now rewrite nth_overflow.
Qed.
Lemma smove_fits i j : fits n 0 (smove sbody i j).
Proof.
  intros cs. unfold smove. destruct (i =? j) eqn:Eij.
  - destruct (i <? length cs); [|split; discriminate]. split; [discriminate|].
    intros cs' r E. injection E as <- <-. lia.
  - apply Nat.eqb_neq in Eij. destruct (sreset_fits i cs) as [R1 R2].
    destruct (sreset sbody i cs) as [cs1 r0| |]; simpl.
    + specialize (R2 _ _ eq_refl).
      destruct (nth_error cs1 j) as [c|] eqn:Hj; [|split; discriminate].
      assert (W : weight (upd (upd cs1 i c) j CEmpty) <= weight cs1).
      { pose proof (weight_upd' cs1 i c) as W1.
        assert (Hj' : nth_error (upd cs1 i c) j = Some c) by (now rewrite nupd_ne).
        pose proof (weight_upd _ _ _ CEmpty Hj') as W2. simpl in W2. lia. }
      destruct c; (split; [discriminate|]); intros cs' r E; try discriminate; injection E as <- <-; lia.
    + split; discriminate.
    + split; [|discriminate]. intros L. apply R1. lia.
Qed.
End Fits.

Lemma exec_fits n : forall a, fits n (calls a) (sexec n a).
Proof.
  induction n as [|n IH]; intros a cs.
  - split; [|discriminate]. intros L. destruct a as [| | |i [ty sz c d]|]; simpl in L; lia.
  - pose proof (seq_fits _ _ IH) as HB. destruct a as [i|i|i|i o|i j]; simpl sexec.
    + destruct (nth_error cs i); split; try discriminate. intros cs' r E. injection E as <- <-. lia.
    + destruct (nth_error cs i); split; try discriminate. intros cs' r E. injection E as <- <-. lia.
    + destruct (sreset_fits n _ HB i cs) as [H1 H2]. simpl calls. split.
      * intros L. apply H1. lia.
      * intros cs' r E. specialize (H2 _ _ E). lia.
    + destruct (semplace_fits n _ HB i o cs) as [H1 H2]. rewrite calls_emplace. split.
      * intros L. apply H1. lia.
      * intros cs' r E. specialize (H2 _ _ E). lia.
    + destruct (smove_fits n _ HB i j cs) as [H1 H2]. simpl calls. split.
      * intros L. apply H1. lia.
      * intros cs' r E. specialize (H2 _ _ E). lia.
Qed.

Lemma weight_repeat k : weight (repeat CEmpty k) = 0.
Proof. induction k; simpl; auto. Qed.

(** * Layered programs are never stuck *)
Lemma layered_emplace k lo i o :
  layered k lo (Emplace i o) <->
  lo <= i < k /\ Forall (layered k (S i)) (octor o) /\ Forall (layered k (S i)) (odtor o).
Proof.
  destruct o as [ty sz c d]. simpl.
  assert (H : forall m l, (fix many m l := match l with [] => True | a :: l' => layered k m a /\ many m l' end) m l <-> Forall (layered k m) l).
  { intros m. induction l as [|a l IH]; [split; constructor|]. rewrite IH. split.
    - intros [? ?]. now constructor.
    - intros F. inversion F; auto. }
  now rewrite !H.
Qed.

Lemma layered_weaken k : forall lo lo' a, lo' <= lo -> layered k lo a -> layered k lo' a.
Proof. intros lo lo' [i|i|i|i [ty sz c d]|i j] L; simpl; intuition lia. Qed.

(** Every object in any [i] only changes later ones; anys in use come before [lo]. *)
Definition lay (k lo : nat) (cs : list cell) : Prop :=
  length cs = k /\
  (forall i o, nth_error cs i = Some (CHolds o) -> Forall (layered k (S i)) (odtor o)) /\
  (forall i o, nth_error cs i = Some (CBusy o) -> i < lo).

Definition free (k lo : nat) (f : list cell -> out) : Prop :=
  forall cs, lay k lo cs -> f cs <> Stuck /\ (forall cs' r, f cs = Done cs' r -> lay k lo cs').

Lemma seq_free k lo f :
  (forall a, layered k lo a -> free k lo (f a)) -> forall l, Forall (layered k lo) l -> free k lo (sseq f l).
Proof.
  intros H. induction 1 as [|a l Ha Hl IH]; intros cs L; simpl.
  - split; [discriminate|]. intros cs' r E. injection E as <- <-. exact L.
  - destruct (H a Ha cs L) as [H1 H2]. destruct (f a cs) as [cs1 r1| |] eqn:E1; simpl; [|congruence|split; discriminate].
    destruct (IH cs1 (H2 _ _ eq_refl)) as [H3 H4].
    destruct (sseq f l cs1) as [cs2 r2| |] eqn:E2; simpl; [|congruence|split; discriminate].
    split; [discriminate|]. intros cs' r E. injection E as <- <-. eauto.
Qed.

Lemma lay_busy k lo i o cs : lo <= i -> lay k lo cs -> lay k (S i) (upd cs i (CBusy o)).
Proof.
  intros Hi (L1 & L2 & L3). split; [now rewrite upd_length|]. split.
  - intros j o' H. destruct (nupd_inv _ _ _ _ _ H) as [(_ & E & _)|[_ H']]; [discriminate|eauto].
  - intros j o' H. destruct (nupd_inv _ _ _ _ _ H) as [(<- & _ & _)|[_ H']]; [lia|]. apply L3 in H'. lia.
Qed.

Section Free.
Variable k : nat.
Variable sbody : list act -> list cell -> out.
Hypothesis Hbody : forall lo l, Forall (layered k lo) l -> free k lo (sbody l).
(** Bodies make no other any busy. *)
Hypothesis Hback : forall l cs cs' r, sbody l cs = Done cs' r ->
  forall i o, nth_error cs' i = Some (CBusy o) -> nth_error cs i = Some (CBusy o).

Lemma sreset_free lo i : lo <= i < k -> free k lo (sreset sbody i).
Proof.
  intros Hi cs L. pose proof L as (L1 & L2 & L3). unfold sreset.
  destruct (nth_error cs i) as [[|o|o]|] eqn:Ei.
  - split; [discriminate|]. intros cs' r E. injection E as <- <-. exact L.
  - destruct (Hbody (S i) (odtor o) (L2 _ _ Ei) _ (lay_busy k lo i o cs (proj1 Hi) L)) as [H1 H2].
    destruct (sbody (odtor o) (upd cs i (CBusy o))) as [cs1 r1| |] eqn:E1; simpl; [|congruence|split; discriminate].
    split; [discriminate|]. intros cs' r E. injection E as <- <-.
    destruct (H2 _ _ eq_refl) as (M1 & M2 & M3). split; [now rewrite upd_length|]. split.
    + intros j o' H. destruct (nupd_inv _ _ _ _ _ H) as [(_ & E & _)|[_ H']]; [discriminate|eauto].
    + intros j o' H. destruct (nupd_inv _ _ _ _ _ H) as [(_ & E & _)|[N H']]; [discriminate|].
      apply (Hback _ _ _ _ E1) in H'. rewrite nupd_ne in H' by auto. eauto.
  - apply L3 in Ei. lia.
  - apply nth_error_None in Ei. lia.
Qed.
Lemma semplace_free lo i o : layered k lo (Emplace i o) -> free k lo (semplace sbody i o).
Proof.
  intros Ha cs L. apply layered_emplace in Ha. destruct Ha as (Hi & Hc & Hd). unfold semplace.
  destruct (sreset_free lo i Hi cs L) as [H1 H2].
  destruct (sreset sbody i cs) as [cs1 r0| |] eqn:E0; simpl; [|congruence|split; discriminate].
  pose proof (H2 _ _ eq_refl) as L'. pose proof L' as (_ & _ & N3).
  destruct (Hbody (S i) (octor o) Hc _ (lay_busy k lo i o cs1 (proj1 Hi) L')) as [H3 H4].
  destruct (sbody (octor o) (upd cs1 i (CBusy o))) as [cs2 r2| |] eqn:E1; simpl; [|congruence|split; discriminate].
  split; [discriminate|]. intros cs' r E. injection E as <- <-.
  destruct (H4 _ _ eq_refl) as (M1 & M2 & M3). split; [now rewrite upd_length|]. split.
  - intros j o' H. destruct (nupd_inv _ _ _ _ _ H) as [(<- & E & _)|[_ H']]; [injection E as ->; exact Hd|eauto].
  - intros j o' H. destruct (nupd_inv _ _ _ _ _ H) as [(_ & E & _)|[N H']]; [discriminate|].
    apply (Hback _ _ _ _ E1) in H'. rewrite nupd_ne in H' by auto. eauto.
Qed.
Lemma smove_free lo i j : layered k lo (Move i j) -> free k lo (smove sbody i j).
Proof.
  intros (Hi & Hij & Hj) cs L. unfold smove. destruct (i =? j) eqn:Eij.
  - pose proof L as (L1 & _). destruct (Nat.ltb_spec i (length cs)); [|lia].
    split; [discriminate|]. intros cs' r E. injection E as <- <-. exact L.
  - apply Nat.eqb_neq in Eij. destruct (sreset_free lo i ltac:(lia) cs L) as [H1 H2].
    destruct (sreset sbody i cs) as [cs1 r0| |] eqn:E0; simpl; [|congruence|split; discriminate].
    destruct (H2 _ _ eq_refl) as (M1 & M2 & M3).
    destruct (nth_error cs1 j) as [c|] eqn:Ej; [|apply nth_error_None in Ej; lia].
    assert (NB : forall o, c <> CBusy o) by (intros o ->; apply M3 in Ej; lia).
    assert (LL : lay k lo (upd (upd cs1 i c) j CEmpty)).
    { split; [now rewrite !upd_length|]. split.
      - intros x o' H. destruct (nupd_inv _ _ _ _ _ H) as [(_ & E & _)|[_ H']]; [discriminate|].
        destruct (nupd_inv _ _ _ _ _ H') as [(<- & E & _)|[_ H'']]; [|eauto].
        subst c. eapply Forall_impl; [|exact (M2 _ _ Ej)]. intros a. apply layered_weaken. lia.
      - intros x o' H. destruct (nupd_inv _ _ _ _ _ H) as [(_ & E & _)|[_ H']]; [discriminate|].
        destruct (nupd_inv _ _ _ _ _ H') as [(<- & E & _)|[_ H'']]; [|eauto]. now elim (NB o'). }
    destruct c as [|o|o]; [| |now elim (NB o)]; (split; [discriminate|]);
      intros cs' r E; injection E as <- <-; exact LL.
Qed.
End Free.

(** The busy anys are the same before and after every call. *)
Definition same_busy (cs cs' : list cell) : Prop :=
  length cs' = length cs /\ forall i o, nth_error cs' i = Some (CBusy o) <-> nth_error cs i = Some (CBusy o).
Lemma sb_trans a b c : same_busy a b -> same_busy b c -> same_busy a c.
Proof. intros [L1 H1] [L2 H2]. split; [congruence|]. intros i o. now rewrite H2, H1. Qed.
Definition kept (f : list cell -> out) : Prop := forall cs cs' r, f cs = Done cs' r -> same_busy cs cs'.
Lemma sb_refl cs : same_busy cs cs.
Proof. split; [reflexivity|]. intros; reflexivity. Qed.

Lemma seq_kept f : (forall a, kept (f a)) -> forall l, kept (sseq f l).
Proof.
  intros H. induction l as [|a l IH]; intros cs cs' r HS; simpl in *.
  - injection HS as <- <-. apply sb_refl.
  - destruct (f a cs) as [cs1 r1| |] eqn:E1; simpl in HS; try discriminate.
    destruct (sseq f l cs1) as [cs2 r2| |] eqn:E2; simpl in HS; try discriminate.
    injection HS as <- <-. eapply sb_trans; eauto. eapply H; eauto.
Qed.
(** An any which was not busy, and was for the time of a body only. *)
Lemma sb_around cs i c o cs1 c' :
  nth_error cs i = Some c -> (forall o', c <> CBusy o') -> (forall o', c' <> CBusy o') ->
  same_busy (upd cs i (CBusy o)) cs1 -> same_busy cs (upd cs1 i c').
Proof.
  intros Hi N N' [L H]. rewrite upd_length in L. split; [now rewrite upd_length|]. intros j o'.
  destruct (Nat.eq_dec i j) as [<-|Nj].
  - destruct (nth_same cs cs1 i _ (eq_sym L) Hi) as [y Hy]. rewrite (nupd_eq _ _ _ _ Hy), Hi.
    split; intros E; injection E as E; [now elim (N' o')|now elim (N o')].
  - rewrite nupd_ne by auto. rewrite H. now rewrite nupd_ne.
Qed.
Section Kept.
Variable sbody : list act -> list cell -> out.
Hypothesis Hbody : forall l, kept (sbody l).
Lemma sreset_kept i : kept (sreset sbody i).
Proof.
  intros cs cs' r HS. unfold sreset in HS. destruct (nth_error cs i) as [[|o|o]|] eqn:Hi; try discriminate.
  - injection HS as <- <-. apply sb_refl.
  - destruct (sbody (odtor o) (upd cs i (CBusy o))) as [cs1 r1| |] eqn:E1; simpl in HS; try discriminate.
    injection HS as <- <-. eapply sb_around; eauto; try discriminate. eapply Hbody; eauto.
Qed.
Lemma sreset_empty i cs cs' r : sreset sbody i cs = Done cs' r -> nth_error cs' i = Some CEmpty.
Proof.
  intros HS. destruct (sreset_kept _ _ _ _ HS) as [L _]. unfold sreset in HS.
  destruct (nth_error cs i) as [[|o|o]|] eqn:Hi; try discriminate.
  - injection HS as <- <-. exact Hi.
  - destruct (sbody (odtor o) (upd cs i (CBusy o))) as [cs1 r1| |] eqn:E1; simpl in HS; try discriminate.
    injection HS as <- <-. rewrite upd_length in L.
    destruct (nth_same cs cs1 i _ (eq_sym L) Hi) as [y Hy]. exact (nupd_eq _ _ _ _ Hy).
Qed.
Lemma semplace_kept i o : kept (semplace sbody i o).
Proof.
  intros cs cs' r HS. unfold semplace in HS.
  destruct (sreset sbody i cs) as [cs1 r0| |] eqn:E0; simpl in HS; try discriminate.
  destruct (sbody (octor o) (upd cs1 i (CBusy o))) as [cs2 r2| |] eqn:E1; simpl in HS; try discriminate.
  injection HS as <- <-. eapply sb_trans; [eapply sreset_kept; eauto|].
  eapply sb_around; [eapply sreset_empty; eauto| | |eapply Hbody; eauto]; discriminate.
Qed.
Lemma smove_kept i j : kept (smove sbody i j).
Proof.
  intros cs cs' r HS. unfold smove in HS. destruct (i =? j) eqn:Eij.
  - destruct (i <? length cs); [|discriminate]. injection HS as <- <-. apply sb_refl.
  - apply Nat.eqb_neq in Eij.
    destruct (sreset sbody i cs) as [cs1 r0| |] eqn:E0; simpl in HS; try discriminate.
    pose proof (sreset_empty _ _ _ _ E0) as Hi.
    eapply sb_trans; [eapply sreset_kept; eauto|].
    destruct (nth_error cs1 j) as [c|] eqn:Ej; [|discriminate].
    assert (NB : forall o, c <> CBusy o) by (intros o ->; discriminate).
    assert (Done (upd (upd cs1 i c) j CEmpty) r0 = Done cs' r) as E by (destruct c; congruence).
    injection E as <- <-. split; [now rewrite !upd_length|]. intros x o.
    destruct (Nat.eq_dec j x) as [<-|Nj].
    + rewrite (nupd_eq _ j _ c) by (now rewrite nupd_ne). rewrite Ej.
      split; intros E; injection E as E; [discriminate|now elim (NB o)].
    + rewrite nupd_ne by auto. destruct (Nat.eq_dec i x) as [<-|Ni].
      * rewrite (nupd_eq _ _ _ _ Hi), Hi. split; intros E; injection E as E; [now elim (NB o)|discriminate].
      * now rewrite nupd_ne.
Qed.
End Kept.
Lemma exec_kept n : forall a, kept (sexec n a).
Proof.
  induction n as [|n IH]; intros a; [intros cs cs' r HS; discriminate|].
  pose proof (seq_kept _ IH) as HB. destruct a as [i|i|i|i o|i j]; simpl.
  - intros cs cs' r HS. destruct (nth_error cs i); [|discriminate]. injection HS as <- <-. apply sb_refl.
  - intros cs cs' r HS. destruct (nth_error cs i); [|discriminate]. injection HS as <- <-. apply sb_refl.
  - now apply sreset_kept.
  - now apply semplace_kept.
  - now apply smove_kept.
Qed.

Lemma exec_free k n : forall lo a, layered k lo a -> free k lo (sexec n a).
Proof.
  induction n as [|n IH]; intros lo a Ha; [intros cs _; split; discriminate|].
  assert (HB : forall lo l, Forall (layered k lo) l -> free k lo (sseq (sexec n) l)).
  { intros lo' l. apply seq_free. intros b. apply IH. }
  assert (HK : forall l cs cs' r, sseq (sexec n) l cs = Done cs' r ->
    forall i o, nth_error cs' i = Some (CBusy o) -> nth_error cs i = Some (CBusy o)).
  { intros l cs cs' r HS i o. apply (seq_kept _ (exec_kept n) l _ _ _ HS). }
  destruct a as [i|i|i|i o|i j]; simpl sexec.
  - intros cs L. pose proof L as (L1 & _). simpl in Ha. destruct (nth_error cs i) eqn:E.
    + split; [discriminate|]. intros cs' r H. injection H as <- <-. exact L.
    + apply nth_error_None in E. lia.
  - intros cs L. pose proof L as (L1 & _). simpl in Ha. destruct (nth_error cs i) eqn:E.
    + split; [discriminate|]. intros cs' r H. injection H as <- <-. exact L.
    + apply nth_error_None in E. lia.
  - now apply sreset_free.
  - now apply semplace_free.
  - now apply smove_free.
Qed.

Lemma lay_init k : lay k 0 (repeat CEmpty k).
Proof.
  split; [apply repeat_length|]. split; intros i o H; apply nth_error_In, repeat_spec in H; discriminate.
Qed.

(** * More depth changes nothing *)
Definition mono (f g : list cell -> out) : Prop := forall cs, f cs <> More -> g cs = f cs.
Lemma seq_mono f g : (forall a, mono (f a) (g a)) -> forall l, mono (sseq f l) (sseq g l).
Proof.
  intros H. induction l as [|a l IH]; intros cs; simpl; [reflexivity|].
  destruct (f a cs) as [cs1 r1| |] eqn:E1; simpl; intros N; [| |congruence].
  - rewrite (H a cs) by congruence. rewrite E1. simpl.
    destruct (sseq f l cs1) as [cs2 r2| |] eqn:E2; simpl in N; [| |congruence];
      rewrite (IH cs1) by congruence; now rewrite E2.
  - rewrite (H a cs) by congruence. now rewrite E1.
Qed.
Section Mono.
Variables f g : list act -> list cell -> out.
Hypothesis Hfg : forall l, mono (f l) (g l).
Lemma then_mono x y h h' : (x <> More -> y = x) -> (forall r, mono (fun c => h c r) (fun c => h' c r)) ->
  then_ x h <> More -> then_ y h' = then_ x h.
Proof.
  intros H1 H2 N. destruct x as [cs r| |]; simpl in *; [| |congruence].
  - rewrite H1 by discriminate. simpl. now apply (H2 r).
  - now rewrite H1.
Qed.
Lemma sreset_mono i : mono (sreset f i) (sreset g i).
Proof.
  intros cs. unfold sreset. destruct (nth_error cs i) as [[|o|o]|]; try reflexivity.
  apply then_mono; [apply Hfg|]. intros r c _. reflexivity.
Qed.
Lemma semplace_mono i o : mono (semplace f i o) (semplace g i o).
Proof.
  intros cs. unfold semplace. apply then_mono; [apply sreset_mono|]. intros r c. apply then_mono; [apply Hfg|].
  intros r' c' _. reflexivity.
Qed.
Lemma smove_mono i j : mono (smove f i j) (smove g i j).
Proof.
  intros cs. unfold smove. destruct (i =? j); [reflexivity|].
  apply then_mono; [apply sreset_mono|]. intros r c _. reflexivity.
Qed.
End Mono.
Lemma exec_mono1 n : forall a, mono (sexec n a) (sexec (S n) a).
Proof.
  induction n as [|n IH]; intros a cs N; [elim N; reflexivity|].
  pose proof (seq_mono _ _ IH) as HB.
  destruct a as [i|i|i|i o|i j]; try reflexivity.
  - exact (sreset_mono _ _ HB i cs N).
  - exact (semplace_mono _ _ HB i o cs N).
  - exact (smove_mono _ _ HB i j cs N).
Qed.
Lemma exec_mono n m : n <= m -> forall a, mono (sexec n a) (sexec m a).
Proof.
  induction 1 as [|m L IH]; intros a cs N; [reflexivity|].
  rewrite (exec_mono1 m a cs); [now apply IH|]. now rewrite IH.
Qed.
