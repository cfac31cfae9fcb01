(** Proofs about generators in generators: the frames on the heap are those of a tree of values. *)
From Coq Require Import List Arith Bool Lia Permutation.
From Verif Require Import Base GenNestModel GenNestSpec.
Import ListNotations.

Section Proofs.
Context {St V E : Type}.
Variable run : St -> act St V E.
Variable moved : V -> V.
Notation gen := (gen St V).
Notation store := (store St V E).
Notation frame := (frame St V E).
Notation run_body := (run_body run moved).
Notation resume := (resume run moved).
Notation do_op := (do_op moved).
Notation goes := (goes run moved).
Notation does := (does run moved).

Definition place_of (b : option St) : place St :=
  match b with Some st => Suspended st | None => Over end.

(** The generators [gs] are the handles [hs] on the heap [F], and [fs] are all the frames they have. *)
Inductive rep (F : nat -> option frame) : gen -> nat -> list nat -> Prop :=
| rep_g h b v ex gs hs fs :
    F h = Some (mkFrame (place_of b) hs v ex) -> (b <> None -> ex = None) ->
    reps F gs hs fs -> rep F (G b v gs) h (h :: fs)
with repo (F : nat -> option frame) : option gen -> option nat -> list nat -> Prop :=
| repo_none : repo F None None []
| repo_some g h fs : rep F g h fs -> repo F (Some g) (Some h) fs
with reps (F : nat -> option frame) : list (option gen) -> list (option nat) -> list nat -> Prop :=
| reps_nil : reps F [] [] []
| reps_cons o h gs hs f1 f2 : repo F o h f1 -> reps F gs hs f2 -> reps F (o :: gs) (h :: hs) (f1 ++ f2).

Scheme rep_mut := Induction for rep Sort Prop
with repo_mut := Induction for repo Sort Prop
with reps_mut := Induction for reps Sort Prop.
Combined Scheme rep_all from rep_mut, repo_mut, reps_mut.

Lemma rep_frame F F' :
  (forall g h fs, rep F g h fs -> (forall x, In x fs -> F' x = F x) -> rep F' g h fs) /\
  (forall g h fs, repo F g h fs -> (forall x, In x fs -> F' x = F x) -> repo F' g h fs) /\
  (forall g h fs, reps F g h fs -> (forall x, In x fs -> F' x = F x) -> reps F' g h fs).
Proof.
  apply rep_all; intros.
  - econstructor; [ rewrite H0; [ eassumption | now left ] | assumption |].
    apply H. intros x I. apply H0. now right.
  - constructor.
  - constructor. auto.
  - constructor.
  - constructor; [ apply H | apply H0 ]; intros x I; apply H1; apply in_or_app; auto.
Qed.
Lemma reps_frame F F' gs hs fs : reps F gs hs fs -> (forall x, In x fs -> F' x = F x) -> reps F' gs hs fs.
Proof. apply (proj2 (proj2 (rep_frame F F'))). Qed.
Lemma repo_frame F F' gs hs fs : repo F gs hs fs -> (forall x, In x fs -> F' x = F x) -> repo F' gs hs fs.
Proof. apply (proj1 (proj2 (rep_frame F F'))). Qed.

Lemma reps_app F gs hs fs gs' hs' fs' :
  reps F gs hs fs -> reps F gs' hs' fs' -> reps F (gs ++ gs') (hs ++ hs') (fs ++ fs').
Proof.
  induction 1 as [|o h gs hs f1 f2 O R IH]; intros R'; [ exact R' |].
  cbn. rewrite <- app_assoc. constructor; auto.
Qed.
Lemma reps_one F o h fs : repo F o h fs -> reps F [o] [h] fs.
Proof. intros R. rewrite <- (app_nil_r fs). constructor; [ exact R | constructor ]. Qed.
Lemma reps_snoc F gs o hs fs :
  reps F (gs ++ [o]) hs fs ->
  exists hs' h f1 f2, hs = hs' ++ [h] /\ fs = f1 ++ f2 /\ reps F gs hs' f1 /\ repo F o h f2.
Proof.
  revert hs fs. induction gs as [|g gs IH]; cbn; intros hs fs R; inversion R; subst.
  - inversion H4; subst. exists [], h, [], f1. rewrite app_nil_r. repeat split; [ constructor | assumption ].
  - destruct (IH _ _ H4) as (hs' & h' & fa & fb & -> & -> & Ra & Rb).
    exists (h :: hs'), h', (f1 ++ fa), fb. rewrite app_assoc.
    repeat split; [ now constructor | assumption ].
Qed.

(** One of several generators. *)
Lemma reps_focus F gs hs fs i o :
  reps F gs hs fs -> nth_error gs i = Some o ->
  exists ho fa fi fb,
    fs = fa ++ fi ++ fb /\ nth_error hs i = Some ho /\ repo F o ho fi /\
    forall F' o' ho' fi', (forall x, In x (fa ++ fb) -> F' x = F x) -> repo F' o' ho' fi' ->
      reps F' (upd gs i o') (upd hs i ho') (fa ++ fi' ++ fb).
Proof.
  intros R. revert i. induction R as [|o1 h gs hs f1 f2 O R IH]; intros i N.
  - destruct i; discriminate.
  - destruct i as [|i]; cbn in N.
    + injection N as ->. exists h, [], f1, f2. repeat split; [ assumption |].
      intros F' o' ho' fi' EQ R'. cbn. constructor; [ exact R' |]. eapply reps_frame; [ exact R | exact EQ ].
    + destruct (IH _ N) as (ho & fa & fi & fb & -> & Nh & Ri & K).
      exists ho, (f1 ++ fa), fi, fb. rewrite <- !app_assoc. repeat split; [ exact Nh | exact Ri |].
      intros F' o' ho' fi' EQ R'. cbn. rewrite <- ?app_assoc in *. constructor.
      * eapply repo_frame; [ exact O |]. intros x I. apply EQ. apply in_or_app. now left.
      * apply K; [| exact R' ]. intros x I. apply EQ. apply in_or_app. now right.
Qed.

(** *** The heap around *)
Definition good (s : store) (fs : list nat) : Prop :=
  NoDup fs /\ (forall x, In x fs -> x < fresh s) /\ (forall x, fresh s <= x -> frames s x = None).
(** [s'] is [s] but for the frames [fs], which became [fs']. *)
Definition shift (s : store) (fs : list nat) (s' : store) (fs' : list nat) : Prop :=
  fresh s <= fresh s' /\
  (forall x, In x fs' -> In x fs \/ fresh s <= x) /\
  (forall x, ~ In x fs -> x < fresh s -> frames s' x = frames s x) /\
  (forall x, In x fs \/ fresh s <= x -> ~ In x fs' -> frames s' x = None).

Lemma shift_trans s fs s1 fs1 s2 fs2 :
  shift s fs s1 fs1 -> shift s1 fs1 s2 fs2 -> shift s fs s2 fs2.
Proof.
  intros (A1 & A2 & A3 & A4) (B1 & B2 & B3 & B4). repeat split.
  - lia.
  - intros x I. destruct (B2 x I) as [J|J]; [ auto | right; lia ].
  - intros x I L. rewrite B3; [ auto | | lia ]. intros J. destruct (A2 x J); [ tauto | lia ].
  - intros x I J. destruct (in_dec Nat.eq_dec x fs1) as [K|K].
    + apply B4; auto.
    + destruct (le_lt_dec (fresh s1) x) as [L|L]; [ apply B4; auto |].
      rewrite B3; auto.
Qed.
Lemma shift_same s fs : good s fs -> shift s fs s fs.
Proof. intros (G1 & G2 & G3). repeat split; auto. intros x [I|I] J; [ tauto | auto ]. Qed.
Lemma shift_more s fs s' fs' fo :
  (forall x, In x fo -> x < fresh s) -> (forall x, In x fs -> ~ In x fo) ->
  shift s fs s' fs' -> shift s (fo ++ fs) s' (fo ++ fs').
Proof.
  intros B D (A1 & A2 & A3 & A4). repeat split; [ exact A1 | | |].
  - intros x I. apply in_app_or in I. destruct I as [I|I]; [ left; apply in_or_app; auto |].
    destruct (A2 x I); [ left; apply in_or_app; auto | auto ].
  - intros x I L. apply A3; [| exact L ]. intros J. apply I. apply in_or_app. auto.
  - intros x I J. apply A4; [| intros K; apply J; apply in_or_app; auto ].
    destruct I as [I|I]; [| auto ]. apply in_app_or in I. destruct I as [I|I]; [| auto ].
    exfalso. apply J. apply in_or_app. auto.
Qed.
Lemma shift_ext s fs s' fs' gs gs' :
  (forall x, In x fs <-> In x gs) -> (forall x, In x fs' <-> In x gs') ->
  shift s fs s' fs' -> shift s gs s' gs'.
Proof.
  intros E1 E2 (A1 & A2 & A3 & A4). repeat split; [ exact A1 | | |].
  - intros x I. apply E2 in I. destruct (A2 x I) as [J|J]; [ left; now apply E1 | auto ].
  - intros x I L. apply A3; [| exact L ]. intros J. apply I. now apply E1.
  - intros x I J. apply A4; [ destruct I as [I|I]; [ left; now apply E1 | auto ] |].
    intros K. apply J. now apply E2.
Qed.

(** *** Destroying *)
Lemma destroy_S n h (s : store) :
  destroy (S n) h s =
  (let* f := get_frame h in
   match at_ f with
   | Running => ub
   | _ => destroy_all n (locals f) ;;; drop_frame h
   end) s.
Proof.
  assert (Q : forall l (t : store),
    (fix each (l : list (option nat)) : M store unit :=
       match l with
       | [] => ret tt
       | o :: l' => each l' ;;; match o with Some h' => destroy n h' | None => ret tt end
       end) l t = destroy_all n l t).
  { induction l as [|o l IH]; intros t; [ reflexivity |].
    cbn [destroy_all]. unfold bind at 1 2. rewrite IH. reflexivity. }
  cbn [destroy]. unfold bind, get_frame. destruct (frames s h) as [f|]; [| reflexivity ].
  destruct (at_ f); [| reflexivity |]; unfold bind in Q; rewrite Q; reflexivity.
Qed.

Definition cleared (s : store) (fs : list nat) (s' : store) : Prop :=
  fresh s' = fresh s /\ (forall x, In x fs -> frames s' x = None) /\
  (forall x, ~ In x fs -> frames s' x = frames s x).

Lemma nodup_app {A} (l l' : list A) :
  NoDup (l ++ l') -> NoDup l /\ NoDup l' /\ (forall x, In x l -> In x l' -> False).
Proof.
  induction l as [|a l IH]; cbn; intros N; [ repeat split; [ constructor | exact N | auto ] |].
  inversion N; subst. destruct (IH H2) as (N1 & N2 & D). repeat split; [| exact N2 |].
  - constructor; [| exact N1 ]. intros I. apply H1. apply in_or_app. auto.
  - intros x [<-|I] J; [ apply H1; apply in_or_app; auto | eapply D; eassumption ].
Qed.

Lemma destroy_ok F :
  (forall g h fs, rep F g h fs -> NoDup fs -> forall s : store, (forall x, In x fs -> frames s x = F x) ->
     exists N s', (forall n, N <= n -> destroy n h s = Ok tt s') /\ cleared s fs s') /\
  (forall g h fs, repo F g h fs -> NoDup fs -> forall s : store, (forall x, In x fs -> frames s x = F x) ->
     exists N s', (forall n, N <= n -> destroy_handle n h s = Ok tt s') /\ cleared s fs s') /\
  (forall g h fs, reps F g h fs -> NoDup fs -> forall s : store, (forall x, In x fs -> frames s x = F x) ->
     exists N s', (forall n, N <= n -> destroy_all n h s = Ok tt s') /\ cleared s fs s').
Proof.
  apply rep_all.
  - intros h b v ex gs hs fs FH EX R IH ND s EQ. inversion ND; subst.
    destruct (IH H2 s) as (N & s1 & D & C1 & C2 & C3); [ intros x I; apply EQ; now right |].
    exists (S N), (mkStore (setm (frames s1) h None) (fresh s1)). split.
    + intros n L. destruct n as [|n]; [ lia |]. rewrite destroy_S.
      unfold bind at 1, get_frame. rewrite (EQ h (or_introl eq_refl)), FH. cbn [at_ locals].
      destruct b; cbn [place_of]; rewrite (bind_ok _ _ _ _ _ (D n ltac:(lia))); reflexivity.
    + repeat split; cbn; [ exact C1 | |].
      * intros x [<-|I]; [ apply setm_eq |]. destruct (Nat.eq_dec x h) as [->|NE]; [ apply setm_eq |].
        rewrite setm_neq by exact NE. auto.
      * intros x I. rewrite setm_neq by (intros ->; apply I; now left). apply C3. intros J. apply I. now right.
  - intros _ s _. exists 0, s. repeat split; auto. intros x [].
  - intros g h fs R IH ND s EQ. exact (IH ND s EQ).
  - intros _ s _. exists 0, s. repeat split; auto. intros x [].
  - intros o h gs hs f1 f2 O IHO R IHR ND s EQ. destruct (nodup_app _ _ ND) as (N1 & N2 & DJ).
    destruct (IHR N2 s) as (Na & s1 & D1 & A1 & A2 & A3); [ intros x I; apply EQ; apply in_or_app; auto |].
    destruct (IHO N1 s1) as (Nb & s2 & D2 & B1 & B2 & B3).
    { intros x I. rewrite A3 by (intros J; eapply DJ; eassumption). apply EQ. apply in_or_app. auto. }
    exists (max Na Nb), s2. split.
    + intros n L. cbn [destroy_all]. rewrite (bind_ok _ _ _ _ _ (D1 n ltac:(lia))). apply D2. lia.
    + repeat split; [ congruence | |].
      * intros x I. destruct (in_dec Nat.eq_dec x f1) as [J|J]; [ auto |].
        rewrite B3 by exact J. apply A2. apply in_app_or in I. tauto.
      * intros x I. rewrite B3 by (intros J; apply I; apply in_or_app; auto).
        apply A3. intros J. apply I. apply in_or_app. auto.
Qed.
Lemma destroy_handle_ok (s : store) g h fs :
  repo (frames s) g h fs -> NoDup fs ->
  exists N s', (forall n, N <= n -> destroy_handle n h s = Ok tt s') /\ cleared s fs s'.
Proof. intros R ND. eapply (proj1 (proj2 (destroy_ok (frames s)))); eauto. Qed.
Lemma destroy_all_ok (s : store) g h fs :
  reps (frames s) g h fs -> NoDup fs ->
  exists N s', (forall n, N <= n -> destroy_all n h s = Ok tt s') /\ cleared s fs s'.
Proof. intros R ND. eapply (proj2 (proj2 (destroy_ok (frames s)))); eauto. Qed.

Lemma cleared_good s fs s' fs' :
  good s fs -> cleared s fs' s' -> forall rest, NoDup rest -> (forall x, In x rest -> In x fs) -> good s' rest.
Proof.
  intros (G1 & G2 & G3) (C1 & C2 & C3) rest ND I. repeat split; [ exact ND | |].
  - intros x J. rewrite C1. auto.
  - intros x L. rewrite C1 in L. destruct (in_dec Nat.eq_dec x fs') as [J|J]; [ auto |].
    rewrite C3 by exact J. auto.
Qed.
(** Some of the frames go. *)
Lemma cleared_shift s fs s' gone rest :
  good s fs -> cleared s gone s' ->
  (forall x, In x fs <-> In x gone \/ In x rest) -> (forall x, In x gone -> ~ In x rest) ->
  shift s fs s' rest.
Proof.
  intros (G1 & G2 & G3) (C1 & C2 & C3) EQ DJ. repeat split.
  - lia.
  - intros x I. left. apply EQ. auto.
  - intros x I L. apply C3. intros J. apply I. apply EQ. auto.
  - intros x I J. destruct (in_dec Nat.eq_dec x gone) as [K|K]; [ auto |].
    rewrite C3 by exact K. destruct I as [I|I]; [| auto ]. apply EQ in I. tauto.
Qed.

(** *** Running *)
Definition P_goes (st : St) (gs : list (option gen)) (r : stop St V E) : Prop :=
  forall (s : store) h hs fs,
    frames s h = Some (mkFrame Running hs None None) -> reps (frames s) gs hs fs -> good s (h :: fs) ->
    exists N s' fs',
      (forall n, N <= n -> run_body n h st s = Ok tt s') /\
      good s' (h :: fs') /\ shift s (h :: fs) s' (h :: fs') /\
      match r with
      | Gave v st' gs' =>
          exists hs', frames s' h = Some (mkFrame (Suspended st') hs' (Some v) None) /\ reps (frames s') gs' hs' fs'
      | Ended => frames s' h = Some (mkFrame Over [] None None) /\ fs' = []
      | Failed e => frames s' h = Some (mkFrame Over [] None (Some e)) /\ fs' = []
      end.
Definition P_does (gs : list (option gen)) (o : gop St) (gs' : list (option gen)) (x : gout V E) : Prop :=
  forall (s : store) hs fs,
    reps (frames s) gs hs fs -> good s fs ->
    exists N s' hs' fs',
      (forall n, N <= n -> do_op n (resume n) hs o s = Ok (hs', x) s') /\
      good s' fs' /\ shift s fs s' fs' /\ reps (frames s') gs' hs' fs'.

Lemma good_put s h f fs : In h fs -> good s fs -> good (mkStore (setm (frames s) h (Some f)) (fresh s)) fs.
Proof.
  intros I (G1 & G2 & G3). repeat split; cbn; auto. intros x L. rewrite setm_neq; [ auto |].
  intros ->. specialize (G2 h I). lia.
Qed.
Lemma shift_put s h f fs :
  In h fs -> good s fs -> shift s fs (mkStore (setm (frames s) h (Some f)) (fresh s)) fs.
Proof.
  intros I (G1 & G2 & G3). repeat split; cbn; auto.
  - intros x J L. rewrite setm_neq; [ auto |]. intros ->. tauto.
  - intros x J K. rewrite setm_neq by (intros ->; tauto). destruct J as [J|J]; [ tauto | auto ].
Qed.
Lemma reps_put (s : store) h f gs hs fs :
  ~ In h fs -> reps (frames s) gs hs fs -> reps (setm (frames s) h (Some f)) gs hs fs.
Proof. intros I R. eapply reps_frame; [ exact R |]. intros x J. apply setm_neq. intros ->. tauto. Qed.

Lemma good_nin s h fs : good s (h :: fs) -> ~ In h fs.
Proof. intros (G1 & _ & _). now inversion G1. Qed.

Lemma run_body_S n h st (s : store) :
  run_body (S n) h st s =
  match run st with
  | Yields v st' =>
      let* f := get_frame h in
      put_frame h (mkFrame (Suspended st') (locals f) (Some v) (m_exception f))
  | Returns =>
      let* f := get_frame h in
      destroy_all n (locals f) ;;;
      put_frame h (mkFrame Over [] (m_val f) (m_exception f))
  | Throws e =>
      let* f := get_frame h in
      destroy_all n (locals f) ;;;
      put_frame h (mkFrame Over [] (m_val f) (Some e))
  | Does o k =>
      let* f := get_frame h in
      let* r := do_op n (resume n) (locals f) o in
      let* f := get_frame h in
      put_frame h (mkFrame (at_ f) (fst r) (m_val f) (m_exception f)) ;;;
      run_body n h (k (snd r))
  end s.
Proof. reflexivity. Qed.

Lemma get_bind {B} h f (k : frame -> M store B) (s : store) :
  frames s h = Some f -> bind (get_frame h) k s = k f s.
Proof. intros H. unfold bind, get_frame. now rewrite H. Qed.

Lemma goes_yield_ok st gs v st' : run st = Yields v st' -> P_goes st gs (Gave v st' gs).
Proof.
  intros RN s h hs fs FH R GD.
  exists 1, (mkStore (setm (frames s) h (Some (mkFrame (Suspended st') hs (Some v) None))) (fresh s)), fs.
  split; [| split; [| split ]].
  - intros n L. destruct n as [|n]; [ lia |]. rewrite run_body_S, RN, (get_bind _ _ _ _ FH). reflexivity.
  - apply good_put; [ now left | exact GD ].
  - apply shift_put; [ now left | exact GD ].
  - exists hs. cbn. rewrite setm_eq. split; [ reflexivity |].
    apply reps_put; [ eapply good_nin; exact GD | exact R ].
Qed.

(** The end of a body *)
Lemma finish_ok gs (s : store) h hs fs f :
  frames s h = Some (mkFrame Running hs None None) -> reps (frames s) gs hs fs -> good s (h :: fs) ->
  exists N s',
    (forall n, N <= n -> (destroy_all n hs ;;; put_frame h f) s = Ok tt s') /\
    good s' [h] /\ shift s (h :: fs) s' [h] /\ frames s' h = Some f.
Proof.
  intros FH R GD. pose proof (good_nin _ _ _ GD) as NI.
  assert (NF : NoDup fs) by (destruct GD as (G1 & _ & _); now inversion G1).
  destruct (destroy_all_ok s gs hs fs R NF) as (N & s1 & D & C).
  exists N, (mkStore (setm (frames s1) h (Some f)) (fresh s1)).
  assert (G1 : good s1 [h]).
  { eapply cleared_good; [ exact GD | exact C | repeat constructor; auto |].
    intros x [<-|[]]. now left. }
  split; [| split; [| split ]].
  - intros n L. rewrite (bind_ok _ _ _ _ _ (D n L)). reflexivity.
  - apply good_put; [ now left | exact G1 ].
  - apply (shift_trans _ _ s1 [h]).
    + eapply cleared_shift; [ exact GD | exact C | |].
      * intros x. cbn. tauto.
      * intros x I [<-|[]]. tauto.
    + apply shift_put; [ now left | exact G1 ].
  - cbn. apply setm_eq.
Qed.

Lemma goes_return_ok st gs : run st = Returns -> P_goes st gs Ended.
Proof.
  intros RN s h hs fs FH R GD.
  destruct (finish_ok gs s h hs fs (mkFrame Over [] None None) FH R GD) as (N & s' & D & G' & SH & F').
  exists (S N), s', []. split; [| split; [ exact G' | split; [ exact SH | split; [ exact F' | reflexivity ]]]].
  intros n L. destruct n as [|n]; [ lia |]. rewrite run_body_S, RN, (get_bind _ _ _ _ FH). apply D. lia.
Qed.
Lemma goes_throw_ok st gs e : run st = Throws e -> P_goes st gs (Failed e).
Proof.
  intros RN s h hs fs FH R GD.
  destruct (finish_ok gs s h hs fs (mkFrame Over [] None (Some e)) FH R GD) as (N & s' & D & G' & SH & F').
  exists (S N), s', []. split; [| split; [ exact G' | split; [ exact SH | split; [ exact F' | reflexivity ]]]].
  intros n L. destruct n as [|n]; [ lia |]. rewrite run_body_S, RN, (get_bind _ _ _ _ FH). apply D. lia.
Qed.

Lemma goes_on_ok st gs o k gs' x r :
  run st = Does o k -> P_does gs o gs' x -> P_goes (k x) gs' r -> P_goes st gs r.
Proof.
  intros RN PD PG s h hs fs FH R GD. pose proof (good_nin _ _ _ GD) as NI.
  assert (GF : good s fs).
  { destruct GD as (G1 & G2 & G3). inversion G1; subst. repeat split; auto. intros y I. apply G2. now right. }
  destruct (PD s hs fs R GF) as (N1 & s1 & hs1 & fs1 & D1 & G1 & SH1 & R1).
  pose proof SH1 as (A1 & A2 & A3 & A4).
  assert (HL : h < fresh s) by (destruct GD as (_ & G & _); apply G; now left).
  assert (FH1 : frames s1 h = Some (mkFrame Running hs None None)) by (rewrite A3; auto).
  assert (NI1 : ~ In h fs1) by (intros I; destruct (A2 h I); [ tauto | lia ]).
  set (s2 := mkStore (setm (frames s1) h (Some (mkFrame Running hs1 None None))) (fresh s1)).
  assert (GH1 : good s1 (h :: fs1)).
  { destruct G1 as (B1 & B2 & B3). repeat split; [ now constructor | | exact B3 ].
    intros y [<-|I]; [ lia | auto ]. }
  assert (SHH : shift s (h :: fs) s1 (h :: fs1)).
  { apply (shift_more s fs s1 fs1 [h]); [ intros y [<-|[]]; exact HL | | exact SH1 ].
    intros y I [<-|[]]. tauto. }
  assert (FH2 : frames s2 h = Some (mkFrame Running hs1 None None)) by (cbn; apply setm_eq).
  assert (R2 : reps (frames s2) gs' hs1 fs1) by (apply reps_put; assumption).
  assert (G2 : good s2 (h :: fs1)) by (apply good_put; [ now left | exact GH1 ]).
  destruct (PG s2 h hs1 fs1 FH2 R2 G2) as (N2 & s3 & fs3 & D3 & G3 & SH3 & K).
  exists (S (max N1 N2)), s3, fs3. split; [| split; [ exact G3 | split; [| exact K ]]].
  - intros n L. destruct n as [|n]; [ lia |]. rewrite run_body_S, RN, (get_bind _ _ _ _ FH).
    cbn [locals]. rewrite (bind_ok _ _ _ _ _ (D1 n ltac:(lia))), (get_bind _ _ _ _ FH1). cbn [fst snd at_ m_val m_exception].
    unfold bind, put_frame. apply D3. lia.
  - eapply shift_trans; [ exact SHH |]. eapply shift_trans; [| exact SH3 ].
    apply shift_put; [ now left | exact GH1 ].
Qed.

(** Resuming a suspended generator *)
Lemma safe_resume_ok st gs r : P_goes st gs r ->
  forall (s : store) h v ex hs fs,
    frames s h = Some (mkFrame (Suspended st) hs v ex) -> ex = None ->
    reps (frames s) gs hs fs -> good s (h :: fs) ->
    exists N s' fs',
      (forall n, N <= n -> safe_resume (resume n) h s = Ok (match r with Failed e => Some e | _ => None end) s') /\
      good s' (h :: fs') /\ shift s (h :: fs) s' (h :: fs') /\
      match r with
      | Gave v st' gs' =>
          exists hs', frames s' h = Some (mkFrame (Suspended st') hs' (Some v) None) /\ reps (frames s') gs' hs' fs'
      | Ended => frames s' h = Some (mkFrame Over [] None None) /\ fs' = []
      | Failed e => frames s' h = Some (mkFrame Over [] None (Some e)) /\ fs' = []
      end.
Proof.
  intros PG s h v ex hs fs FH -> R GD. pose proof (good_nin _ _ _ GD) as NI.
  set (s1 := mkStore (setm (frames s) h (Some (mkFrame (Suspended st) hs None None))) (fresh s)).
  set (s2 := mkStore (setm (frames s1) h (Some (mkFrame Running hs None None))) (fresh s1)).
  assert (IH : In h (h :: fs)) by now left.
  assert (G1 : good s1 (h :: fs)) by (apply good_put; assumption).
  assert (G2 : good s2 (h :: fs)) by (apply good_put; assumption).
  destruct (PG s2 h hs fs) as (N & s3 & fs3 & D & G3 & SH & K).
  { cbn. apply setm_eq. }
  { apply reps_put; [ exact NI |]. apply reps_put; assumption. }
  { exact G2. }
  exists N, s3, fs3. split; [| split; [ exact G3 | split; [| exact K ]]].
  - intros n L. unfold safe_resume. rewrite (get_bind _ _ _ _ FH). cbn [at_ locals m_exception].
    unfold bind at 1, put_frame. fold s1.
    assert (RS : resume n h s1 = Ok tt s3).
    { unfold GenNestModel.resume. rewrite (get_bind h (mkFrame (Suspended st) hs None None)) by (cbn; apply setm_eq).
      cbn [at_ locals m_val m_exception]. unfold bind, put_frame. fold s2. now apply D. }
    rewrite (bind_ok _ _ _ _ _ RS).
    destruct r as [v' st' gs'| |e].
    + destruct K as (hs' & F3 & _). rewrite (get_bind _ _ _ _ F3). reflexivity.
    + destruct K as (F3 & _). rewrite (get_bind _ _ _ _ F3). reflexivity.
    + destruct K as (F3 & _). rewrite (get_bind _ _ _ _ F3). reflexivity.
  - eapply shift_trans; [| exact SH ]. eapply shift_trans; [| apply shift_put; assumption ].
    apply shift_put; assumption.
Qed.

(** A call on one of the generators *)
Lemma nodup_mid {A} (a b c : list A) : NoDup (a ++ b ++ c) <-> NoDup (b ++ a ++ c).
Proof.
  split; apply Permutation_NoDup; rewrite !app_assoc; apply Permutation_app_tail, Permutation_app_comm.
Qed.
Lemma in_mid {A} (a b c : list A) x : In x (a ++ b ++ c) <-> In x ((a ++ c) ++ b).
Proof. rewrite !in_app_iff. tauto. Qed.
Lemma good_mid s fa fi fb : good s (fa ++ fi ++ fb) -> good s fi.
Proof.
  intros (G1 & G2 & G3). apply nodup_mid in G1. destruct (nodup_app _ _ G1) as (N1 & _ & _).
  repeat split; auto. intros x I. apply G2. rewrite !in_app_iff. auto.
Qed.
Lemma mid_apart s fa fi fb x : good s (fa ++ fi ++ fb) -> In x fi -> ~ In x (fa ++ fb).
Proof.
  intros (G1 & _ & _) I J. apply nodup_mid in G1. destruct (nodup_app _ _ G1) as (_ & _ & D). eauto.
Qed.

Lemma focus_step s s' fa fi fb fi' :
  good s (fa ++ fi ++ fb) -> good s' fi' -> shift s fi s' fi' ->
  good s' (fa ++ fi' ++ fb) /\ shift s (fa ++ fi ++ fb) s' (fa ++ fi' ++ fb) /\
  (forall x, In x (fa ++ fb) -> frames s' x = frames s x).
Proof.
  intros GD G' SH. pose proof SH as (A1 & A2 & A3 & A4).
  assert (AP : forall x, In x fi -> ~ In x (fa ++ fb)) by (intros x; eapply mid_apart; exact GD).
  assert (BD : forall x, In x (fa ++ fb) -> x < fresh s).
  { destruct GD as (_ & G2 & _). intros x I. apply G2. rewrite !in_app_iff in *. tauto. }
  split; [| split ].
  - destruct G' as (B1 & B2 & B3). destruct GD as (G1 & G2 & G3). repeat split; [| | exact B3 ].
    + apply nodup_mid. apply nodup_mid in G1. destruct (nodup_app _ _ G1) as (_ & N2 & _).
      revert B1 N2. assert (D : forall x, In x fi' -> ~ In x (fa ++ fb)).
      { intros x I J. destruct (A2 x I) as [K|K]; [ exact (AP x K J) | specialize (BD x J); lia ]. }
      clear - D. induction fi' as [|y l IH]; cbn; intros B1 N2; [ exact N2 |].
      inversion B1; subst. constructor.
      * rewrite in_app_iff. intros [I|I]; [ tauto | exact (D y (or_introl eq_refl) I) ].
      * apply IH; auto. intros x I. apply D. now right.
    + intros x I. apply in_mid in I. apply in_app_or in I. destruct I as [I|I]; [ specialize (BD x I); lia | auto ].
  - apply (shift_ext s ((fa ++ fb) ++ fi) s' ((fa ++ fb) ++ fi')).
    + intros x. symmetry. apply in_mid.
    + intros x. symmetry. apply in_mid.
    + apply shift_more; assumption.
  - intros x I. apply A3; [ intros J; exact (AP x J I) | auto ].
Qed.

Lemma handle_ok l i h (s : store) : nth_error l i = Some (Some h) -> handle l i s = Ok h s.
Proof. intros N. unfold handle, the, bind. now rewrite N. Qed.
Lemma the_ok l i o (s : store) : nth_error l i = Some o -> the l i s = Ok o s.
Proof. intros N. unfold the. now rewrite N. Qed.

Lemma does_resumes_ok gs i st v gs0 (fin : gen) (x : gout V E)
    (call : (nat -> M store unit) -> nat -> M store (gout V E)) (o : gop St) :
  nth_error gs i = Some (Some (G (Some st) v gs0)) ->
  (forall (s : store) h hs fs ex, frames s h = Some (mkFrame (Suspended st) hs v ex) -> ex = None ->
     reps (frames s) gs0 hs fs -> good s (h :: fs) ->
     exists N s' fs', (forall n, N <= n -> call (resume n) h s = Ok x s') /\ good s' (h :: fs') /\
       shift s (h :: fs) s' (h :: fs') /\ rep (frames s') fin h (h :: fs')) ->
  (forall n hs s, do_op n (resume n) hs o s = (let* h := handle hs i in let* x := call (resume n) h in ret (hs, x)) s) ->
  P_does gs o (upd gs i (Some fin)) x.
Proof.
  intros N0 CK EQ s hs fs R GD.
  destruct (reps_focus _ _ _ _ _ _ R N0) as (ho & fa & fi & fb & -> & Nh & Ri & K).
  inversion Ri as [|g h fsi Rg]; subst. inversion Rg; subst.
  destruct (CK s h hs0 fs ex) as (N & s' & fs' & D & G' & SH & Rf); auto.
  { apply H5. discriminate. }
  { eapply good_mid. exact GD. }
  destruct (focus_step _ _ _ _ _ _ GD G' SH) as (G2 & SH2 & FR).
  exists N, s', hs, (fa ++ (h :: fs') ++ fb). split; [| split; [ exact G2 | split; [ exact SH2 |]]].
  - intros n L. rewrite EQ. rewrite (bind_ok _ _ _ _ _ (handle_ok _ _ _ _ Nh)), (bind_ok _ _ _ _ _ (D n L)). reflexivity.
  - rewrite <- (upd_nth_id hs i (Some h)) by exact Nh. apply K; [ exact FR | now constructor ].
Qed.

Lemma does_next_ok gs i st v gs0 r :
  nth_error gs i = Some (Some (G (Some st) v gs0)) -> P_goes st gs0 r ->
  P_does gs (Next i) (upd gs i (Some (after_next moved r))) (answer_next r).
Proof.
  intros N0 PG.
  apply (does_resumes_ok gs i st v gs0 _ _ (fun rs h => next moved rs h) _ N0); [| reflexivity ].
  intros s h hs fs ex FH EX R GD.
  destruct (safe_resume_ok st gs0 r PG s h v ex hs fs FH EX R GD) as (N & s1 & fs1 & D & G1 & SH & K).
  assert (DN : is_done h s = Ok false s) by (unfold is_done; now rewrite (get_bind _ _ _ _ FH)).
  destruct r as [v' st' gs'| |e].
  - destruct K as (hs' & F1 & R1).
    exists N, (mkStore (setm (frames s1) h (Some (mkFrame (Suspended st') hs' (Some (moved v')) None))) (fresh s1)), fs1.
    split; [| split; [| split ]].
    + intros n L. unfold next. rewrite (bind_ok _ _ _ _ _ DN), (bind_ok _ _ _ _ _ (D n L)), (get_bind _ _ _ _ F1).
      reflexivity.
    + apply good_put; [ now left | exact G1 ].
    + eapply shift_trans; [ exact SH |]. apply shift_put; [ now left | exact G1 ].
    + cbn [after_next]. apply (rep_g _ h (Some st') (Some (moved v')) None gs' hs' fs1).
      * cbn. apply setm_eq.
      * auto.
      * apply reps_put; [ eapply good_nin; exact G1 | exact R1 ].
  - destruct K as (F1 & ->).
    exists N, (mkStore (setm (frames s1) h (Some (mkFrame Over [] None None))) (fresh s1)), [].
    split; [| split; [| split ]].
    + intros n L. unfold next. rewrite (bind_ok _ _ _ _ _ DN), (bind_ok _ _ _ _ _ (D n L)), (get_bind _ _ _ _ F1).
      reflexivity.
    + apply good_put; [ now left | exact G1 ].
    + eapply shift_trans; [ exact SH |]. apply shift_put; [ now left | exact G1 ].
    + cbn [after_next]. apply (rep_g _ h None None None [] [] []).
      * cbn. apply setm_eq.
      * auto.
      * constructor.
  - destruct K as (F1 & ->). exists N, s1, []. split; [| split; [ exact G1 | split; [ exact SH |]]].
    + intros n L. unfold next. rewrite (bind_ok _ _ _ _ _ DN), (bind_ok _ _ _ _ _ (D n L)). reflexivity.
    + cbn [after_next]. apply (rep_g _ h None None (Some e) [] [] []); [ exact F1 | congruence | constructor ].
Qed.

Lemma does_advance_ok gs i st v gs0 r :
  nth_error gs i = Some (Some (G (Some st) v gs0)) -> P_goes st gs0 r ->
  P_does gs (Advance i) (upd gs i (Some (after r))) (answer_advance r).
Proof.
  intros N0 PG.
  apply (does_resumes_ok gs i st v gs0 _ _
    (fun rs h => let* e := safe_resume rs h in ret (match e with Some e => Thrown e | None => Nothing end)) _ N0).
  - intros s h hs fs ex FH EX R GD.
    destruct (safe_resume_ok st gs0 r PG s h v ex hs fs FH EX R GD) as (N & s1 & fs1 & D & G1 & SH & K).
    exists N, s1, fs1. split; [| split; [ exact G1 | split; [ exact SH |]]].
    + intros n L. rewrite (bind_ok _ _ _ _ _ (D n L)). destruct r; reflexivity.
    + destruct r as [v' st' gs'| |e].
      * destruct K as (hs' & F1 & R1). apply (rep_g _ h (Some st') (Some v') None gs' hs' fs1); auto.
      * destruct K as (F1 & ->). apply (rep_g _ h None None None [] [] []); [ exact F1 | congruence | constructor ].
      * destruct K as (F1 & ->). apply (rep_g _ h None None (Some e) [] [] []); [ exact F1 | congruence | constructor ].
  - intros n hs s. cbn [GenNestModel.do_op]. unfold bind. destruct (handle hs i s); try reflexivity.
    destruct (safe_resume (resume n) a s0); reflexivity.
Qed.

(** Calls which only look *)
Lemma looks_ok gs o x :
  (forall (s : store) hs fs n, reps (frames s) gs hs fs -> do_op n (resume n) hs o s = Ok (hs, x) s) -> P_does gs o gs x.
Proof.
  intros L s hs fs R GD. exists 0, s, hs, fs. split; [ intros n _; eapply L; exact R |].
  split; [ exact GD | split; [ now apply shift_same | exact R ]].
Qed.
Lemma focus_frame (s : store) gs hs fs i b v gs0 :
  reps (frames s) gs hs fs -> nth_error gs i = Some (Some (G b v gs0)) ->
  exists h hs0 ex, nth_error hs i = Some (Some h) /\ frames s h = Some (mkFrame (place_of b) hs0 v ex).
Proof.
  intros R N. destruct (reps_focus _ _ _ _ _ _ R N) as (ho & fa & fi & fb & _ & Nh & Ri & _).
  inversion Ri as [|g h fs0 Rg]; subst. inversion Rg; subst. eauto.
Qed.

(** One generator destroyed, and null put in its place *)
Lemma replace_ok (s : store) gs hs fs i old :
  reps (frames s) gs hs fs -> good s fs -> nth_error gs i = Some old ->
  exists ho N s' fs',
    nth_error hs i = Some ho /\
    (forall n, N <= n -> destroy_handle n ho s = Ok tt s') /\
    good s' fs' /\ shift s fs s' fs' /\ reps (frames s') (upd gs i None) (upd hs i None) fs'.
Proof.
  intros R GD N0. destruct (reps_focus _ _ _ _ _ _ R N0) as (ho & fa & fi & fb & -> & Nh & Ri & K).
  destruct (destroy_handle_ok s old ho fi Ri) as (N & s1 & D & C).
  { apply (good_mid s fa fi fb GD). }
  assert (G1 : good s1 []).
  { eapply (cleared_good s fi s1 fi); [ exact (good_mid _ _ _ _ GD) | exact C | constructor | intros x [] ]. }
  assert (SH : shift s fi s1 []).
  { eapply cleared_shift; [ exact (good_mid _ _ _ _ GD) | exact C | |]; cbn; tauto. }
  destruct (focus_step _ _ _ _ _ _ GD G1 SH) as (G2 & SH2 & FR).
  exists ho, N, s1, (fa ++ [] ++ fb). repeat split; try apply G2; try apply SH2; auto.
  apply K; [ exact FR | constructor ].
Qed.

Lemma upd_idem {A} (l : list A) i a b : upd (upd l i a) i b = upd l i b.
Proof. revert i. induction l as [|x l IH]; intros [|i]; cbn; [ .. | now rewrite IH ]; reflexivity. Qed.
Lemma upd_comm {A} (l : list A) i j a b : i <> j -> upd (upd l i a) j b = upd (upd l j b) i a.
Proof.
  revert i j. induction l as [|x l IH]; intros [|i] [|j] NE; cbn; try reflexivity; [ congruence |].
  rewrite IH by congruence. reflexivity.
Qed.

Lemma does_move_to_ok gs i j old o :
  i <> j -> nth_error gs i = Some old -> nth_error gs j = Some o ->
  P_does gs (MoveTo i j) (upd (upd gs j None) i o) Nothing.
Proof.
  intros NE Ni Nj s hs fs R GD.
  destruct (replace_ok s gs hs fs i old R GD Ni) as (ho & N & s1 & fs1 & Nh & D & G1 & SH & R1).
  assert (Nj1 : nth_error (upd gs i None) j = Some o) by now rewrite nth_error_upd_neq.
  destruct (reps_focus _ _ _ _ _ _ R1 Nj1) as (hj & fa & fj & fb & -> & Nhj & Rj & K).
  pose proof (K (frames s1) None None [] (fun _ _ => eq_refl) (repo_none _)) as R2.
  assert (Ni2 : nth_error (upd (upd gs i None) j None) i = Some None).
  { rewrite nth_error_upd_neq by congruence. apply nth_error_upd_eq. apply nth_error_Some. congruence. }
  destruct (reps_focus _ _ _ _ _ _ R2 Ni2) as (hi & fc & fi & fd & EQ & Nhi & Rn & K2).
  inversion Rn; subst.
  pose proof (K2 (frames s1) o hj fj (fun _ _ => eq_refl) Rj) as R3.
  exists N, s1, (upd (upd hs j None) i hj), (fc ++ fj ++ fd).
  assert (NG : forall x, In x (fa ++ fj ++ fb) <-> In x (fc ++ fj ++ fd)).
  { intros x. rewrite !in_mid. cbn in EQ. rewrite EQ. reflexivity. }
  split; [| split; [| split ]].
  - intros n L. cbn [GenNestModel.do_op]. rewrite (bind_ok _ _ _ _ _ (the_ok _ _ _ _ Nh)), (bind_ok _ _ _ _ _ (D n L)).
    rewrite nth_error_upd_neq in Nhj by exact NE. rewrite (bind_ok _ _ _ _ _ (the_ok _ _ _ _ Nhj)). reflexivity.
  - destruct G1 as (B1 & B2 & B3). repeat split; [| | exact B3 ].
    + apply nodup_mid. apply nodup_mid in B1. cbn in EQ. rewrite EQ in B1. exact B1.
    + intros x I. apply B2. now apply NG.
  - eapply shift_ext; [ reflexivity | exact NG | exact SH ].
  - rewrite (upd_comm gs i j None None NE), (upd_comm hs i j None None NE), !upd_idem in R3. exact R3.
Qed.

Lemma removelast_snoc {A} (l : list A) x : removelast (l ++ [x]) = l.
Proof. rewrite removelast_app by discriminate. apply app_nil_r. Qed.

Lemma does_leave_ok gs o : P_does (gs ++ [o]) Leave gs Nothing.
Proof.
  intros s hs fs R GD. destruct (reps_snoc _ _ _ _ _ R) as (hs' & h & f1 & f2 & -> & -> & Ra & Rb).
  assert (GM : good s (f1 ++ f2 ++ [])) by (rewrite app_nil_r; exact GD).
  destruct (destroy_handle_ok s o h f2 Rb) as (N & s1 & D & C).
  { apply (good_mid s f1 f2 [] GM). }
  assert (G1 : good s1 []).
  { eapply (cleared_good s f2 s1 f2); [ exact (good_mid _ _ _ _ GM) | exact C | constructor | intros x [] ]. }
  assert (SH : shift s f2 s1 []).
  { eapply cleared_shift; [ exact (good_mid _ _ _ _ GM) | exact C | |]; cbn; tauto. }
  destruct (focus_step _ _ _ _ _ _ GM G1 SH) as (G2 & SH2 & FR).
  cbn in G2, SH2, FR. rewrite !app_nil_r in *.
  exists N, s1, hs', f1. split; [| split; [ exact G2 | split; [ exact SH2 |]]].
  - intros n L. cbn [GenNestModel.do_op]. rewrite last_last, removelast_snoc.
    destruct (hs' ++ [h]) eqn:EH; [ destruct hs'; discriminate |].
    rewrite (bind_ok _ _ _ _ _ (D n L)). reflexivity.
  - eapply reps_frame; [ exact Ra |]. exact FR.
Qed.

Lemma does_move_new_ok gs j o : nth_error gs j = Some o -> P_does gs (MoveNew j) (upd gs j None ++ [o]) Nothing.
Proof.
  intros Nj s hs fs R GD. destruct (reps_focus _ _ _ _ _ _ R Nj) as (hj & fa & fj & fb & -> & Nhj & Rj & K).
  pose proof (K (frames s) None None [] (fun _ _ => eq_refl) (repo_none _)) as R2. cbn in R2.
  exists 0, s, (upd hs j None ++ [hj]), ((fa ++ fb) ++ fj). split; [| split; [| split ]].
  - intros n L. cbn [GenNestModel.do_op]. rewrite (bind_ok _ _ _ _ _ (the_ok _ _ _ _ Nhj)). reflexivity.
  - destruct GD as (B1 & B2 & B3). repeat split; [| | exact B3 ].
    + eapply Permutation_NoDup; [| exact B1 ]. rewrite <- app_assoc. apply Permutation_app_head, Permutation_app_comm.
    + intros x I. apply B2. now apply in_mid.
  - eapply shift_ext; [ reflexivity | apply in_mid | now apply shift_same ].
  - apply reps_app; [ exact R2 | now apply reps_one ].
Qed.

Lemma does_make_ok gs b : P_does gs (Make b) (gs ++ [Some (G (Some b) None [])]) Nothing.
Proof.
  intros s hs fs R GD. pose proof GD as (G1 & G2 & G3).
  exists 0, (mkStore (setm (frames s) (fresh s) (Some (mkFrame (Suspended b) [] None None))) (S (fresh s))),
    (hs ++ [Some (fresh s)]), (fs ++ [fresh s]).
  assert (NI : ~ In (fresh s) fs) by (intros I; specialize (G2 _ I); lia).
  split; [| split; [| split ]].
  - intros n _. reflexivity.
  - repeat split; cbn.
    + eapply Permutation_NoDup; [ apply Permutation_cons_append |]. now constructor.
    + intros x I. apply in_app_or in I. destruct I as [I|[<-|[]]]; [ specialize (G2 x I) |]; lia.
    + intros x L. rewrite setm_neq by lia. apply G3. lia.
  - repeat split; cbn.
    + lia.
    + intros x I. apply in_app_or in I. destruct I as [I|[<-|[]]]; auto.
    + intros x I L. apply setm_neq. lia.
    + intros x I J. rewrite in_app_iff in J. cbn in J. rewrite setm_neq by (intros ->; tauto). destruct I as [I|I]; [ tauto | auto ].
  - cbn. apply reps_app; [ now apply reps_put |]. apply reps_one. constructor.
    apply (rep_g _ (fresh s) (Some b) None None [] [] []); [ apply setm_eq | auto | constructor ].
Qed.

Scheme goes_mut := Minimality for GenNestSpec.goes Sort Prop
with does_mut := Minimality for GenNestSpec.does Sort Prop.
Combined Scheme goes_does from goes_mut, does_mut.

Lemma refines :
  (forall st gs r, goes st gs r -> P_goes st gs r) /\
  (forall gs o gs' x, does gs o gs' x -> P_does gs o gs' x).
Proof.
  apply goes_does.
  - intros. now apply goes_yield_ok.
  - intros. now apply goes_return_ok.
  - intros. now apply goes_throw_ok.
  - intros. eapply goes_on_ok; eassumption.
  - intros. apply does_make_ok.
  - intros gs i v gs0 N. apply looks_ok. intros s hs fs n R.
    destruct (focus_frame _ _ _ _ _ _ _ _ R N) as (h & hs0 & ex & Nh & FH).
    cbn [GenNestModel.do_op]. rewrite (bind_ok _ _ _ _ _ (handle_ok _ _ _ _ Nh)).
    unfold next, is_done, bind, get_frame. rewrite FH. reflexivity.
  - intros. eapply does_next_ok; eassumption.
  - intros. eapply does_advance_ok; eassumption.
  - intros gs i b v gs0 N. apply looks_ok. intros s hs fs n R.
    destruct (focus_frame _ _ _ _ _ _ _ _ R N) as (h & hs0 & ex & Nh & FH).
    cbn [GenNestModel.do_op]. rewrite (bind_ok _ _ _ _ _ (handle_ok _ _ _ _ Nh)), (get_bind _ _ _ _ FH). reflexivity.
  - intros gs i b v gs0 N. apply looks_ok. intros s hs fs n R.
    destruct (focus_frame _ _ _ _ _ _ _ _ R N) as (h & hs0 & ex & Nh & FH).
    cbn [GenNestModel.do_op]. rewrite (bind_ok _ _ _ _ _ (handle_ok _ _ _ _ Nh)).
    unfold is_done, bind, get_frame. rewrite FH. destruct b; reflexivity.
  - intros gs i o N. apply looks_ok. intros s hs fs n R.
    destruct (reps_focus _ _ _ _ _ _ R N) as (ho & fa & fi & fb & _ & Nh & Ri & _).
    cbn [GenNestModel.do_op]. rewrite (bind_ok _ _ _ _ _ (the_ok _ _ _ _ Nh)). inversion Ri; reflexivity.
  - intros gs i o N s hs fs R GD.
    destruct (replace_ok s gs hs fs i o R GD N) as (ho & M & s1 & fs1 & Nh & D & G1 & SH & R1).
    exists M, s1, (upd hs i None), fs1. split; [| auto ].
    intros n L. cbn [GenNestModel.do_op]. rewrite (bind_ok _ _ _ _ _ (the_ok _ _ _ _ Nh)), (bind_ok _ _ _ _ _ (D n L)).
    reflexivity.
  - intros. now apply does_move_new_ok.
  - intros. eapply does_move_to_ok; eassumption.
  - intros. apply does_leave_ok.
Qed.

Lemma history_ok gs os gs' xs :
  history run moved gs os gs' xs ->
  forall (s : store) hs fs, reps (frames s) gs hs fs -> good s fs ->
  exists N s' hs' fs',
    (forall n, N <= n -> calls run moved n hs os s = Ok (hs', xs) s') /\
    good s' fs' /\ shift s fs s' fs' /\ reps (frames s') gs' hs' fs'.
Proof.
  induction 1 as [gs|gs o gs1 x os gs' xs D H IH]; intros s hs fs R GD.
  - exists 0, s, hs, fs. split; [ reflexivity | split; [ exact GD | split; [ now apply shift_same | exact R ]]].
  - destruct (proj2 refines _ _ _ _ D s hs fs R GD) as (N1 & s1 & hs1 & fs1 & D1 & G1 & SH1 & R1).
    destruct (IH s1 hs1 fs1 R1 G1) as (N2 & s2 & hs2 & fs2 & D2 & G2 & SH2 & R2).
    exists (max N1 N2), s2, hs2, fs2. split; [| split; [ exact G2 | split; [ eapply shift_trans; eassumption | exact R2 ]]].
    intros n L. cbn [calls]. rewrite (bind_ok _ _ _ _ _ (D1 n ltac:(lia))).
    cbn [fst snd]. rewrite (bind_ok _ _ _ _ _ (D2 n ltac:(lia))). reflexivity.
Qed.

(** *** Who has the frames *)
Fixpoint somes (l : list (option nat)) : list nat :=
  match l with
  | [] => []
  | Some h :: l' => h :: somes l'
  | None :: l' => somes l'
  end.
Definition locs (F : nat -> option frame) (h : nat) : list nat :=
  match F h with Some f => somes (locals f) | None => [] end.
Lemma handles_are_frames F :
  (forall g h fs, rep F g h fs -> Permutation (h :: flat_map (locs F) fs) fs) /\
  (forall g h fs, repo F g h fs -> Permutation (somes [h] ++ flat_map (locs F) fs) fs) /\
  (forall g hs fs, reps F g hs fs -> Permutation (somes hs ++ flat_map (locs F) fs) fs).
Proof.
  apply rep_all.
  - intros h b v ex gs hs fs FH EX R IH. constructor. cbn. unfold locs at 1. rewrite FH. exact IH.
  - constructor.
  - intros g h fs R IH. exact IH.
  - constructor.
  - intros o h gs hs f1 f2 O IHO R IHR. rewrite flat_map_app.
    assert (EQ : somes (h :: hs) = somes [h] ++ somes hs) by (destruct h; reflexivity).
    rewrite EQ. etransitivity; [| apply Permutation_app; [ exact IHO | exact IHR ]].
    rewrite <- !app_assoc. apply Permutation_app_head. rewrite !app_assoc.
    apply Permutation_app_tail, Permutation_app_comm.
Qed.

Lemma somes_in l i h : nth_error l i = Some (Some h) -> In h (somes l).
Proof.
  revert i. induction l as [|[x|] l IH]; intros [|i] N; cbn in *; try discriminate.
  - injection N as ->. now left.
  - right. eapply IH. exact N.
  - eapply IH. exact N.
Qed.
Lemma in_somes l h : In h (somes l) -> exists i, nth_error l i = Some (Some h).
Proof.
  induction l as [|[x|] l IH]; cbn; intros I; [ tauto | |].
  - destruct I as [->|I]; [ now exists 0 |]. destruct (IH I) as (i & N). now exists (S i).
  - destruct (IH I) as (i & N). now exists (S i).
Qed.
Lemma somes_inj l i j h :
  NoDup (somes l) -> nth_error l i = Some (Some h) -> nth_error l j = Some (Some h) -> i = j.
Proof.
  revert i j. induction l as [|o l IH]; intros i j ND Ni Nj; [ destruct i; discriminate |].
  assert (ND' : NoDup (somes l)) by (destruct o; [ now inversion ND | exact ND ]).
  destruct i as [|i], j as [|j]; cbn in Ni, Nj; [ reflexivity | | | f_equal; auto ].
  - injection Ni as ->. inversion ND; subst. exfalso. apply H1. eapply somes_in. exact Nj.
  - injection Nj as ->. inversion ND; subst. exfalso. apply H1. eapply somes_in. exact Ni.
Qed.
Lemma flat_map_inj {A B} (f : A -> list B) l x y b :
  NoDup (flat_map f l) -> In x l -> In y l -> In b (f x) -> In b (f y) -> x = y.
Proof.
  induction l as [|a l IH]; cbn; intros ND Ix Iy Bx By; [ tauto |].
  destruct (nodup_app _ _ ND) as (N1 & N2 & D).
  destruct Ix as [<-|Ix], Iy as [<-|Iy]; [ reflexivity | | | auto ].
  - exfalso. eapply D; [ exact Bx |]. apply in_flat_map. eauto.
  - exfalso. eapply D; [ exact By |]. apply in_flat_map. eauto.
Qed.
Lemma nodup_of {A B} (f : A -> list B) l x : NoDup (flat_map f l) -> In x l -> NoDup (f x).
Proof.
  induction l as [|a l IH]; cbn; intros ND I; [ tauto |].
  destruct (nodup_app _ _ ND) as (N1 & N2 & _). destruct I as [<-|I]; auto.
Qed.

Lemma in_frames F :
  (forall g h fs, rep F g h fs -> forall x, In x fs -> exists f, F x = Some f /\ at_ f <> Running) /\
  (forall g h fs, repo F g h fs -> forall x, In x fs -> exists f, F x = Some f /\ at_ f <> Running) /\
  (forall g hs fs, reps F g hs fs -> forall x, In x fs -> exists f, F x = Some f /\ at_ f <> Running).
Proof.
  apply rep_all.
  - intros h b v ex gs hs fs FH EX R IH x [<-|I]; [| auto ].
    eexists; split; [ exact FH |]. destruct b; discriminate.
  - intros x [].
  - auto.
  - intros x [].
  - intros o h gs hs f1 f2 O IHO R IHR x I. apply in_app_or in I. destruct I; auto.
Qed.

Lemma owned_ok (s : store) gs hs fs :
  reps (frames s) gs hs fs -> NoDup fs -> (forall x, ~ In x fs -> frames s x = None) -> owned_once s hs.
Proof.
  intros R ND OUT. pose proof (proj2 (proj2 (handles_are_frames (frames s))) _ _ _ R) as PM.
  assert (NA : NoDup (somes hs ++ flat_map (locs (frames s)) fs)).
  { eapply Permutation_NoDup; [ symmetry; exact PM | exact ND ]. }
  destruct (nodup_app _ _ NA) as (N1 & N2 & D).
  assert (DOM : forall h f, frames s h = Some f -> In h fs).
  { intros h f FH. destruct (in_dec Nat.eq_dec h fs) as [I|I]; [ exact I |]. rewrite OUT in FH by exact I. discriminate. }
  assert (LOC : forall h i x, held s hs (Local h i) = Some x -> In h fs /\ In x (locs (frames s) h) /\
            exists f, frames s h = Some f /\ nth_error (locals f) i = Some (Some x)).
  { intros h i x H. cbn in H. destruct (frames s h) as [f|] eqn:FH; [| discriminate ].
    destruct (nth_error (locals f) i) as [o|] eqn:NE; [| discriminate ]. subst o.
    repeat split; [ eapply DOM; exact FH | | eauto ]. unfold locs. rewrite FH. eapply somes_in. exact NE. }
  assert (USR : forall i x, held s hs (User i) = Some x -> nth_error hs i = Some (Some x)).
  { intros i x H. cbn in H. destruct (nth_error hs i); congruence. }
  split; [| split ].
  - intros h f FH. pose proof (DOM _ _ FH) as I. eapply Permutation_in in I; [| symmetry; exact PM ].
    apply in_app_or in I. destruct I as [I|I].
    + destruct (in_somes _ _ I) as (i & N). exists (User i). cbn. now rewrite N.
    + apply in_flat_map in I. destruct I as (h' & I' & J). unfold locs in J.
      destruct (frames s h') as [f'|] eqn:F'; [| destruct J ].
      destruct (in_somes _ _ J) as (i & N). exists (Local h' i). cbn. now rewrite F', N.
  - intros w w' h H H'. destruct w as [i|a i], w' as [j|b j].
    + f_equal. eapply somes_inj; [ exact N1 | apply USR; exact H | apply USR; exact H' ].
    + exfalso. destruct (LOC _ _ _ H') as (I & J & _). eapply D; [ eapply somes_in; apply USR; exact H |].
      apply in_flat_map. eauto.
    + exfalso. destruct (LOC _ _ _ H) as (I & J & _). eapply D; [ eapply somes_in; apply USR; exact H' |].
      apply in_flat_map. eauto.
    + destruct (LOC _ _ _ H) as (I & J & f & Fa & Na). destruct (LOC _ _ _ H') as (I' & J' & f' & Fb & Nb).
      assert (a = b) by (eapply flat_map_inj; [ exact N2 | exact I | exact I' | exact J | exact J' ]). subst b.
      rewrite Fa in Fb. injection Fb as <-. f_equal.
      eapply somes_inj; [| exact Na | exact Nb ].
      pose proof (nodup_of _ _ _ N2 I) as NL. unfold locs in NL. now rewrite Fa in NL.
  - intros w h H. apply (proj2 (proj2 (in_frames (frames s))) _ _ _ R).
    eapply Permutation_in; [ exact PM |]. apply in_or_app. destruct w as [i|a i].
    + left. eapply somes_in. apply USR. exact H.
    + right. destruct (LOC _ _ _ H) as (I & J & _). apply in_flat_map. eauto.
Qed.

Lemma reps_null F gs hs fs i :
  reps F gs hs fs -> (nth_error gs i = Some None <-> nth_error hs i = Some None).
Proof.
  intros R. revert i. induction R as [|o h gs hs f1 f2 O R IH]; intros i.
  - destruct i; cbn; split; discriminate.
  - destruct i as [|i]; cbn; [| apply IH ]. inversion O; subst; split; congruence.
Qed.
Lemma reps_length F gs hs fs : reps F gs hs fs -> length hs = length gs.
Proof. induction 1; cbn; auto. Qed.
Lemma reps_all_null F gs hs fs : reps F gs hs fs -> Forall (fun o => o = None) gs -> fs = [].
Proof.
  induction 1 as [|o h gs hs f1 f2 O R IH]; intros A; [ reflexivity |].
  inversion A; subst. inversion O; subst. cbn. auto.
Qed.

(** *** More steps change nothing *)
Definition below {A} (f g : M store A) : Prop := forall s, f s = Diverge \/ f s = g s.
Lemma below_refl {A} (f : M store A) : below f f.
Proof. intros s. now right. Qed.
Lemma below_bind {A B} (f f' : M store A) (k k' : A -> M store B) :
  below f f' -> (forall a, below (k a) (k' a)) -> below (bind f k) (bind f' k').
Proof.
  intros L K s. unfold bind. destruct (L s) as [Q|Q]; rewrite Q; [ now left |].
  destruct (f' s); auto. apply K.
Qed.
Lemma below_diverge {A} (f : M store A) : below diverge f.
Proof. intros s. now left. Qed.
Ltac low := repeat match goal with
  | |- below (bind _ _) (bind _ _) => apply below_bind; [| intros ]
  | |- below (if ?b then _ else _) _ => destruct b
  | |- below (match ?b with _ => _ end) _ => destruct b
  end; auto using below_refl, below_diverge.

Lemma below_destroy_all_of n m l :
  (forall h, below (destroy n h) (destroy m h)) -> below (destroy_all n l) (destroy_all m l).
Proof. intros L. induction l as [|[h|] l IH]; cbn [destroy_all destroy_handle]; low. Qed.
Lemma below_destroy n m h : n <= m -> below (destroy n h) (destroy m h).
Proof.
  revert m h. induction n as [|n IH]; intros m h L; [ apply below_diverge |].
  destruct m as [|m]; [ lia |]. intros s. rewrite !destroy_S. revert s.
  change (below
    (let* f := get_frame h in match at_ f with Running => ub | _ => destroy_all n (locals f) ;;; drop_frame h end)
    (let* f := get_frame h in match at_ f with Running => ub | _ => destroy_all m (locals f) ;;; drop_frame h end)).
  apply below_bind; [ apply below_refl | intros f ].
  assert (Q : below (destroy_all n (locals f)) (destroy_all m (locals f))).
  { apply below_destroy_all_of. intros h'. apply IH. lia. }
  low.
Qed.
Lemma below_destroy_all n m l : n <= m -> below (destroy_all n l) (destroy_all m l).
Proof. intros L. apply below_destroy_all_of. intros h. now apply below_destroy. Qed.
Lemma below_destroy_handle n m o : n <= m -> below (destroy_handle n o) (destroy_handle m o).
Proof. intros L. destruct o; cbn; [ now apply below_destroy | apply below_refl ]. Qed.

Lemma below_do_op n m (rs rs' : nat -> M store unit) l o :
  n <= m -> (forall h, below (rs h) (rs' h)) -> below (do_op n rs l o) (do_op m rs' l o).
Proof.
  intros L R.
  assert (SR : forall h, below (safe_resume rs h) (safe_resume rs' h)).
  { intros h. unfold safe_resume. low. }
  assert (DH : forall o, below (destroy_handle n o) (destroy_handle m o)).
  { intros o'. now apply below_destroy_handle. }
  destruct o; cbn [GenNestModel.do_op]; unfold next; low.
Qed.
Lemma below_run_body n m h st : n <= m -> below (run_body n h st) (run_body m h st).
Proof.
  revert m h st. induction n as [|n IH]; intros m h st L; [ apply below_diverge |].
  destruct m as [|m]; [ lia |]. intros s. rewrite !run_body_S.
  assert (RS : forall h, below (resume n h) (resume m h)).
  { intros h'. unfold GenNestModel.resume. low. apply IH. lia. }
  destruct (run st).
  - now right.
  - revert s. change (below
      (let* f := get_frame h in destroy_all n (locals f) ;;; put_frame h (mkFrame Over [] (m_val f) (m_exception f)))
      (let* f := get_frame h in destroy_all m (locals f) ;;; put_frame h (mkFrame Over [] (m_val f) (m_exception f)))).
    low. apply below_destroy_all. lia.
  - revert s. change (below
      (let* f := get_frame h in destroy_all n (locals f) ;;; put_frame h (mkFrame Over [] (m_val f) (Some e)))
      (let* f := get_frame h in destroy_all m (locals f) ;;; put_frame h (mkFrame Over [] (m_val f) (Some e)))).
    low. apply below_destroy_all. lia.
  - revert s. match goal with |- forall s, ?f s = _ \/ _ = ?g s => change (below f g) end.
    apply below_bind; [ apply below_refl | intros f ].
    apply below_bind; [ apply below_do_op; [ lia | exact RS ] | intros r ].
    low. apply IH. lia.
Qed.
Lemma below_resume n m h : n <= m -> below (resume n h) (resume m h).
Proof. intros L. unfold GenNestModel.resume. low. now apply below_run_body. Qed.
Lemma below_calls n m l os : n <= m -> below (calls run moved n l os) (calls run moved m l os).
Proof.
  intros L. revert l. induction os as [|o os IH]; intros l; cbn [calls]; [ apply below_refl |].
  apply below_bind; [ apply below_do_op; [ exact L | intros h; now apply below_resume ] |].
  intros r. low.
Qed.

(** *** From the beginning *)
Lemma from_init gs os xs :
  history run moved [] os gs xs ->
  exists N (s' : store) hs fs,
    (forall n, N <= n -> calls run moved n [] os init = Ok (hs, xs) s') /\
    (forall n, calls run moved n [] os init = Diverge \/ calls run moved n [] os init = Ok (hs, xs) s') /\
    reps (frames s') gs hs fs /\ NoDup fs /\ (forall x, ~ In x fs -> frames s' x = None).
Proof.
  intros H. destruct (history_ok _ _ _ _ H init [] [] (reps_nil _)) as (N & s' & hs & fs & D & G & SH & R).
  { repeat split; [ constructor | intros x [] ]. }
  exists N, s', hs, fs. destruct G as (G1 & G2 & G3). destruct SH as (A1 & A2 & A3 & A4).
  split; [ exact D | split; [| split; [ exact R | split; [ exact G1 |]]]].
  - intros n. destruct (below_calls n (max n N) [] os ltac:(lia) init) as [Q|Q]; [ now left | right ].
    rewrite Q. apply D. lia.
  - intros x I. apply A4; [ right; cbn; lia | exact I ].
Qed.
End Proofs.

(** *** A walk over a tree *)
Section Walk.
Context {V E : Type}.
Variable moved : V -> V.
Notation St := (at_walk V E).
Notation goes := (goes (St := St) (walk (V := V) (E := E)) moved).
Notation does := (does (St := St) (walk (V := V) (E := E)) moved).

(** What next() gives, called again and again. *)
Inductive emits : St -> list (option (gen St V)) -> list V -> option E -> Prop :=
| em_end st gs : goes st gs Ended -> emits st gs [] None
| em_fail st gs e : goes st gs (Failed e) -> emits st gs [] (Some e)
| em_cons st gs v st' gs' l e :
    goes st gs (Gave v st' gs') -> emits st' gs' l e -> emits st gs (v :: l) e.

Lemma emits_right d st gs l e :
  emits st gs l e -> forall v, emits Right [d; Some (G (Some st) v gs)] l e.
Proof.
  induction 1 as [st gs H|st gs e H|st gs x st' gs' l e H T IH]; intros v.
  - apply em_end. eapply goes_on; [ reflexivity | |].
    + eapply does_next; [ reflexivity | exact H ].
    + now apply goes_return.
  - apply em_fail. eapply goes_on; [ reflexivity | |].
    + eapply does_next; [ reflexivity | exact H ].
    + now apply goes_throw.
  - eapply em_cons; [| apply IH ]. eapply goes_on; [ reflexivity | |].
    + eapply does_next; [ reflexivity | exact H ].
    + now apply goes_yield.
Qed.

Lemma emits_left x r lr er :
  emits (Start r) [] lr er ->
  forall st gs l e, emits st gs l e -> forall v,
    emits (Left x r) [Some (G (Some st) v gs)]
      (match e with Some _ => l | None => l ++ x :: lr end) (match e with Some e => Some e | None => er end).
Proof.
  intros HR. induction 1 as [st gs H|st gs e H|st gs y st' gs' l e H T IH]; intros v.
  - eapply em_cons.
    + eapply goes_on; [ reflexivity | |].
      * eapply does_next; [ reflexivity | exact H ].
      * now apply goes_yield.
    + cbn. pose proof (emits_right (Some (G None None [])) _ _ _ _ HR None) as R.
      inversion R; subst; [ apply em_end | apply em_fail | eapply em_cons ]; try eassumption.
      * eapply goes_on; [ reflexivity | apply does_make | exact H0 ].
      * eapply goes_on; [ reflexivity | apply does_make | exact H0 ].
      * eapply goes_on; [ reflexivity | apply does_make | exact H0 ].
  - apply em_fail. eapply goes_on; [ reflexivity | |].
    + eapply does_next; [ reflexivity | exact H ].
    + now apply goes_throw.
  - replace (match e with Some _ => y :: l | None => (y :: l) ++ x :: lr end)
      with (y :: match e with Some _ => l | None => l ++ x :: lr end) by (destruct e; reflexivity).
    eapply em_cons; [| apply IH ]. eapply goes_on; [ reflexivity | |].
    + eapply does_next; [ reflexivity | exact H ].
    + now apply goes_yield.
Qed.

Lemma walk_emits t : emits (Start t) [] (fst (in_order t)) (snd (in_order t)).
Proof.
  induction t as [|e|l IHl x r IHr].
  - apply em_end. now apply goes_return.
  - apply em_fail. now apply goes_throw.
  - pose proof (emits_left x r _ _ IHr _ _ _ _ IHl None) as L.
    assert (Q : in_order (Node l x r) =
      (match snd (in_order l) with Some _ => fst (in_order l) | None => fst (in_order l) ++ x :: fst (in_order r) end,
       match snd (in_order l) with Some e => Some e | None => snd (in_order r) end)).
    { cbn. destruct (in_order l) as (vs & [e|]); reflexivity. }
    rewrite Q. cbn [fst snd].
    inversion L as [st0 gs0 H0 E1 E2|st0 gs0 e0 H0 E1 E2|st0 gs0 v0 st1 gs1 l1 e1 H0 H1 E1 E2].
    + apply em_end. eapply goes_on; [ reflexivity | apply does_make | exact H0 ].
    + apply em_fail. eapply goes_on; [ reflexivity | apply does_make | exact H0 ].
    + eapply em_cons; [| exact H1 ]. eapply goes_on; [ reflexivity | apply does_make | exact H0 ].
Qed.

Notation history := (history (walk (V := V) (E := E)) moved).
Lemma over_history v gs n :
  history [Some (G None v gs)] (repeat (Next 0) n) [Some (G None v gs)] (repeat (Value None) n).
Proof.
  induction n as [|n IH]; [ constructor |]. cbn [repeat].
  eapply hist_cons; [ eapply does_next_over; reflexivity | exact IH ].
Qed.
Lemma emits_history n : forall st gs l e, emits st gs l e -> forall v,
  exists g, history [Some (G (Some st) v gs)] (repeat (Next 0) n) [Some g] (answers (l, e) n).
Proof.
  induction n as [|n IH]; intros st gs l e H v; [ eexists; constructor |].
  assert (RP : forall k, firstn k (repeat (@Value V E None) k) = repeat (Value None) k).
  { intros k. rewrite <- (repeat_length (@Value V E None) k) at 1. apply firstn_all. }
  inversion H; subst; unfold answers; cbn [fst snd map repeat app firstn].
  - eexists. eapply hist_cons; [ exact (does_next _ _ [Some (G (Some st) v gs)] 0 st v gs Ended eq_refl H0) |].
    rewrite RP. apply over_history.
  - eexists. eapply hist_cons; [ exact (does_next _ _ [Some (G (Some st) v gs)] 0 st v gs (Failed e0) eq_refl H0) |].
    replace (firstn n (Value None :: repeat (Value None) n)) with (repeat (@Value V E None) n).
    + apply over_history.
    + symmetry. change (Value None :: repeat (Value None) n) with (repeat (@Value V E None) (S n)).
      rewrite repeat_S_end, firstn_app, repeat_length, Nat.sub_diag, RP. apply app_nil_r.
  - destruct (IH _ _ _ _ H1 (Some (moved v0))) as (g & HG). exists g.
    eapply hist_cons; [ exact (does_next _ _ [Some (G (Some st) v gs)] 0 st v gs (Gave v0 st' gs') eq_refl H0) |].
    cbn [upd after_next]. unfold answers in HG. cbn [fst snd] in HG.
    replace (firstn n (map (fun v => Value (Some v)) l0 ++
               match e with Some e0 => [Thrown e0] | None => [] end ++ Value None :: repeat (Value None) n))
      with (firstn n (map (fun v => Value (Some v)) l0 ++
               match e with Some e0 => [Thrown e0] | None => [] end ++ repeat (@Value V E None) n)); [ exact HG |].
    change (Value None :: repeat (Value None) n) with (repeat (@Value V E None) (S n)).
    rewrite repeat_S_end, !app_assoc. rewrite (firstn_app n (_ ++ repeat (Value None) n)).
    match goal with |- _ = _ ++ firstn ?k _ => replace k with 0 end; [ now rewrite firstn_O, app_nil_r |].
    rewrite !app_length, repeat_length. lia.
Qed.
End Walk.
