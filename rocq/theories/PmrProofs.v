(** The model of pmr_allocator does what the specification says. *)
From Coq Require Import List Arith NArith Bool Lia.
From Verif Require Import Base VecCommon PmrModel PmrSpec.
Import ListNotations.
Open Scope N_scope.

Section Proofs.
Context {V : Type}.
Notation store := (store V).
Notation ast := (ast V).
Implicit Types (s : store) (a : ast) (p : addr) (U : ty) (v : V) (b : nat).

Lemma addr_eqb_spec p q : reflect (p = q) (addr_eqb p q).
Proof.
  destruct p as [b o], q as [b' o']. unfold addr_eqb. cbn.
  destruct (Nat.eqb_spec b b'), (N.eqb_spec o o'); cbn; constructor; congruence.
Qed.
Lemma same_ty_spec U W : reflect (U = W) (same_ty U W).
Proof.
  destruct U as [x y z], W as [x' y' z']. unfold same_ty. cbn.
  destruct (Nat.eqb_spec x x'), (N.eqb_spec y y'), (N.eqb_spec z z'); cbn; constructor; congruence.
Qed.

Definition shape (k : block V) := (res_of k, (bytes k, aligned k)).
Record good s a : Prop := {
  g_blocks : forall b, option_map shape (heap s b) = ablocks a b;
  g_objs : forall b k, heap s b = Some k -> forall o w, In (o, w) (objs k) <-> aobjs a (b, o) = Some w;
  g_dead : forall b o, heap s b = None -> aobjs a (b, o) = None;
  g_alloc : forall x, allocs s x = aalloc a x;
  g_next : next s = anext a;
  g_fresh : forall b, (next s <= b)%nat -> heap s b = None;
  g_small : forall b r n al, ablocks a b = Some (r, (n, al)) -> n < two64;
  g_proper : forall p U v, aobjs a p = Some (U, v) -> proper U;
  g_tidy : tidy (log s);
  g_held : forall b n al, held (log s) b n al <-> exists r, ablocks a b = Some (r, (n, al));
  g_here : forall p U v, aobjs a p = Some (U, v) -> here (log s) p U;
  g_gone : forall p U, (forall v, aobjs a p <> Some (U, v)) -> gone (log s) p U;
  g_old : forall b n al, In (Allocated b n al) (log s) -> (b < next s)%nat;
  g_old' : forall b n al, In (Deallocated b n al) (log s) -> (b < next s)%nat
}.

Lemma good_init : good init ainit.
Proof.
  constructor; cbn; try congruence; try tauto; auto.
  - intros b n al. unfold held. cbn. split; [tauto|]. intros [r E]. discriminate.
  - intros. reflexivity.
Qed.

Record same (a a' : ast) : Prop := {
  e_blocks : forall b, ablocks a b = ablocks a' b;
  e_objs : forall p, aobjs a p = aobjs a' p;
  e_alloc : forall x, aalloc a x = aalloc a' x;
  e_next : anext a = anext a'
}.
Lemma good_ext s a a' : same a a' -> good s a -> good s a'.
Proof.
  intros [Eb Eo Ea En] G. constructor.
  - intros. rewrite <- Eb. apply G.
  - intros. rewrite <- Eo. now apply G.
  - intros. rewrite <- Eo. now apply G.
  - intros. rewrite <- Ea. apply G.
  - rewrite <- En. apply G.
  - apply G.
  - intros b r n al. rewrite <- Eb. apply G.
  - intros p U v. rewrite <- Eo. apply G.
  - apply G.
  - intros. rewrite (g_held _ _ G). split; intros [r E]; exists r; [rewrite <- Eb|rewrite Eb]; exact E.
  - intros p U v. rewrite <- Eo. apply G.
  - intros p U N. apply G. intros v. rewrite Eo. apply N.
  - apply G.
  - apply G.
Qed.

(** Facts about logs. *)
Lemma held_fun l b n al n' al' : tidy l -> In (Allocated b n al) l -> In (Allocated b n' al') l ->
  n = n' /\ al = al'.
Proof.
  induction l as [|e l IH]; cbn; [tauto|]. intros [T H] [->|I1] [E|I2].
  - now injection E as -> ->.
  - now apply H in I2.
  - subst e. now apply H in I1.
  - auto.
Qed.

Lemma here_cons e l p U : e <> Constructed p U -> e <> Destroyed p U ->
  (here (e :: l) p U <-> here l p U) /\ (gone (e :: l) p U <-> gone l p U).
Proof.
  intros N1 N2. unfold here, gone. rewrite !count_occ_cons_neq by assumption. tauto.
Qed.

(** Allocation. *)
Lemma alloc_good s a r n al : good s a -> n < two64 ->
  good (mkStore (setm (heap s) (next s) (Some (mkBlock r n al []))) (S (next s)) (allocs s)
                (Allocated (next s) n al :: log s))
       (new_block a r n al).
Proof.
  intros G L. pose proof (g_next _ _ G) as En. constructor; cbn; rewrite ?En.
  - intros b. unfold setm. destruct (Nat.eqb_spec b (anext a)); [reflexivity|apply G].
  - intros b k. unfold setm. destruct (Nat.eqb_spec b (anext a)) as [->|ne].
    + intros E o w. injection E as <-. cbn. rewrite (g_dead _ _ G); [split; [tauto|discriminate]|].
      apply (g_fresh _ _ G). lia.
    + apply G.
  - intros b o. unfold setm. destruct (Nat.eqb_spec b (anext a)); [discriminate|apply G].
  - apply G.
  - reflexivity.
  - intros b Hb. unfold setm. destruct (Nat.eqb_spec b (anext a)); [lia|]. apply (g_fresh _ _ G). lia.
  - intros b r' n' al'. unfold setm. destruct (Nat.eqb_spec b (anext a)); [|apply G].
    intros E. now injection E as <- <- <-.
  - apply G.
  - split; [apply G|]. intros n' al' Hin. apply (g_old _ _ G) in Hin. lia.
  - intros b n' al'. unfold setm. destruct (Nat.eqb_spec b (anext a)) as [->|ne].
    + split.
      * intros [[E|Hin] _]; [injection E as <- <-; eauto|]. apply (g_old _ _ G) in Hin. lia.
      * intros [r' E]. injection E as <- <- <-. split; [now left|].
        intros n' al' [E|Hin]; [discriminate|]. apply (g_old' _ _ G) in Hin. lia.
    + rewrite <- (g_held _ _ G). unfold held. cbn. split.
      * intros [[E|Hin] N]; [congruence|]. split; [exact Hin|]. intros n2 al2 H. apply (N n2 al2). now right.
      * intros [Hin N]. split; [now right|]. intros n2 al2 [E|H]; [discriminate|]. now apply N in H.
  - intros p U v E. apply here_cons; try discriminate. eapply (g_here _ _ G); eauto.
  - intros p U N. apply here_cons; try discriminate. now apply (g_gone _ _ G).
  - intros b n' al' [E|Hin]; [injection E as <- _ _; lia|]. apply (g_old _ _ G) in Hin. lia.
  - intros b n' al' [E|Hin]; [discriminate|]. apply (g_old' _ _ G) in Hin. lia.
Qed.

Lemma res_allocate_ok s a r n al : good s a -> n < two64 -> exists s',
  res_allocate r n al false s = Ok (anext a, 0) s' /\ good s' (new_block a r n al).
Proof.
  intros G L. eexists. split; [|apply alloc_good; eauto]. unfold res_allocate.
  now rewrite (g_next _ _ G).
Qed.

(** Deallocation. *)
Lemma res_deallocate_ok s a r b n al : good s a -> ablocks a b = Some (r, (n, al)) -> vacant a b ->
  exists s', res_deallocate r (b, 0) n al s = Ok tt s' /\ good s' (with_block a b None).
Proof.
  intros G E Va. pose proof (g_blocks _ _ G b) as Eb. rewrite E in Eb.
  destruct (heap s b) as [k|] eqn:Eh; [|discriminate]. injection Eb as Er En Ea.
  eexists. unfold res_deallocate. cbn [fst snd]. rewrite Eh, Er, En, Ea, Nat.eqb_refl, !N.eqb_refl. cbn.
  split; [reflexivity|].
  assert (Lb : (b < next s)%nat).
  { destruct (Nat.lt_ge_cases b (next s)) as [|Hb]; [assumption|]. apply (g_fresh _ _ G) in Hb. congruence. }
  constructor; cbn.
  - intros c. unfold setm. destruct (Nat.eqb_spec c b); [reflexivity|apply G].
  - intros c k'. unfold setm. destruct (Nat.eqb_spec c b); [discriminate|apply G].
  - intros c o. unfold setm. destruct (Nat.eqb_spec c b) as [->|ne]; [intros _; apply Va|apply G].
  - apply G.
  - apply G.
  - intros c Hc. unfold setm. destruct (Nat.eqb_spec c b); [reflexivity|now apply G].
  - intros c r' n' al'. unfold setm. destruct (Nat.eqb_spec c b); [discriminate|apply G].
  - apply G.
  - split; [apply G|]. split; [apply (g_held _ _ G); eauto|].
    intros o U. apply (g_gone _ _ G). intros v. rewrite Va. discriminate.
  - intros c n' al'. unfold setm. destruct (Nat.eqb_spec c b) as [->|ne].
    + split; [|intros [r' H]; discriminate]. intros [_ N]. exfalso. apply (N n al). now left.
    + rewrite <- (g_held _ _ G). unfold held. cbn. split.
      * intros [[H|Hin] N]; [congruence|]. split; [exact Hin|]. intros n2 al2 H. apply (N n2 al2). now right.
      * intros [Hin N]. split; [now right|]. intros n2 al2 [H|H]; [congruence|]. now apply N in H.
  - intros p U v Ep. apply here_cons; try discriminate. eapply (g_here _ _ G); eauto.
  - intros p U N. apply here_cons; try discriminate. now apply (g_gone _ _ G).
  - intros c n' al' [H|Hin]; [discriminate|]. now apply (g_old _ _ G) in Hin.
  - intros c n' al' [H|Hin]; [injection H as <- _ _; exact Lb|]. now apply (g_old' _ _ G) in Hin.
Qed.

(** Construction and destruction. *)
Lemma room_check s a p U : good s a -> room a p U -> exists k, heap s (fst p) = Some k /\
  (snd p + size_of U <=? bytes k) && (aligned k mod align_of U =? 0) &&
  (snd p mod align_of U =? 0) && forallb (apart (snd p) U) (objs k) = true.
Proof.
  intros G (r & n & al & E & L & A1 & A2 & D). pose proof (g_blocks _ _ G (fst p)) as Eb.
  rewrite E in Eb. destruct (heap s (fst p)) as [k|] eqn:Eh; [|discriminate].
  injection Eb as Er En Ea. exists k. split; [reflexivity|].
  rewrite En, Ea, A1, A2, !N.eqb_refl, (proj2 (N.leb_le _ _)) by exact L. cbn.
  apply forallb_forall. intros [o [U' v]] Hin. apply (g_objs _ _ G _ _ Eh) in Hin.
  apply D in Hin. unfold apart. cbn. apply orb_true_iff. rewrite !N.leb_le. exact Hin.
Qed.

Lemma construct_ok s a p U v : good s a -> proper U -> room a p U ->
  exists s', construct_at p U v false s = Ok tt s' /\ good s' (with_obj a p (Some (U, v))).
Proof.
  intros G P R. destruct (room_check s a p U G R) as (k & Eh & C).
  eexists. unfold construct_at. rewrite Eh, C. split; [reflexivity|]. clear C.
  destruct R as (r & n & al & E & L & A1 & A2 & D).
  assert (Ep : aobjs a p = None).
  { destruct (aobjs a p) as [[U' v']|] eqn:Ep; [|reflexivity]. pose proof (g_proper _ _ G _ _ _ Ep) as P'.
    destruct p as [b o]. apply D in Ep. destruct P, P', Ep; cbn in *; lia. }
  constructor; cbn.
  - intros b. unfold setm. destruct (Nat.eqb_spec b (fst p)) as [->|ne]; [|apply G].
    rewrite <- (g_blocks _ _ G), Eh. reflexivity.
  - intros b k'. unfold setm. destruct (Nat.eqb_spec b (fst p)) as [->|ne].
    + intros Ek o w. injection Ek as <-. cbn. destruct (addr_eqb_spec (fst p, o) p) as [e|ne].
      * rewrite <- e at 1. cbn. split.
        -- intros [H|H]; [congruence|]. apply (g_objs _ _ G _ _ Eh) in H. rewrite e, Ep in H. discriminate.
        -- intros H. injection H as <-. now left.
      * rewrite <- (g_objs _ _ G _ _ Eh). split; [intros [H|H]; [|exact H]|now right].
        injection H as H1 H2. destruct ne. destruct p. cbn in *. congruence.
    + intros Ek o w. destruct (addr_eqb_spec (b, o) p) as [e|ne']; [subst p; now cbn in ne|].
      now apply (g_objs _ _ G).
  - intros b o. unfold setm. destruct (Nat.eqb_spec b (fst p)) as [->|ne]; [discriminate|].
    destruct (addr_eqb_spec (b, o) p) as [e|ne']; [subst p; now cbn in ne|apply G].
  - apply G.
  - apply G.
  - intros b Hb. unfold setm. destruct (Nat.eqb_spec b (fst p)) as [->|ne]; [|now apply G].
    apply (g_fresh _ _ G) in Hb. congruence.
  - apply G.
  - intros q W w. destruct (addr_eqb_spec q p); [|apply G]. intros H. now injection H as <- <-.
  - split; [apply G|]. split; [|split].
    + exists n, al. split; [apply (g_held _ _ G); eauto|auto].
    + intros o W H. destruct (aobjs a (fst p, o)) as [[W' w]|] eqn:Eo.
      * destruct (same_ty_spec W W') as [->|ne]; [eapply D; eauto|].
        assert (gone (log s) (fst p, o) W) as Gn by (apply (g_gone _ _ G); congruence).
        unfold here, gone in *. lia.
      * assert (gone (log s) (fst p, o) W) as Gn by (apply (g_gone _ _ G); congruence).
        unfold here, gone in *. lia.
    + apply (g_gone _ _ G). congruence.
  - intros b n' al'. rewrite <- (g_held _ _ G). unfold held. cbn. split.
    + intros [[H|Hin] N]; [discriminate|]. split; [exact Hin|]. intros n2 al2 H. apply (N n2 al2). now right.
    + intros [Hin N]. split; [now right|]. intros n2 al2 [H|H]; [congruence|]. now apply N in H.
  - intros q W w. destruct (addr_eqb_spec q p) as [->|ne].
    + intros H. injection H as <- <-. unfold here. rewrite count_occ_cons_eq, count_occ_cons_neq by congruence.
      f_equal. apply (g_gone _ _ G). congruence.
    + intros H. apply here_cons; try congruence. eapply (g_here _ _ G); eauto.
  - intros q W N. destruct (addr_eqb_spec q p) as [->|ne].
    + assert (W <> U) by (intros ->; now apply (N v)).
      apply here_cons; try congruence. apply (g_gone _ _ G). congruence.
    + apply here_cons; try congruence. now apply (g_gone _ _ G).
  - intros b n' al' [H|Hin]; [discriminate|]. now apply (g_old _ _ G) in Hin.
  - intros b n' al' [H|Hin]; [discriminate|]. now apply (g_old' _ _ G) in Hin.
Qed.

Lemma construct_throws s a p U v : good s a -> room a p U ->
  construct_at p U v true s = Throw ElemThrow s.
Proof.
  intros G R. destruct (room_check s a p U G R) as (k & Eh & C).
  unfold construct_at. now rewrite Eh, C.
Qed.

Lemma object_at_ok s a p U v : good s a -> aobjs a p = Some (U, v) -> object_at p U s = Some v.
Proof.
  intros G E. unfold object_at. destruct p as [b o]. cbn.
  destruct (heap s b) as [k|] eqn:Eh; [|rewrite (g_dead _ _ G) in E by assumption; discriminate].
  destruct (find _ _) as [[o' [W w]]|] eqn:F.
  - apply find_some in F as [Hin e]. cbn in e. apply N.eqb_eq in e as ->.
    apply (g_objs _ _ G _ _ Eh) in Hin. rewrite E in Hin. injection Hin as <- <-.
    destruct (same_ty_spec U U); congruence.
  - apply (g_objs _ _ G _ _ Eh) in E. eapply find_none in F; [|exact E]. cbn in F.
    now rewrite N.eqb_refl in F.
Qed.

Lemma destroy_ok s a p U v : good s a -> aobjs a p = Some (U, v) ->
  exists s', destroy_at p U s = Ok tt s' /\ good s' (with_obj a p None).
Proof.
  intros G E. unfold destroy_at. rewrite (object_at_ok s a p U v G E).
  destruct (heap s (fst p)) as [k|] eqn:Eh.
  2:{ destruct p. rewrite (g_dead _ _ G) in E by assumption. discriminate. }
  eexists. split; [reflexivity|]. constructor; cbn.
  - intros b. unfold setm. destruct (Nat.eqb_spec b (fst p)) as [->|ne]; [|apply G].
    rewrite <- (g_blocks _ _ G), Eh. reflexivity.
  - intros b k'. unfold setm. destruct (Nat.eqb_spec b (fst p)) as [->|ne].
    + intros Ek o w. injection Ek as <-. cbn. rewrite filter_In. cbn.
      destruct (addr_eqb_spec (fst p, o) p) as [e|ne].
      * replace (o =? snd p) with true by (rewrite <- e; cbn; now rewrite N.eqb_refl). cbn.
        split; [intros [_ H]; discriminate|discriminate].
      * rewrite (g_objs _ _ G _ _ Eh). destruct (N.eqb_spec o (snd p)) as [e|ne'].
        { destruct ne. destruct p. cbn in *. congruence. }
        cbn. intuition.
    + intros Ek o w. destruct (addr_eqb_spec (b, o) p) as [e|ne']; [subst p; now cbn in ne|].
      now apply (g_objs _ _ G).
  - intros b o. unfold setm. destruct (Nat.eqb_spec b (fst p)) as [->|ne]; [discriminate|].
    destruct (addr_eqb_spec (b, o) p) as [e|ne']; [reflexivity|apply G].
  - apply G.
  - apply G.
  - intros b Hb. unfold setm. destruct (Nat.eqb_spec b (fst p)) as [->|ne]; [|now apply G].
    apply (g_fresh _ _ G) in Hb. congruence.
  - apply G.
  - intros q W w. destruct (addr_eqb_spec q p); [discriminate|apply G].
  - split; [apply G|]. eapply (g_here _ _ G); eauto.
  - intros b n' al'. rewrite <- (g_held _ _ G). unfold held. cbn. split.
    + intros [[H|Hin] N]; [discriminate|]. split; [exact Hin|]. intros n2 al2 H. apply (N n2 al2). now right.
    + intros [Hin N]. split; [now right|]. intros n2 al2 [H|H]; [congruence|]. now apply N in H.
  - intros q W w. destruct (addr_eqb_spec q p) as [->|ne]; [discriminate|].
    intros H. apply here_cons; try congruence. eapply (g_here _ _ G); eauto.
  - intros q W N. destruct (addr_eqb_spec q p) as [->|ne].
    + destruct (same_ty_spec W U) as [->|neW].
      * unfold gone. rewrite count_occ_cons_neq, count_occ_cons_eq by congruence.
        eapply (g_here _ _ G); eauto.
      * apply here_cons; try congruence. apply (g_gone _ _ G). intros w. rewrite E. congruence.
    + apply here_cons; try congruence. now apply (g_gone _ _ G).
  - intros b n' al' [H|Hin]; [discriminate|]. now apply (g_old _ _ G) in Hin.
  - intros b n' al' [H|Hin]; [discriminate|]. now apply (g_old' _ _ G) in Hin.
Qed.

Lemma set_alloc_ok s a x r : good s a -> aalloc a x = None ->
  exists s', set_alloc x r s = Ok tt s' /\ good s' (with_alloc a x (Some r)).
Proof.
  intros G E. eexists. unfold set_alloc. rewrite (g_alloc _ _ G), E. split; [reflexivity|].
  constructor; cbn; try apply G. intros y. unfold setm. destruct (y =? x)%nat; [reflexivity|apply G].
Qed.
Lemma resource_ok s a x r : good s a -> aalloc a x = Some r -> resource x s = Ok r s.
Proof. intros G E. unfold resource. now rewrite (g_alloc _ _ G), E. Qed.

Lemma one_size U : proper U -> (1 * size_of U) mod two64 = size_of U.
Proof. intros [[_ L] _]. rewrite N.mul_1_l. now apply N.mod_small. Qed.

Lemma room_new a r U : proper U -> (forall o, aobjs a (anext a, o) = None) ->
  room (new_block a r (size_of U) (align_of U)) (anext a, 0) U.
Proof.
  intros [_ A] Va. exists r, (size_of U), (align_of U). cbn. rewrite setm_eq.
  split; [reflexivity|]. split; [lia|]. split; [now apply N.mod_same|]. split; [reflexivity|].
  intros o U' v. rewrite Va. discriminate.
Qed.

Variable max_align : N.
Lemma call_sim s a o x a' : good s a -> fits o -> sstep max_align a o x a' ->
  exists s', good s' a' /\
    match x with
    | inl r => call max_align o s = Ok r s'
    | inr e => call max_align o s = Throw e s'
    end.
Proof.
  intros G F St. pose proof (resource_ok s a) as R.
  destruct St as [a x r Ex|a x y r Ex Ey|a x r Ex|a x r n al Ex|a x r n Ex|a x r n al Ex|
    a x r U n Ex|a x r U n Ex|a x r b n al Ex Eb Va|a x r b n Ex Eb Va|a x r b U n Ex Eb Va|
    a p U v Rm|a p U v Rm|a p U v Ep|a p U v Ep|a x r U v Ex|a x r U v t Ex|a x r U v Ex|
    a x r U b v Ex Ep Eb Va]; cbn [call fits alignment] in *.
  - destruct (set_alloc_ok s a x r G Ex) as (s' & E & G'). exists s'. split; [exact G'|].
    unfold bind. now rewrite E.
  - destruct (set_alloc_ok s a x r G Ex) as (s' & E & G'). exists s'. split; [exact G'|].
    unfold bind. now rewrite (R _ _ G Ey), E.
  - exists s. split; [exact G|]. unfold bind. now rewrite (R _ _ G Ex).
  - destruct (res_allocate_ok s a r n al G F) as (s' & E & G'). exists s'. split; [exact G'|].
    unfold allocate_bytes, bind. now rewrite (R _ _ G Ex), E.
  - destruct (res_allocate_ok s a r n max_align G F) as (s' & E & G'). exists s'. split; [exact G'|].
    unfold allocate_bytes, bind. now rewrite (R _ _ G Ex), E.
  - exists s. split; [exact G|]. unfold allocate_bytes, bind. now rewrite (R _ _ G Ex).
  - destruct F as [_ F]. destruct (res_allocate_ok s a r _ (align_of U) G F) as (s' & E & G').
    exists s'. split; [exact G'|]. unfold allocate_object, allocate_bytes, bind.
    rewrite (R _ _ G Ex), N.mod_small by exact F. now rewrite E.
  - exists s. split; [exact G|]. unfold allocate_object, allocate_bytes, bind. now rewrite (R _ _ G Ex).
  - destruct (res_deallocate_ok s a r b n al G Eb Va) as (s' & E & G'). exists s'. split; [exact G'|].
    unfold deallocate_bytes, bind. now rewrite (R _ _ G Ex), E.
  - destruct (res_deallocate_ok s a r b n _ G Eb Va) as (s' & E & G'). exists s'. split; [exact G'|].
    unfold deallocate_bytes, bind. now rewrite (R _ _ G Ex), E.
  - destruct (res_deallocate_ok s a r b _ _ G Eb Va) as (s' & E & G'). exists s'. split; [exact G'|].
    unfold deallocate_object, deallocate_bytes, bind.
    rewrite (R _ _ G Ex), N.mod_small by (eapply (g_small _ _ G); eauto). now rewrite E.
  - destruct (construct_ok s a p U v G F Rm) as (s' & E & G'). exists s'. split; [exact G'|].
    unfold bind. now rewrite E.
  - exists s. split; [exact G|]. unfold bind. now rewrite (construct_throws s a p U v G Rm).
  - destruct (destroy_ok s a p U v G Ep) as (s' & E & G'). exists s'. split; [exact G'|].
    unfold bind. now rewrite E.
  - exists s. split; [exact G|]. now rewrite (object_at_ok s a p U v G Ep).
  - destruct (res_allocate_ok s a r (size_of U) (align_of U) G) as (s1 & E1 & G1); [apply F|].
    assert (Rm := room_new a r U F (fun o => g_dead _ _ G (anext a) o
                    (g_fresh _ _ G _ (Nat.eq_le_incl _ _ (g_next _ _ G))))).
    destruct (construct_ok s1 _ _ U v G1 F Rm) as (s2 & E2 & G2).
    exists s2. split; [exact G2|]. unfold new_object, allocate_object, allocate_bytes, bind.
    rewrite one_size by exact F. now rewrite (R _ _ G Ex), E1, E2.
  - exists s. split; [exact G|]. unfold new_object, allocate_object, allocate_bytes, bind.
    now rewrite (R _ _ G Ex).
  - destruct (res_allocate_ok s a r (size_of U) (align_of U) G) as (s1 & E1 & G1); [apply F|].
    assert (Va : forall o, aobjs a (anext a, o) = None) by (exact (fun o => g_dead _ _ G (anext a) o
                    (g_fresh _ _ G _ (Nat.eq_le_incl _ _ (g_next _ _ G))))).
    assert (Rm := room_new a r U F Va).
    destruct (res_deallocate_ok s1 _ r (anext a) (size_of U) (align_of U) G1) as (s2 & E2 & G2).
    { cbn. apply setm_eq. } { exact Va. }
    exists s2. split.
    + eapply good_ext; [|exact G2]. constructor; try reflexivity. intros b. cbn. unfold setm.
      destruct (Nat.eqb_spec b (anext a)) as [->|ne]; [|reflexivity].
      rewrite <- (g_blocks _ _ G), (g_fresh _ _ G); [reflexivity|]. rewrite (g_next _ _ G). auto.
    + unfold new_object, allocate_object, deallocate_object, allocate_bytes, deallocate_bytes, bind.
      rewrite !one_size by exact F. rewrite (R _ _ G Ex), E1, (construct_throws _ _ _ _ _ G1 Rm).
      rewrite (resource_ok s1 _ x r G1 Ex), E2. reflexivity.
  - destruct (destroy_ok s a _ U v G Ep) as (s1 & E1 & G1).
    destruct (res_deallocate_ok s1 _ r b (size_of U) (align_of U) G1) as (s2 & E2 & G2).
    { exact Eb. }
    { intros o. cbn. destruct (addr_eqb_spec (b, o) (b, 0)) as [e|ne]; [reflexivity|]. apply Va. congruence. }
    exists s2. split; [exact G2|]. unfold delete_object, deallocate_object, deallocate_bytes, bind.
    rewrite !one_size by exact F. rewrite E1, (resource_ok s1 _ x r G1 Ex), E2. reflexivity.
Qed.

Lemma calls_sim s a os xs a' : good s a -> Forall fits os -> ssteps max_align a os xs a' ->
  exists s', calls max_align os s = Ok xs s' /\ good s' a'.
Proof.
  intros G F St. revert s G. induction St as [a|a o x a1 os xs a2 St Sts IH]; intros s G.
  - exists s. auto.
  - inversion F as [|? ? F1 F2]; subst. destruct (call_sim s a o x a1 G F1 St) as (s1 & G1 & E).
    destruct (IH F2 s1 G1) as (s2 & E2 & G2). exists s2. split; [|exact G2].
    cbn. destruct x as [r|e]; rewrite E, E2; reflexivity.
Qed.
End Proofs.
