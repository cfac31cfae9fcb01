(** The model of ufunction does what the specification says. *)
From Coq Require Import List Arith Bool Lia.
From Verif Require Import Base UfunModel UfunSpec.
Import ListNotations.

Section Proofs.
Context {St A R : Type}.
Notation store := (store St).
Notation ast := (ast St).
Notation fn := (nat * callable St)%type.
Implicit Types (s : store) (a : ast) (u i r : nat) (H : list (nat * fn)).

(** What a ufunction owns is in its place; [H] are the places in hand, which no ufunction has
    yet or any more. *)
Record good H s a : Prop := {
  g_uf : forall u, match owns a u with
                   | None => ufs s u = None
                   | Some None => ufs s u = Some None
                   | Some (Some w) => exists i, ufs s u = Some (Some i) /\ places s i = Some (Some w)
                   end;
  g_hand : forall i w, In (i, w) H -> places s i = Some (Some w) /\ forall u, ufs s u <> Some (Some i);
  g_nodup : NoDup (map fst H);
  g_inj : forall u u' i, ufs s u = Some (Some i) -> ufs s u' = Some (Some i) -> u = u';
  g_cover : forall i, places s i <> None ->
    (exists u, ufs s u = Some (Some i)) \/ (exists w, In (i, w) H);
  g_fresh : forall i, nplace s <= i -> places s i = None;
  g_count : nres s = count a;
  g_res : forall i j r f f', places s i = Some (Some (r, f)) -> places s j = Some (Some (r, f')) -> i = j;
  g_old : forall i r f, places s i = Some (Some (r, f)) -> r < nres s;
  g_live : forall i r f, places s i = Some (Some (r, f)) -> count_occ Nat.eq_dec (released s) r = 0;
  g_dead : forall r, r < nres s -> (forall i f, places s i <> Some (Some (r, f))) ->
    count_occ Nat.eq_dec (released s) r = 1;
  g_new : forall r, nres s <= r -> count_occ Nat.eq_dec (released s) r = 0
}.
Notation G0 := (good []).

Lemma good_init : G0 init ainit.
Proof.
  constructor; cbn; try tauto; try congruence; auto.
  - constructor.
  - intros. lia.
Qed.

Lemma good_ext H s a a' : (forall u, owns a u = owns a' u) -> count a = count a' ->
  good H s a -> good H s a'.
Proof.
  intros E1 E2 G. constructor; try apply G.
  - intros u. rewrite <- E1. apply G.
  - rewrite <- E2. apply G.
Qed.

Lemma get_uf_ok H s a u v : good H s a -> owns a u = Some v -> exists h,
  get_uf u s = Ok h s /\ ufs s u = Some h /\
  match v with Some w => exists i, h = Some i /\ places s i = Some (Some w) | None => h = None end.
Proof.
  intros G E. pose proof (g_uf _ _ _ G u) as U. rewrite E in U. unfold get_uf. destruct v as [w|].
  - destruct U as (i & Eu & Ei). rewrite Eu. exists (Some i). eauto.
  - rewrite U. eauto.
Qed.

(** Giving a ufunction a place which is in hand, or none. *)
Lemma give_good H s a u v h :
  (match v with Some w => exists i, h = Some i /\ places s i = Some (Some w) | None => h = None end) ->
  (ufs s u = None \/ ufs s u = Some None) ->
  good (match h, v with Some i, Some w => (i, w) :: H | _, _ => H end) s a ->
  good H (mkStore (places s) (nplace s) (nres s) (setm (ufs s) u (Some h)) (released s))
       (with_uf a u (Some v)).
Proof.
  intros Hv Hu G. constructor; cbn.
  - intros x. unfold setm. destruct (Nat.eqb_spec x u) as [->|ne].
    + destruct v as [w|]; [destruct Hv as (i & -> & Ei); eauto|now subst h].
    + apply (g_uf _ _ _ G).
  - intros i w Hin. split.
    + apply (g_hand _ _ _ G). destruct h, v; try now right. exact Hin. exact Hin. exact Hin.
    + intros x. unfold setm. destruct (Nat.eqb_spec x u) as [->|ne].
      * intros E. injection E as ->. destruct v as [w'|]; [|discriminate]. pose proof (g_nodup _ _ _ G) as ND.
        cbn in ND. inversion ND as [|? ? N _]. apply N. now apply in_map with (f := fst) in Hin.
      * apply (g_hand _ _ _ G i w). destruct h, v; try now right. exact Hin. exact Hin. exact Hin.
  - pose proof (g_nodup _ _ _ G) as ND. destruct h, v; try exact ND. now inversion ND.
  - intros x y i. unfold setm. destruct (Nat.eqb_spec x u) as [->|ne], (Nat.eqb_spec y u) as [->|ne'];
      try reflexivity.
    + intros E1 E2. injection E1 as ->. destruct v as [w|]; [|discriminate].
      exfalso. eapply (g_hand _ _ _ G); [now left|exact E2].
    + intros E1 E2. injection E2 as ->. destruct v as [w|]; [|discriminate].
      exfalso. eapply (g_hand _ _ _ G); [now left|exact E1].
    + apply G.
  - intros i N. destruct (g_cover _ _ _ G i N) as [[x E]|[w Hin]].
    + left. exists x. rewrite setm_neq; [exact E|]. intros ->. destruct Hu; congruence.
    + destruct h as [j|], v as [w'|]; try (right; eauto; fail).
      destruct Hin as [E|Hin]; [|right; eauto]. injection E as <- <-. left. exists u. apply setm_eq.
  - apply G.
  - apply G.
  - apply G.
  - apply G.
  - apply G.
  - apply G.
  - apply G.
Qed.

(** Taking what a ufunction owns; it is empty then, or gone. *)
Lemma take_good H s a u v h (z : option (option nat)) (z' : option (option fn)) :
  owns a u = Some v -> ufs s u = Some h ->
  (z = Some None /\ z' = Some None) \/ (z = None /\ z' = None) ->
  good H s a ->
  good (match h, v with Some i, Some w => (i, w) :: H | _, _ => H end)
       (mkStore (places s) (nplace s) (nres s) (setm (ufs s) u z) (released s)) (with_uf a u z').
Proof.
  intros Ea Es Z G. pose proof (g_uf _ _ _ G u) as U. rewrite Ea in U.
  assert (Nz : forall i, z <> Some (Some i)) by (intros i; destruct Z as [[-> _]|[-> _]]; discriminate).
  assert (HH : forall i w, In (i, w) (match h, v with Some i, Some w => (i, w) :: H | _, _ => H end) ->
               In (i, w) H \/ (h = Some i /\ v = Some w)).
  { intros i w. destruct h, v; auto. intros [E|Hin]; [injection E as -> ->|]; auto. }
  constructor; cbn.
  - intros x. unfold setm. destruct (Nat.eqb_spec x u) as [->|ne].
    + destruct Z as [[-> ->]|[-> ->]]; reflexivity.
    + apply (g_uf _ _ _ G).
  - intros i w Hin. apply HH in Hin as [Hin|[-> ->]].
    + split; [now apply (g_hand _ _ _ G)|]. intros x. unfold setm.
      destruct (x =? u); [apply Nz|now apply (g_hand _ _ _ G i w)].
    + destruct U as (j & Eu & Ej). rewrite Es in Eu. injection Eu as <-. split; [exact Ej|].
      intros x. unfold setm. destruct (Nat.eqb_spec x u) as [->|ne]; [apply Nz|].
      intros E. apply ne. eapply (g_inj _ _ _ G); eauto.
  - pose proof (g_nodup _ _ _ G) as ND. destruct h as [i|], v as [w|]; try exact ND. cbn. constructor; [|exact ND].
    intros Hin. apply in_map_iff in Hin as ([j w'] & E & Hin). cbn in E. subst j.
    eapply (g_hand _ _ _ G); eauto.
  - intros x y i. unfold setm. destruct (x =? u); [intros E; now apply Nz in E|].
    destruct (y =? u); [intros _ E; now apply Nz in E|apply G].
  - intros i N. destruct (g_cover _ _ _ G i N) as [[x E]|[w Hin]].
    + destruct (Nat.eq_dec x u) as [->|ne]; [|left; exists x; now rewrite setm_neq].
      right. rewrite Es in E. injection E as ->. destruct v as [w|].
      * exists w. now left.
      * congruence.
    + right. exists w. destruct h, v; auto. now right.
  - apply G.
  - apply G.
  - apply G.
  - apply G.
  - apply G.
  - apply G.
  - apply G.
Qed.

(** Destroying a place in hand. *)
Lemma end_good H s a i w : good ((i, w) :: H) s a -> exists s', end_place i s = Ok tt s' /\ good H s' a.
Proof.
  intros G. destruct (g_hand _ _ _ G i w (or_introl eq_refl)) as [Ei Ni]. destruct w as [r f].
  eexists. unfold end_place. rewrite Ei. split; [reflexivity|].
  assert (NDi : ~ In i (map fst H)) by (pose proof (g_nodup _ _ _ G) as ND; now inversion ND).
  constructor; cbn [places nplace nres ufs released].
  - intros u. pose proof (g_uf _ _ _ G u) as U. destruct (owns a u) as [[w|]|]; auto.
    destruct U as (j & Eu & Ej). exists j. split; [exact Eu|]. rewrite setm_neq; [exact Ej|].
    intros ->. now apply (Ni u).
  - intros j w Hin. split.
    + rewrite setm_neq; [apply (g_hand _ _ _ G); now right|]. intros ->. apply NDi.
      now apply in_map with (f := fst) in Hin.
    + apply (g_hand _ _ _ G j w). now right.
  - pose proof (g_nodup _ _ _ G) as ND. now inversion ND.
  - apply G.
  - intros j. unfold setm. destruct (Nat.eqb_spec j i) as [->|ne]; [congruence|]. intros N.
    destruct (g_cover _ _ _ G j N) as [?|[w [E|Hin]]]; [auto|congruence|eauto].
  - intros j L. unfold setm. destruct (j =? i); [reflexivity|now apply G].
  - apply G.
  - intros j j' q g g'. unfold setm. destruct (j =? i); [discriminate|]. destruct (j' =? i); [discriminate|].
    apply G.
  - intros j q g. unfold setm. destruct (j =? i); [discriminate|]. apply G.
  - intros j q g. unfold setm. destruct (Nat.eqb_spec j i) as [->|ne]; [discriminate|]. intros E.
    rewrite count_occ_cons_neq; [eapply (g_live _ _ _ G); eauto|]. intros ->. apply ne.
    eapply (g_res _ _ _ G); eauto.
  - intros q L N. destruct (Nat.eq_dec r q) as [->|ne].
    + rewrite count_occ_cons_eq by reflexivity. f_equal. eapply (g_live _ _ _ G); eauto.
    + rewrite count_occ_cons_neq by assumption. apply (g_dead _ _ _ G); [exact L|].
      intros j g E. apply (N j g). rewrite setm_neq; [exact E|]. intros ->. congruence.
  - intros q L. rewrite count_occ_cons_neq; [now apply (g_new _ _ _ G)|].
    pose proof (g_old _ _ _ G _ _ _ Ei). lia.
Qed.

(** A new place in hand: [n] is new, and so is the function. *)
Lemma new_good H s a n k f (P : nat -> option (option fn)) :
  nplace s <= n -> n < k ->
  (forall i, P i = if i =? n then Some (Some (nres s, f)) else places s i) ->
  good H s a ->
  good ((n, (count a, f)) :: H) (mkStore P k (S (nres s)) (ufs s) (released s))
       (mkA (owns a) (S (count a))).
Proof.
  intros L Lk EP G. pose proof (g_count _ _ _ G) as Ec.
  assert (Nn : forall i w, places s i = Some w -> i <> n).
  { intros i w E ->. rewrite (g_fresh _ _ _ G) in E by exact L. discriminate. }
  assert (Nu : forall u, ufs s u <> Some (Some n)).
  { intros u E. pose proof (g_uf _ _ _ G u) as U. destruct (owns a u) as [[w|]|]; try congruence.
    destruct U as (i & Eu & Ei). rewrite E in Eu. injection Eu as <-. now apply Nn in Ei. }
  constructor; cbn [places nplace nres ufs released owns count].
  - intros u. pose proof (g_uf _ _ _ G u) as U. destruct (owns a u) as [[w|]|]; auto.
    destruct U as (i & Eu & Ei). exists i. split; [exact Eu|]. rewrite EP.
    destruct (Nat.eqb_spec i n) as [->|ne]; [now apply Nn in Ei|exact Ei].
  - intros i w [E|Hin].
    + injection E as <- <-. rewrite EP, Nat.eqb_refl, Ec. auto.
    + destruct (g_hand _ _ _ G i w Hin) as [Ei Ni]. split; [|exact Ni]. rewrite EP.
      destruct (Nat.eqb_spec i n) as [->|ne]; [now apply Nn in Ei|exact Ei].
  - cbn. constructor; [|apply G]. intros Hin. apply in_map_iff in Hin as ([j w] & E & Hin).
    cbn in E. subst j. apply (g_hand _ _ _ G) in Hin as [Ei _]. now apply Nn in Ei.
  - apply G.
  - intros i. rewrite EP. destruct (Nat.eqb_spec i n) as [->|ne]; [right; eexists; now left|].
    intros N. destruct (g_cover _ _ _ G i N) as [?|[w Hin]]; [auto|]. right. exists w. now right.
  - intros i Li. rewrite EP. destruct (Nat.eqb_spec i n) as [->|ne]; [lia|]. apply (g_fresh _ _ _ G). lia.
  - now rewrite Ec.
  - intros i j r g g'. rewrite !EP. destruct (Nat.eqb_spec i n) as [->|ne], (Nat.eqb_spec j n) as [->|ne'];
      try congruence.
    + intros E1 E2. injection E1 as <- <-. apply (g_old _ _ _ G) in E2. lia.
    + intros E1 E2. injection E2 as <- <-. apply (g_old _ _ _ G) in E1. lia.
    + apply G.
  - intros i r g. rewrite EP. destruct (i =? n); [intros E; injection E; lia|].
    intros E. apply (g_old _ _ _ G) in E. lia.
  - intros i r g. rewrite EP. destruct (i =? n).
    + intros E. injection E as <- <-. apply (g_new _ _ _ G). lia.
    + apply G.
  - intros r Lr N. destruct (Nat.eq_dec r (nres s)) as [->|ne].
    + exfalso. apply (N n f). now rewrite EP, Nat.eqb_refl.
    + apply (g_dead _ _ _ G); [lia|]. intros i g E. apply (N i g). rewrite EP.
      destruct (Nat.eqb_spec i n) as [->|ne']; [now apply Nn in E|exact E].
  - intros r Lr. apply (g_new _ _ _ G). lia.
Qed.

Lemma wrap_good H s a f : good H s a -> exists i s', wrap f false false s = Ok i s' /\
  good ((i, (count a, f)) :: H) s' (mkA (owns a) (S (count a))) /\ ufs s' = ufs s.
Proof.
  intros G. do 2 eexists.
  unfold wrap, new_param, std_function, move_new, bind, new_place, get_place, set_place, end_place, ret.
  repeat (cbn [places nplace nres ufs released]; unfold setm;
          rewrite ?Nat.eqb_refl; rewrite ?(proj2 (Nat.eqb_neq _ _)) by lia).
  split; [reflexivity|]. split; [|reflexivity].
  apply new_good with (n := S (S (nplace s))); [lia|lia| |exact G].
  intros i. cbn. destruct (Nat.eqb_spec i (S (S (nplace s)))) as [->|ne].
  - now rewrite !(proj2 (Nat.eqb_neq _ _)) by lia.
  - destruct (Nat.eqb_spec i (nplace s)) as [->|ne1]; [symmetry; apply (g_fresh _ _ _ G); lia|].
    destruct (Nat.eqb_spec i (S (nplace s))) as [->|ne2]; [symmetry; apply (g_fresh _ _ _ G); lia|].
    reflexivity.
Qed.
Lemma param_good H s a f : good H s a -> exists i s', new_param f s = Ok i s' /\
  good ((i, (count a, f)) :: H) s' (mkA (owns a) (S (count a))) /\ ufs s' = ufs s.
Proof.
  intros G. do 2 eexists. unfold new_param, new_place. cbn [places nplace nres ufs released].
  split; [reflexivity|]. split; [|reflexivity].
  apply new_good with (n := nplace s); [lia|lia|reflexivity|exact G].
Qed.

Lemma no_uf H s a u : good H s a -> owns a u = None -> ufs s u = None.
Proof. intros G E. pose proof (g_uf _ _ _ G u) as U. now rewrite E in U. Qed.
Lemma empty_uf H s a u : good H s a -> owns a u = Some None -> ufs s u = Some None.
Proof. intros G E. pose proof (g_uf _ _ _ G u) as U. now rewrite E in U. Qed.

Lemma new_uf_ok s a u v h :
  (match v with Some w => exists i, h = Some i /\ places s i = Some (Some w) | None => h = None end) ->
  owns a u = None -> good (match h, v with Some i, Some w => [(i, w)] | _, _ => [] end) s a ->
  exists s', new_uf u h s = Ok tt s' /\ G0 s' (with_uf a u (Some v)).
Proof.
  intros Hv E G. eexists. unfold new_uf. rewrite (no_uf _ _ _ _ G E). split; [reflexivity|].
  apply give_good; auto. left. eapply no_uf; eauto.
Qed.
Lemma swap_in_ok s a u v v' h :
  (match v with Some w => exists i, h = Some i /\ places s i = Some (Some w) | None => h = None end) ->
  owns a u = Some v' -> good (match h, v with Some i, Some w => [(i, w)] | _, _ => [] end) s a ->
  exists s', swap_in u h s = Ok tt s' /\ G0 s' (with_uf a u (Some v)).
Proof.
  intros Hv E G. destruct (get_uf_ok _ _ _ _ _ G E) as (old & Eg & Eu & Hold).
  unfold swap_in, bind. rewrite Eg. unfold put_uf. rewrite Eu.
  pose proof (take_good _ s a u v' old (Some None) (Some None) E Eu (or_introl (conj eq_refl eq_refl)) G) as G1.
  set (s1 := mkStore _ _ _ _ _) in G1.
  assert (G2 : good (match old, v' with Some i, Some w => [(i, w)] | _, _ => [] end)
                 (mkStore (places s) (nplace s) (nres s) (setm (setm (ufs s) u (Some None)) u (Some h)) (released s))
                 (with_uf (with_uf a u (Some None)) u (Some v))).
  { apply (give_good _ s1 _ u v h); [exact Hv| |].
    - right. cbn. apply setm_eq.
    - destruct v as [w|]; [|subst h; exact G1]. destruct Hv as (i & -> & Ei). cbn in *.
      destruct old as [j|], v' as [w'|]; try exact G1.
      constructor; try apply G1.
      + intros k x [Hin|[Hin|[]]]; apply (g_hand _ _ _ G1); cbn; auto.
      + pose proof (g_nodup _ _ _ G1) as ND. cbn in *. inversion ND as [|? ? N1 _]; subst.
        constructor; [|constructor; [tauto|constructor]]. cbn in *. intros [->|[]]. tauto.
      + intros k N. destruct (g_cover _ _ _ G1 k N) as [?|[x Hin]]; [auto|]. right. exists x.
        cbn in *. tauto. }
  assert (G3 : good (match old, v' with Some i, Some w => [(i, w)] | _, _ => [] end)
                 (mkStore (places s) (nplace s) (nres s) (setm (ufs s) u (Some h)) (released s))
                 (with_uf a u (Some v))).
  { assert (Es : forall x, setm (setm (ufs s) u (Some None)) u (Some h) x = setm (ufs s) u (Some h) x).
    { intros x. unfold setm. now destruct (x =? u). }
    assert (Eo : forall x, owns (with_uf (with_uf a u (Some None)) u (Some v)) x = owns (with_uf a u (Some v)) x).
    { intros x. cbn. unfold setm. now destruct (x =? u). }
    apply (good_ext _ _ _ (with_uf a u (Some v)) Eo eq_refl) in G2. clear - Es G2.
    constructor; cbn [places nplace nres ufs released]; try apply G2.
    - intros x. rewrite <- Es. apply (g_uf _ _ _ G2).
    - intros i w Hin. apply (g_hand _ _ _ G2) in Hin as [? N]. split; [assumption|].
      intros x. rewrite <- Es. apply N.
    - intros x y i. rewrite <- !Es. apply (g_inj _ _ _ G2).
    - intros i N. destruct (g_cover _ _ _ G2 i N) as [[x Ex]|?]; [|auto]. left. exists x. now rewrite <- Es. }
  destruct v' as [w'|].
  - destruct Hold as (j & -> & Ej). destruct (end_good _ _ _ _ _ G3) as (s' & Ee & G').
    exists s'. cbn [free]. auto.
  - subst old. eexists. split; [reflexivity|exact G3].
Qed.

Variable apply : St -> A -> R * St.
Notation sstep := (sstep apply).
Notation call := (call apply).

Lemma taken_hand (v : option fn) (h : option nat) s :
  (match v with Some w => exists i, h = Some i /\ places s i = Some (Some w) | None => h = None end) ->
  match h, v with Some i, Some w => [(i, w)] | _, _ => [] end =
  match v with Some w => match h with Some i => [(i, w)] | None => [] end | None => [] end.
Proof. destruct v, h; intros; auto. Qed.

Lemma call_sim s a o x a' : G0 s a -> sstep a o x a' ->
  exists s', call o s = Ok x s' /\ G0 s' a'.
Proof.
  intros G Hs. destruct Hs as [a u E|a u f E|a u st E|a u E|a u w v E Ew|a u v E|a u v f E|a u v st E|
    a u v E|a u w v v' E Ew ne|a u v E|a u v E|a u v b E Hb|a u r st x y st' E Ea|a u x E|a u r x E];
    cbn [UfunModel.call].
  - destruct (new_uf_ok s a u None None eq_refl E G) as (s' & Es & G'). exists s'.
    unfold bind. rewrite Es. split; [reflexivity|exact G'].
  - destruct (wrap_good [] s a f G) as (i & s1 & E1 & G1 & _).
    destruct (new_uf_ok s1 (mkA (owns a) (S (count a))) u (Some (count a, f)) (Some i)) with (3 := G1) as (s' & Es & G').
    { exists i. split; [reflexivity|]. apply (g_hand _ _ _ G1). now left. } { exact E. }
    exists s'. unfold bind. rewrite E1, Es. split; [reflexivity|exact G'].
  - destruct (param_good [] s a (Fun st) G) as (i & s1 & E1 & G1 & _).
    destruct (new_uf_ok s1 (mkA (owns a) (S (count a))) u (Some (count a, Fun st)) (Some i)) with (3 := G1) as (s' & Es & G').
    { exists i. split; [reflexivity|]. apply (g_hand _ _ _ G1). now left. } { exact E. }
    exists s'. unfold bind, wrap_ptr, bind. rewrite E1. cbn. rewrite Es. split; [reflexivity|exact G'].
  - destruct (new_uf_ok s a u None None eq_refl E G) as (s' & Es & G'). exists s'.
    unfold bind, wrap_ptr, ret. rewrite Es. split; [reflexivity|exact G'].
  - destruct (get_uf_ok _ _ _ _ _ G Ew) as (h & Eg & Eu & Hh).
    pose proof (take_good _ s a w v h (Some None) (Some None) Ew Eu (or_introl (conj eq_refl eq_refl)) G) as G1.
    destruct (fun X Y => new_uf_ok _ _ u v h X Y G1) as (s' & Es & G').
    { exact Hh. } { cbn. rewrite setm_neq; [exact E|]. congruence. }
    exists s'. unfold bind. rewrite Eg. unfold put_uf. rewrite Eu, Es. split; [reflexivity|exact G'].
  - destruct (swap_in_ok s a u None v None eq_refl E G) as (s' & Es & G'). exists s'.
    unfold bind. rewrite Es. split; [reflexivity|exact G'].
  - destruct (wrap_good [] s a f G) as (i & s1 & E1 & G1 & _).
    destruct (swap_in_ok s1 (mkA (owns a) (S (count a))) u (Some (count a, f)) v (Some i)) with (3 := G1) as (s' & Es & G').
    { exists i. split; [reflexivity|]. apply (g_hand _ _ _ G1). now left. } { exact E. }
    exists s'. unfold bind. rewrite E1, Es. split; [reflexivity|exact G'].
  - destruct (param_good [] s a (Fun st) G) as (i & s1 & E1 & G1 & _).
    destruct (swap_in_ok s1 (mkA (owns a) (S (count a))) u (Some (count a, Fun st)) v (Some i)) with (3 := G1) as (s' & Es & G').
    { exists i. split; [reflexivity|]. apply (g_hand _ _ _ G1). now left. } { exact E. }
    exists s'. unfold bind, wrap_ptr, bind. rewrite E1. cbn. rewrite Es. split; [reflexivity|exact G'].
  - destruct (swap_in_ok s a u None v None eq_refl E G) as (s' & Es & G'). exists s'.
    unfold bind, wrap_ptr, ret. rewrite Es. split; [reflexivity|exact G'].
  - destruct (get_uf_ok _ _ _ _ _ G Ew) as (h & Eg & Eu & Hh).
    pose proof (take_good _ s a w v' h (Some None) (Some None) Ew Eu (or_introl (conj eq_refl eq_refl)) G) as G1.
    destruct (fun X Y => swap_in_ok _ _ u v' v h X Y G1) as (s' & Es & G').
    { exact Hh. } { cbn. rewrite setm_neq; [exact E|]. congruence. }
    exists s'. unfold bind. rewrite Eg. unfold put_uf. rewrite Eu, Es. split; [reflexivity|exact G'].
  - destruct (get_uf_ok _ _ _ _ _ G E) as (h & Eg & Eu & Hh).
    pose proof (take_good _ s a u v h (Some None) (Some None) E Eu (or_introl (conj eq_refl eq_refl)) G) as G1.
    destruct (fun X Y => swap_in_ok _ _ u v None h X Y G1) as (s' & Es & G').
    { exact Hh. } { cbn. apply setm_eq. }
    exists s'. unfold bind. rewrite Eg. unfold put_uf. rewrite Eu, Es. split; [reflexivity|].
    eapply good_ext; [| |exact G']; [|reflexivity]. intros y. cbn. unfold setm.
    destruct (Nat.eqb_spec y u) as [->|]; [now symmetry|reflexivity].
  - destruct (get_uf_ok _ _ _ _ _ G E) as (h & Eg & Eu & Hh).
    pose proof (take_good _ s a u v h None None E Eu (or_intror (conj eq_refl eq_refl)) G) as G1.
    unfold bind. rewrite Eg. unfold put_uf. rewrite Eu. destruct v as [w|].
    + destruct Hh as (i & -> & Ei). destruct (end_good _ _ _ _ _ G1) as (s' & Ee & G').
      exists s'. cbn [free]. rewrite Ee. auto.
    + subst h. eexists. split; [reflexivity|exact G1].
  - destruct (get_uf_ok _ _ _ _ _ G E) as (h & Eg & Eu & Hh). exists s. split; [|exact G].
    unfold bind. rewrite Eg. unfold ret. do 2 f_equal. destruct v as [w|].
    + destruct Hh as (i & -> & _). symmetry. apply Hb. discriminate.
    + subst h. destruct b; [|reflexivity]. exfalso. now apply Hb.
  - destruct (get_uf_ok _ _ _ _ _ G E) as (h & Eg & Eu & i & -> & Ei).
    eexists. unfold bind. rewrite Eg. unfold get_place. rewrite Ei. unfold set_place. rewrite Ei, Ea. cbn.
    split; [reflexivity|].
    assert (K : forall j, setm (places s) i (Some (Some (r, Fun st'))) j =
                          if j =? i then Some (Some (r, Fun st')) else places s j) by reflexivity.
    constructor; cbn [places nplace nres ufs released owns count with_uf].
    + intros z. unfold setm at 1. destruct (Nat.eqb_spec z u) as [->|ne].
      * exists i. split; [exact Eu|apply setm_eq].
      * pose proof (g_uf _ _ _ G z) as U. destruct (owns a z) as [[w|]|]; auto.
        destruct U as (j & Ez & Ej). exists j. split; [exact Ez|]. rewrite setm_neq; [exact Ej|].
        intros ->. apply ne. eapply (g_inj _ _ _ G); eauto.
    + intros j w [].
    + constructor.
    + apply G.
    + intros j. rewrite K. destruct (Nat.eqb_spec j i) as [->|]; [eauto|]. intros N.
      apply (g_cover _ _ _ G j N).
    + intros j L. rewrite K. destruct (Nat.eqb_spec j i) as [->|]; [|now apply G].
      rewrite (g_fresh _ _ _ G) in Ei by exact L. discriminate.
    + apply G.
    + intros j j' q g g'. rewrite !K.
      destruct (Nat.eqb_spec j i) as [->|], (Nat.eqb_spec j' i) as [->|]; try reflexivity.
      * intros E1 E2. injection E1 as <- <-. eapply (g_res _ _ _ G); eauto.
      * intros E1 E2. injection E2 as <- <-. eapply (g_res _ _ _ G); eauto.
      * apply G.
    + intros j q g. rewrite K. destruct (j =? i); [|apply G]. intros E1. injection E1 as <- <-.
      eapply (g_old _ _ _ G); eauto.
    + intros j q g. rewrite K. destruct (j =? i); [|apply G]. intros E1. injection E1 as <- <-.
      eapply (g_live _ _ _ G); eauto.
    + intros q L N. apply (g_dead _ _ _ G); [exact L|]. intros j g Ej.
      destruct (Nat.eq_dec j i) as [->|ne].
      * rewrite Ei in Ej. injection Ej as <- <-. apply (N i (Fun st')). apply setm_eq.
      * apply (N j g). now rewrite setm_neq.
    + apply G.
  - destruct (get_uf_ok _ _ _ _ _ G E) as (h & Eg & Eu & ->). exists s. split; [|exact G].
    unfold bind. now rewrite Eg.
  - destruct (get_uf_ok _ _ _ _ _ G E) as (h & Eg & Eu & i & -> & Ei). exists s. split; [|exact G].
    unfold bind. rewrite Eg. unfold get_place. now rewrite Ei.
Qed.

Lemma calls_sim s a os xs a' : G0 s a -> ssteps apply a os xs a' ->
  exists s', calls apply os s = Ok xs s' /\ G0 s' a'.
Proof.
  intros G Hs. revert s G. induction Hs as [a|a o x a1 os xs a2 Hs _ IH]; intros s G.
  - exists s. auto.
  - destruct (call_sim s a o x a1 G Hs) as (s1 & E1 & G1). destruct (IH s1 G1) as (s2 & E2 & G2).
    exists s2. split; [|exact G2]. cbn. unfold bind. now rewrite E1, E2.
Qed.

Lemma progress a o : legal a o -> exists x a', sstep a o x a'.
Proof.
  destruct o as [u|u f al th|u [st|]|u w|u|u f al th|u [st|]|u w|u|u|u x]; cbn; intros L.
  - eexists _, _. now constructor.
  - destruct L as (L & -> & ->). eexists _, _. now constructor.
  - eexists _, _. now constructor.
  - eexists _, _. now constructor.
  - destruct L as [L Lw]. destruct (owns a w) as [v|] eqn:E; [|congruence].
    eexists _, _. eapply s_other; eauto.
  - destruct (owns a u) as [v|] eqn:E; [|congruence]. eexists _, _. eapply s_set_null; eauto.
  - destruct L as (L & -> & ->). destruct (owns a u) as [v|] eqn:E; [|congruence].
    eexists _, _. eapply s_set_object; eauto.
  - destruct (owns a u) as [v|] eqn:E; [|congruence]. eexists _, _. eapply s_set_pointer; eauto.
  - destruct (owns a u) as [v|] eqn:E; [|congruence]. eexists _, _. eapply s_set_null_pointer; eauto.
  - destruct L as [L Lw]. destruct (owns a u) as [v|] eqn:E; [|congruence].
    destruct (Nat.eq_dec u w) as [->|ne]; [eexists _, _; eapply s_set_self; eauto|].
    destruct (owns a w) as [v'|] eqn:Ew; [|congruence]. eexists _, _. eapply s_set_other; eauto.
  - destruct (owns a u) as [v|] eqn:E; [|congruence]. eexists _, _. eapply s_drop; eauto.
  - destruct (owns a u) as [v|] eqn:E; [|congruence].
    exists (Bool (match v with Some _ => true | None => false end)). eexists. eapply s_has; [eauto|].
    destruct v; split; congruence.
  - destruct L as [L N]. destruct (owns a u) as [[[r [st| |]]|]|] eqn:E; try congruence.
    + destruct (apply st x) as [y st'] eqn:Ea. eexists _, _. eapply s_call; eauto.
    + eexists _, _. eapply s_call_emptyfn; eauto.
    + eexists _, _. eapply s_call_empty; eauto.
Qed.

Lemma good_owned s a r : G0 s a -> owned a r <-> exists i f, places s i = Some (Some (r, f)).
Proof.
  intros G. split.
  - intros (u & f & E). pose proof (g_uf _ _ _ G u) as U. rewrite E in U. destruct U as (i & _ & Ei). eauto.
  - intros (i & f & E). destruct (g_cover _ _ _ G i) as [[u Eu]|[w []]]; [congruence|].
    exists u. pose proof (g_uf _ _ _ G u) as U. destruct (owns a u) as [[w|]|] eqn:Ea; try congruence.
    destruct U as (j & Eu' & Ej). rewrite Eu in Eu'. injection Eu' as <-. rewrite E in Ej.
    injection Ej as <-. eauto.
Qed.
Lemma good_released s a r : G0 s a -> r < count a ->
  (owned a r -> count_occ Nat.eq_dec (released s) r = 0) /\
  (~ owned a r -> count_occ Nat.eq_dec (released s) r = 1).
Proof.
  intros G L. rewrite (good_owned s a r G). rewrite <- (g_count _ _ _ G) in L. split.
  - intros (i & f & E). eapply (g_live _ _ _ G); eauto.
  - intros N. apply (g_dead _ _ _ G); [exact L|]. intros i f E. apply N. eauto.
Qed.
(** No function has two owners, and no place is lost. *)
Lemma good_one_owner s a r u u' f f' : G0 s a ->
  owns a u = Some (Some (r, f)) -> owns a u' = Some (Some (r, f')) -> u = u'.
Proof.
  intros G E E'. pose proof (g_uf _ _ _ G u) as U. pose proof (g_uf _ _ _ G u') as U'.
  rewrite E in U. rewrite E' in U'. destruct U as (i & Eu & Ei), U' as (i' & Eu' & Ei').
  assert (i' = i) as -> by (eapply (g_res _ _ _ G); eauto). eapply (g_inj _ _ _ G); eauto.
Qed.

(** C69 *)
Lemma msteps_ssteps a os xs a' : Forall solid os -> msteps apply a os xs a' -> ssteps apply a os xs a'.
Proof.
  intros F Hm. induction Hm as [a|a o x a1 os xs a2 Hm _ IH]; [constructor|].
  inversion F as [|? ? F1 F2]; subst. econstructor; [|now apply IH].
  destruct Hm as [a u f E|a u v f E|a o x a1 Hs _]; cbn in F1.
  - destruct F1 as [st ->]. now constructor.
  - destruct F1 as [st ->]. eapply s_set_object; eauto.
  - exact Hs.
Qed.
End Proofs.
